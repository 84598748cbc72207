(** Scanning in chunks (proofs). *)
From Verif Require Import Base Iter CharMap CodePages Charset TextScanner Ideal ReaderSim ScannerSim IterSim
  CharsetSpec CharsetProofs CharsetMore ReadSpec ReadProofs ChunkRead XmlScanner ScanSpec ScanProofs Safety FuelMono.

Ltac Zify.zify_post_hook ::= Z.div_mod_to_equations.

(** ** Characters at the end of a chunk *)
Lemma casc_app : forall cs a c, (alen cs a <= length a)%nat -> casc cs (a ++ c) = casc cs a.
Proof.
  intros cs a c H. destruct cs as [|be|be|be|p]; cbn [alen] in H;
    try (pose proof (dec_app _ a c H) as E; apply (f_equal u_asc) in E; exact E).
  cbn [casc]. rewrite nb_app_l by lia. reflexivity.
Qed.
Lemma alen_app : forall cs a c, (alen cs a <= length a)%nat -> alen cs (a ++ c) = alen cs a.
Proof. intros cs a c H. destruct cs; cbn [alen] in *; try (apply clen_app; exact H). reflexivity. Qed.

Lemma utf8_clen : forall b l, clen UTF8 (b :: l) = if b <? 0xC0 then 1%nat else if b <? 256 then S (utf8_following b) else 1%nat.
Proof.
  intros b l. cbn [clen]. unfold nb. cbn [nth]. destruct (N.ltb_spec b 0xC0); [apply low_len; assumption|].
  destruct (N.ltb_spec b 256).
  - destruct (lead_any b ltac:(lia)) as [E _]. rewrite E. lia.
  - assert (E : nth (N.to_nat b) utf8LengthTab 0 = 0).
    { apply nth_overflow. assert (length utf8LengthTab = 256%nat) by reflexivity. lia. }
    rewrite E. reflexivity.
Qed.

(** an ASCII character is complete when it has been looked at *)
Lemma peek_full : forall cs a, (alen cs a <= length a)%nat -> casc cs a <> 255 -> (clen cs a <= length a)%nat.
Proof.
  intros cs a H Hc. destruct cs as [|be|be|be|p]; cbn [alen] in H; try exact H.
  destruct a as [|b a]; [cbn in H; lia|]. rewrite utf8_clen. cbn [casc] in Hc. unfold nb in Hc. cbn [nth] in Hc.
  destruct (N.ltb_spec 127 b); [congruence|]. destruct (N.ltb_spec b 0xC0); [cbn; lia|lia].
Qed.

(** a character that is not complete *)
Lemma split_multi : forall a w, Forall isByte (a ++ w) -> utf8_sequences (a ++ w) -> (1 <= length a)%nat ->
  (length a < clen UTF8 a)%nat ->
  exists conts rest, w = conts ++ rest /\ length conts = (clen UTF8 a - length a)%nat /\
    forallb continuation conts = true /\ utf8_sequences rest /\ skipn (clen UTF8 a) (a ++ w) = rest.
Proof.
  intros a w Hb Hu Ha Hc. destruct a as [|b a]; [cbn in Ha; lia|]. rewrite utf8_clen in *.
  cbn [app] in Hu. remember (b :: a ++ w) as L eqn:EL. destruct Hu as [|b' l Hlt Hl|b' conts l Hge Hlen Hf Hl]; [discriminate EL| |].
  - injection EL as -> El. destruct (N.ltb_spec b 0xC0); [cbn [length] in Hc; lia|lia].
  - injection EL as -> H1. destruct (N.ltb_spec b 0xC0); [lia|]. destruct (N.ltb_spec b 256); [|lia].
    cbn [length] in *.
    assert (Ea : a = firstn (length a) conts).
    { apply (f_equal (firstn (length a))) in H1. rewrite firstn_app, firstn_app, Nat.sub_diag, firstn_all in H1.
      cbn [firstn] in H1. rewrite app_nil_r in H1. rewrite <- H1 at 1.
      replace (length a - length conts)%nat with 0%nat by lia. cbn [firstn]. rewrite app_nil_r. reflexivity. }
    assert (Ew : w = skipn (length a) conts ++ l).
    { apply (f_equal (skipn (length a))) in H1. rewrite skipn_app, skipn_app, Nat.sub_diag, skipn_all in H1.
      cbn [skipn app] in H1. rewrite <- H1.
      replace (length a - length conts)%nat with 0%nat by lia. reflexivity. }
    exists (skipn (length a) conts), l. split; [exact Ew|]. split; [rewrite skipn_length; lia|].
    split.
    { rewrite forallb_forall in *. intros x Hx. apply Hf. rewrite <- (firstn_skipn (length a) conts).
      apply in_or_app. right. exact Hx. }
    split; [exact Hl|]. cbn [app skipn]. rewrite <- H1.
    rewrite skipn_app. rewrite <- Hlen, skipn_all, Nat.sub_diag. reflexivity.
Qed.

Lemma sequences_skip : forall l, Forall isByte l -> utf8_sequences l -> utf8_sequences (skipn (clen UTF8 l) l).
Proof.
  intros l Hb H. destruct H as [|b l Hlt Hl|b conts l Hge Hlen Hf Hl].
  - rewrite skipn_nil. constructor.
  - rewrite utf8_clen. destruct (N.ltb_spec b 0xC0); [exact Hl|lia].
  - rewrite utf8_clen. destruct (N.ltb_spec b 0xC0); [lia|]. destruct (N.ltb_spec b 256); [|lia].
    cbn [skipn]. rewrite skipn_app, <- Hlen, skipn_all, Nat.sub_diag. exact Hl.
Qed.
Lemma complete_skip : forall cs l, Forall isByte l -> complete_text cs l -> complete_text cs (skipn (clen cs l) l).
Proof. intros cs l Hb H E. subst cs. apply sequences_skip; auto. Qed.

Lemma skipn_Forall : forall {A} (P : A -> Prop) n l, Forall P l -> Forall P (skipn n l).
Proof. intros A P n l H. rewrite <- (firstn_skipn n l) in H. apply Forall_app in H. apply H. Qed.

Lemma u64_add_r : forall a b n, u64 a = u64 b -> u64 (a + n) = u64 (b + n).
Proof. intros a b n H. unfold u64 in *. lia. Qed.
Lemma u64_sub_r : forall a b n, u64 (a + n) = u64 (b + n) -> u64 a = u64 b.
Proof. intros a b n H. unfold u64 in *. lia. Qed.

(** ** The state of the statemachine is not changed by the parsing of tokens *)
Section Kept.
Context {R : Type} (rops : readerops R) (cfg : config).
Notation scn := (scanner R).
Definition stk {A} (st : stm) (x : out scn A) : Prop :=
  match x with Ret s _ | Jump s | Throw s => sc_state s = st | _ => True end.
Lemma stk_bind : forall {A B} st (x : out scn A) (f : scn -> A -> out scn B),
  stk st x -> (forall s a, sc_state s = st -> stk st (f s a)) -> stk st (bind x f).
Proof. intros A B st x f H Hf. destruct x; cbn [bind stk] in *; auto. Qed.
Lemma stk_src : forall {A} st (m : R -> out R A) s, sc_state s = st -> stk st (on_src m s).
Proof. intros A st m s H. unfold on_src. destruct (m (sc_src s)); cbn [omap stk]; auto. Qed.
Lemma pushes_state : forall l (s : scn), sc_state (pushes cfg l s) = sc_state s.
Proof. induction l as [|c l IH]; intros s; cbn [pushes]; [reflexivity|]. rewrite IH. reflexivity. Qed.
Lemma fallback_state : forall (s : scn), sc_state (fallbackEntity cfg s) = sc_state s.
Proof. intros s. unfold fallbackEntity. destruct (tk_id (sc_tok s)); rewrite ?pushes_state; reflexivity. Qed.
Lemma pushEntity_state : forall (s : scn), sc_state (fst (pushEntity cfg s)) = sc_state s.
Proof.
  intros s. unfold pushEntity. destruct (predefined _); [reflexivity|].
  destruct (cf_map cfg) as [m|]; [destruct (map_find m _)|]; reflexivity.
Qed.
Ltac stp := first [apply stk_src; assumption | apply stk_src; cbn; assumption | cbn [stk]; rewrite ?fallback_state; cbn; assumption].
Lemma stk_numBaseLoop : forall k st s, sc_state s = st -> stk st (numBaseLoop rops cfg k s).
Proof.
  induction k as [|k IH]; intros st s H; cbn [numBaseLoop]; [stp|].
  apply stk_bind; [stp|]. intros s1 c H1. destruct (c =? 59).
  - destruct (_ <? _).
    + destruct (tok_put _ _); [stp|exact I].
    + apply stk_bind; [stp|]. intros s2 u H2. stp.
  - destruct (HEX c); [|exact I]. destruct (_ <=? _); [stp|]. destruct (tok_put _ _); [|exact I].
    apply stk_bind; [stp|]. intros s2 u H2. apply IH. assumption.
Qed.
Lemma stk_numericBase : forall st s, sc_state s = st -> stk st (parseNumericBaseEntity rops cfg s).
Proof. intros st s H. apply stk_numBaseLoop. exact H. Qed.
Lemma stk_numeric : forall st s, sc_state s = st -> stk st (parseNumericEntity rops cfg s).
Proof.
  intros st s H. unfold parseNumericEntity. apply stk_bind; [stp|]. intros s1 c H1. destruct (c =? 120).
  - apply stk_bind; [stp|]. intros s2 u H2. apply stk_numericBase. assumption.
  - apply stk_numericBase. exact H1.
Qed.
Lemma stk_namedLoop : forall k st s c, sc_state s = st -> stk st (namedLoop rops k s c).
Proof.
  induction k as [|k IH]; intros st s c H; cbn [namedLoop]; [stp|].
  destruct (c =? 59); [stp|]. apply stk_bind; [stp|]. intros s1 cc H1. destruct (ctl_eqb cc CAny); [|stp].
  destruct (tok_put _ _); [|exact I]. apply stk_bind; [stp|]. intros s2 u H2. apply stk_bind; [stp|].
  intros s3 c' H3. apply IH. assumption.
Qed.
Lemma stk_named : forall st s, sc_state s = st -> stk st (parseNamedEntity rops cfg s).
Proof.
  intros st s H. unfold parseNamedEntity. apply stk_bind; [stp|]. intros s1 c H1.
  apply stk_bind; [apply stk_namedLoop; assumption|]. intros s2 c2 H2. destruct (c2 =? 59); [|stp].
  destruct (tok_put 0 (sc_tok s2)) as [tk|]; [|exact I].
  pose proof (pushEntity_state (set_tok tk s2)) as Hp.
  destruct (pushEntity cfg (set_tok tk s2)) as [s3 ok]. cbn [fst] in Hp.
  assert (H3 : sc_state s3 = st) by (rewrite Hp; exact H2). destruct ok; [|stp].
  apply stk_bind; [stp|]. intros s4 u H4. stp.
Qed.
Lemma stk_entity : forall st s, sc_state s = st -> stk st (parseEntity rops cfg s).
Proof.
  intros st s H. unfold parseEntity. apply stk_bind; [stp|]. intros s1 c H1. destruct (c =? 35).
  - apply stk_bind; [stp|]. intros s2 u H2. apply stk_numeric. assumption.
  - apply stk_named. assumption.
Qed.
Lemma stk_recover : forall st s, sc_state s = st -> stk st (parseTokenRecover rops cfg s).
Proof.
  intros st s H. unfold parseTokenRecover. destruct (tk_id (sc_tok s)); try stp.
  all: apply stk_bind; [auto using stk_entity, stk_numeric, stk_numericBase, stk_named|]; intros s1 a H1; stp.
Qed.
Lemma stk_copychar : forall st s, sc_state s = st -> stk st (copychar rops cfg s).
Proof. intros st s H. unfold copychar. destruct (cf_raw cfg); (apply stk_bind; [stp|]; intros s1 a H1; stp). Qed.
Lemma stk_tokenChar : forall st s, sc_state s = st -> stk st (tokenChar rops cfg s).
Proof.
  intros st s H. unfold tokenChar. apply stk_bind; [stp|]. intros s1 c H1. destruct (c =? 13); [stp|].
  destruct (c =? 10); [destruct (tk_cr (sc_tok s1)); stp|].
  apply stk_bind; [apply stk_copychar; assumption|]. intros s2 u H2. stp.
Qed.
Lemma stk_parseTokenLoop : forall f isTok st s, sc_state s = st -> stk st (parseTokenLoop rops cfg f isTok s).
Proof.
  induction f as [|f IH]; intros isTok st s H; cbn [parseTokenLoop]; [exact I|].
  apply stk_bind; [stp|]. intros s1 c H1. destruct (isTokAt isTok c) as [[|]|]; [| |exact I].
  - apply stk_bind; [apply stk_tokenChar; assumption|]. intros s2 u H2. apply stk_bind; [stp|]. intros s3 u3 H3. apply IH. assumption.
  - destruct (ctl_eqb c CAmp); [|stp]. apply stk_bind; [stp|]. intros s2 u H2.
    apply stk_bind; [apply stk_entity; assumption|]. intros s3 ok H3. destruct ok; [apply IH; exact H3|stp].
Qed.
Lemma stk_parseToken : forall f isTok st s, sc_state s = st -> stk st (parseToken rops cfg f isTok s).
Proof.
  intros f isTok st s H. unfold parseToken. destruct (tk_id (sc_tok s)); try (apply stk_parseTokenLoop; exact H).
  all: apply stk_bind; [apply stk_recover; assumption|]; intros s1 ok H1; destruct ok; [apply stk_parseTokenLoop; assumption|stp].
Qed.
Lemma stk_skipTokenLoop : forall f isTok st s, sc_state s = st -> stk st (skipTokenLoop rops f isTok s).
Proof.
  induction f as [|f IH]; intros isTok st s H; cbn [skipTokenLoop]; [exact I|].
  apply stk_bind; [stp|]. intros s1 c H1. destruct (isTokAt isTok c) as [b|]; [|exact I].
  destruct (b || ctl_eqb c CAmp).
  - apply stk_bind; [stp|]. intros s2 u H2. apply IH. assumption.
  - apply stk_bind; [stp|]. intros s2 c2 H2. destruct (ctl_eqb c2 CAny); [apply IH; assumption|stp].
Qed.
Lemma stk_expectLoop : forall k st s, sc_state s = st -> stk st (expectLoop rops k s).
Proof.
  induction k as [|x k IH]; intros st s H; cbn [expectLoop]; [stp|].
  apply stk_bind; [stp|]. intros s1 c H1. destruct (c =? x).
  - apply stk_bind; [stp|]. intros s2 u H2. apply IH. exact H2.
  - apply stk_bind; [stp|]. intros s2 cc H2. stp.
Qed.
Lemma stk_doAction : forall f mask a arg st s, sc_state s = st -> stk st (doAction rops cfg f mask a arg s).
Proof.
  intros f mask a arg st s H. unfold doAction. destruct (tokenDef a) as [isTok|].
  - assert (Hx : stk st (let! (s1, ok) := (if N.testbit mask (etype_idx arg) then parseToken rops cfg f isTok s
        else skipTokenLoop rops f isTok s) in if ok then Ret s1 (inl arg) else Ret s1 (inr tt : etype + unit))).
    { apply stk_bind; [destruct (N.testbit mask (etype_idx arg)); [apply stk_parseToken|apply stk_skipTokenLoop]; assumption|].
      intros s1 ok H1. destruct ok; stp. }
    destruct (tk_id (sc_tok s)); try exact Hx. stp.
  - destruct (stringDef a) as [k|]; [|stp].
    assert (Hx : stk st (let! (s1, ok) := expectStr rops k s in
              if ok
              then match a with
                   | ExpectIdentifierXML => Ret (push cfg 108 (push cfg 109 (push cfg 120 (push cfg 63 s1)))) (inl EHeaderStart)
                   | _ => Ret s1 (inl ENone)
                   end
              else Ret s1 (inr tt : etype + unit))).
    { apply stk_bind; [unfold expectStr; destruct (Nat.leb _ _); [apply stk_expectLoop; exact H|exact I]|]. intros s1 ok H1. destruct ok; [destruct a; stp|stp]. }
    destruct (tk_id (sc_tok s)); try exact Hx. stp.
Qed.

(** a token or a string expected has been parsed *)
Lemma parseTokenLoop_done : forall f isTok s s1, parseTokenLoop rops cfg f isTok s = Ret s1 true -> tk_id (sc_tok s1) = TParsingDone.
Proof.
  induction f as [|f IH]; intros isTok s s1 H; cbn [parseTokenLoop] in H; [discriminate|].
  destruct (sc_control rops s) as [s2 c| | | |]; cbn [bind] in H; try discriminate.
  destruct (isTokAt isTok c) as [[|]|]; [| |discriminate].
  - destruct (tokenChar rops cfg s2) as [s3 u| | | |]; cbn [bind] in H; try discriminate.
    destruct (sc_skip rops s3) as [s4 u4| | | |]; cbn [bind] in H; try discriminate. eauto.
  - destruct (ctl_eqb c CAmp); [|injection H as <-; reflexivity].
    destruct (sc_skip rops s2) as [s3 u| | | |]; cbn [bind] in H; try discriminate.
    destruct (parseEntity rops cfg s3) as [s4 ok| | | |]; cbn [bind] in H; try discriminate.
    destruct ok; [eauto|discriminate].
Qed.
Lemma parseToken_done : forall f isTok s s1, parseToken rops cfg f isTok s = Ret s1 true -> tk_id (sc_tok s1) = TParsingDone.
Proof.
  intros f isTok s s1 H. unfold parseToken in H.
  destruct (tk_id (sc_tok s)); try (eapply parseTokenLoop_done; exact H);
  (destruct (parseTokenRecover rops cfg s) as [s2 ok| | | |]; cbn [bind] in H; try discriminate;
   destruct ok; [eapply parseTokenLoop_done; exact H|discriminate]).
Qed.
Lemma expectLoop_done : forall k s s1, expectLoop rops k s = Ret s1 true -> tk_id (sc_tok s1) = TParsingDone.
Proof.
  induction k as [|x k IH]; intros s s1 H; cbn [expectLoop] in H; [injection H as <-; reflexivity|].
  destruct (sc_ascii rops s) as [s2 c| | | |]; cbn [bind] in H; try discriminate. destruct (c =? x).
  - destruct (sc_skip rops s2) as [s3 u| | | |]; cbn [bind] in H; try discriminate. eauto.
  - destruct (sc_control rops s2) as [s3 u| | | |]; cbn [bind] in H; discriminate.
Qed.
End Kept.

(** ** The scanner on a chunk and the scanner on the whole rest of the text *)
Section Chunk.
Context (cs : charset) (cfg : config) (put : bool).
Notation scn := (scanner ird).
Notation ops := (ir_ops cs).

Definition fullR (r : ird) : Prop := ready (ir_m r) (clen cs (ir_l r)) (ir_l r) = true.
Definition peekR (r : ird) : Prop := ready (ir_m r) (alen cs (ir_l r)) (ir_l r) = true.
Definition prel (a b : N) : Prop := put = true -> a = b.

(** [w]: text behind the chunk; [T]: position of the end of the chunk, and whether there are more *)
Record xr (w : list N) (T : N * bool) (r t : ird) : Prop := mkXr {
  x_mode : ir_m r = emode_of (snd T);
  x_me : ir_m r = EndZero -> w = [];
  x_tm : ir_m t = EndZero;
  x_l : ir_l t = ir_l r ++ w;
  x_pos : put = true -> u64 (ir_p r) = u64 (ir_p t);
  x_T : put = true -> ir_m r = EndJump -> u64 (ir_p r + N.of_nat (length (ir_l r))) = u64 (fst T);
  x_ok : complete_text cs (ir_l t);
  x_b : Forall isByte (ir_l t) }.
Lemma x_m : forall w T r t, xr w T r t -> ir_m r <> EndUndef.
Proof. intros w T r t H. rewrite (x_mode _ _ _ _ H). destruct (snd T); discriminate. Qed.

Lemma need_cases : forall n r, ir_m r <> EndUndef ->
  (ready (ir_m r) n (ir_l r) = true /\ forall A (a : A), need n r a = Ret r a) \/
  (ready (ir_m r) n (ir_l r) = false /\ ir_m r = EndJump /\ forall A (a : A), need n r a = Jump r).
Proof.
  intros n r Hm. unfold need. destruct (Nat.leb_spec n (length (ir_l r))) as [H|H].
  - left. split; auto. apply ready_spec. auto.
  - destruct (ir_m r) eqn:Em; [| |congruence].
    + left. split; auto. apply ready_spec; auto.
    + right. split; auto. destruct (ready EndJump n (ir_l r)) eqn:E; auto.
      apply ready_spec in E. destruct E; [discriminate|lia].
Qed.

Lemma xr_casc : forall w T r t, xr w T r t -> peekR r -> casc cs (ir_l t) = casc cs (ir_l r).
Proof.
  intros w T r t H Hp. apply ready_spec in Hp. rewrite (x_l _ _ _ _ H). destruct Hp as [Hp|Hp].
  - rewrite (x_me _ _ _ _ H Hp), app_nil_r. reflexivity.
  - apply casc_app. exact Hp.
Qed.
Lemma xr_dec : forall w T r t, xr w T r t -> fullR r -> dec cs (ir_l t) = dec cs (ir_l r).
Proof.
  intros w T r t H Hp. apply ready_spec in Hp. rewrite (x_l _ _ _ _ H). destruct Hp as [Hp|Hp].
  - rewrite (x_me _ _ _ _ H Hp), app_nil_r. reflexivity.
  - apply dec_app. exact Hp.
Qed.
Lemma xr_clen : forall w T r t, xr w T r t -> fullR r -> clen cs (ir_l t) = clen cs (ir_l r).
Proof.
  intros w T r t H Hp. pose proof (f_equal u_len (xr_dec _ _ _ _ H Hp)) as E. cbn [dec u_len] in E. lia.
Qed.
Lemma full_peek : forall r, fullR r -> peekR r.
Proof.
  intros r H. apply ready_spec in H. apply ready_spec. destruct H as [H|H]; auto.
  pose proof (alen_le_clen cs (ir_l r)). lia.
Qed.
Lemma ascii_full : forall r, peekR r -> casc cs (ir_l r) <> 255 -> fullR r.
Proof.
  intros r H Hc. apply ready_spec in H. apply ready_spec. destruct H as [H|H]; auto.
  right. apply peek_full; auto.
Qed.
Definition skR (r : ird) : ird := ir_skipto (clen cs (ir_l r)) r.

Lemma xr_skip : forall w T r t, xr w T r t -> fullR r -> xr w T (skR r) (skR t).
Proof.
  intros w T r t H Hf. pose proof (xr_clen _ _ _ _ H Hf) as Hc. destruct H as [H1 H2 H3 H4 H5 H6 H7 H8].
  unfold skR. rewrite Hc. apply ready_spec in Hf.
  constructor; unfold ir_skipto; cbn [ir_m ir_l ir_p]; auto.
  - rewrite H4, skipn_app. destruct Hf as [Hf|Hf].
    + rewrite (H2 Hf), skipn_nil. reflexivity.
    + replace (clen cs (ir_l r) - length (ir_l r))%nat with 0%nat by lia. reflexivity.
  - intros Hp. apply u64_add_r. auto.
  - intros Hp Hm. rewrite <- (H6 Hp Hm). destruct Hf as [Hf|Hf]; [congruence|]. rewrite skipn_length. f_equal. lia.
  - rewrite <- Hc. apply complete_skip; auto.
  - apply skipn_Forall. exact H8.
Qed.

(** the base of a numeric entity being parsed is 10 or 16 *)
Definition tokok (k : tokstate) : Prop := tk_base k <= 16.
Definition X w T (s t : scn) : Prop := srel prel (xr w T) s t /\ tokok (sc_tok s).

Lemma set_src_id : forall (s : scn), set_src s (sc_src s) = s.
Proof. intros s. destruct s. reflexivity. Qed.

Lemma ctl_nonundef : forall a, ctl_of a <> CUndef -> a <> 255.
Proof. intros a H ->. apply H. reflexivity. Qed.
Lemma asc_nonzero : forall a, asc_of a <> 0 -> a <> 255.
Proof. intros a H ->. apply H. reflexivity. Qed.

Lemma xs_control : forall w T s t, X w T s t ->
  (exists c, sc_control ops s = Ret s c /\ sc_control ops t = Ret t c /\ peekR (sc_src s) /\
    (c <> CUndef -> fullR (sc_src s)) /\ c = ctl_of (casc cs (ir_l (sc_src s)))) \/
  (sc_control ops s = Jump s /\ sc_control ops t = Ret t (ctl_of (casc cs (ir_l (sc_src t))))).
Proof.
  intros w T s t [H Hok]. destruct H as [st er r t ob tp tp' tk H Hp]. cbn [sc_src].
  unfold sc_control, on_src. cbn [sc_src ir_ops r_control].
  rewrite (need_zero _ t) by apply (x_tm _ _ _ _ H).
  destruct (need_cases (alen cs (ir_l r)) r (x_m _ _ _ _ H)) as [[Hr E]|[Hr [Hm E]]]; rewrite E; cbn [omap]; [left|right; auto].
  exists (ctl_of (casc cs (ir_l r))). rewrite (xr_casc _ _ _ _ H Hr). repeat split; auto.
  intros Hc. apply ascii_full; auto. apply ctl_nonundef. exact Hc.
Qed.
Lemma xs_ascii : forall w T s t, X w T s t ->
  (exists c, sc_ascii ops s = Ret s c /\ sc_ascii ops t = Ret t c /\ peekR (sc_src s) /\
    (c <> 0 -> fullR (sc_src s)) /\ c = asc_of (casc cs (ir_l (sc_src s)))) \/
  (sc_ascii ops s = Jump s).
Proof.
  intros w T s t [H Hok]. destruct H as [st er r t ob tp tp' tk H Hp]. cbn [sc_src].
  unfold sc_ascii, on_src. cbn [sc_src ir_ops r_ascii].
  rewrite (need_zero _ t) by apply (x_tm _ _ _ _ H).
  destruct (need_cases (alen cs (ir_l r)) r (x_m _ _ _ _ H)) as [[Hr E]|[Hr [Hm E]]]; rewrite E; cbn [omap]; [left|right; auto].
  exists (asc_of (casc cs (ir_l r))). rewrite (xr_casc _ _ _ _ H Hr). repeat split; auto.
  intros Hc. apply ascii_full; auto. apply asc_nonzero. exact Hc.
Qed.

Definition sk (s : scn) : scn := set_src s (skR (sc_src s)).
Lemma ir_skip_ret : forall s : scn, ir_m (sc_src s) <> EndUndef -> peekR (sc_src s) -> sc_skip ops s = Ret (sk s) tt.
Proof.
  intros s Hm Hp. unfold sc_skip, on_src, sk, skR. cbn [ir_ops r_skip].
  destruct (need_cases (alen cs (ir_l (sc_src s))) (sc_src s) Hm) as [[Hr E]|[Hr [Hm2 E]]]; rewrite E; cbn [bind omap]; auto.
  unfold peekR in Hp. congruence.
Qed.
Lemma X_m : forall w T s t, X w T s t -> ir_m (sc_src s) <> EndUndef.
Proof. intros w T s t [H Hok]. destruct H as [st er r t ob tp tp' tk H Hp]. cbn [sc_src]. apply (x_m _ _ _ _ H). Qed.
Lemma X_tm : forall w T s t, X w T s t -> ir_m (sc_src t) = EndZero.
Proof. intros w T s t [H Hok]. destruct H as [st er r t ob tp tp' tk H Hp]. cbn [sc_src]. apply (x_tm _ _ _ _ H). Qed.
Lemma zero_skip : forall t : scn, ir_m (sc_src t) = EndZero -> sc_skip ops t = Ret (sk t) tt.
Proof.
  intros t H. apply ir_skip_ret; [rewrite H; discriminate|]. apply ready_spec. auto.
Qed.
Lemma xs_skip : forall w T s t, X w T s t -> fullR (sc_src s) ->
  sc_skip ops s = Ret (sk s) tt /\ sc_skip ops t = Ret (sk t) tt /\ X w T (sk s) (sk t).
Proof.
  intros w T s t H Hf. split; [|split].
  - apply ir_skip_ret; [eapply X_m; eauto|apply full_peek; auto].
  - apply zero_skip. eapply X_tm; eauto.
  - destruct H as [H Hok]. destruct H as [st er r t ob tp tp' tk H Hp]. split; [|exact Hok]. constructor; auto. apply xr_skip; auto.
Qed.

Definition cp (s : scn) : scn :=
  if cf_raw cfg then set_obuf (sc_obuf s ++ pad (clen cs (ir_l (sc_src s))) (ir_l (sc_src s))) s
  else push cfg (cval cs (ir_l (sc_src s))) s.
Lemma cp_same : forall s, sc_src (cp s) = sc_src s /\ sc_tok (cp s) = sc_tok s /\ sc_state (cp s) = sc_state s.
Proof. intros s. unfold cp. destruct (cf_raw cfg); auto. Qed.
Lemma xs_copy : forall w T s t, X w T s t ->
  (copychar ops cfg s = Ret (cp s) tt /\ copychar ops cfg t = Ret (cp t) tt /\ X w T (cp s) (cp t) /\ fullR (sc_src s)) \/
  copychar ops cfg s = Jump s.
Proof.
  intros w T s t [H Hok]. destruct H as [st er r t ob tp tp' tk H Hp]. cbn [sc_src].
  unfold copychar, cp, sc_raw, sc_chr, on_src. cbn [sc_src sc_obuf ir_ops r_raw r_chr].
  rewrite !(need_zero _ t) by apply (x_tm _ _ _ _ H).
  destruct (need_cases (clen cs (ir_l r)) r (x_m _ _ _ _ H)) as [[Hr E]|[Hr [Hm E]]]; rewrite !E; cbn [omap bind].
  2:{ right. destruct (cf_raw cfg); reflexivity. }
  left. pose proof (xr_dec _ _ _ _ H Hr) as Hd.
  pose proof (f_equal u_raw Hd) as Hd1. pose proof (f_equal u_val Hd) as Hd2. cbn [dec u_raw u_val] in Hd1, Hd2.
  rewrite Hd1, Hd2.
  destruct (cf_raw cfg); split; try reflexivity; split; try reflexivity; split; auto; split; try exact Hok; constructor; auto.
Qed.

(** *** interrupted operations *)
Inductive crel {A} (RR : scn -> scn -> Prop) (J : scn -> out scn A -> Prop) : out scn A -> out scn A -> Prop :=
| c_ret : forall s t a, RR s t -> crel RR J (Ret s a) (Ret t a)
| c_jump : forall s y, J s y -> crel RR J (Jump s) y
| c_undef : crel RR J Undef Undef
| c_fuel : crel RR J Fuel Fuel.

Lemma crel_bind : forall {A B} RR RR2 J1 J2 (x y : out scn A) (f g : scn -> A -> out scn B),
  crel RR J1 x y -> (forall s t a, RR s t -> crel RR2 J2 (f s a) (g t a)) ->
  (forall s, J1 s y -> J2 s (bind y g)) -> crel RR2 J2 (bind x f) (bind y g).
Proof. intros A B RR RR2 J1 J2 x y f g H H1 H2. destruct H; cbn [bind]; try constructor; auto. Qed.

Definition entid (i : tokid) : bool :=
  match i with
  | TParsingEntity | TParsingNumericEntity | TParsingNumericBaseEntity | TParsingNamedEntity => true
  | _ => false
  end.
Definition resumeEntity (s : scn) : out scn bool :=
  match tk_id (sc_tok s) with
  | TParsingEntity => parseEntity ops cfg s
  | TParsingNumericEntity => parseNumericEntity ops cfg s
  | TParsingNumericBaseEntity => parseNumericBaseEntity ops cfg s
  | TParsingNamedEntity => parseNamedEntity ops cfg s
  | _ => Undef
  end.
Definition EJ w T (s : scn) (y : out scn bool) : Prop :=
  entid (tk_id (sc_tok s)) = true /\ exists t', X w T s t' /\ y = resumeEntity t'.
Notation E w T := (crel (X w T) (EJ w T)).

Lemma upd_id_same : forall i (s : scn), tk_id (sc_tok s) = i -> upd_tok (tok_id i) s = s.
Proof. intros i s H. destruct s as [a b c d e tk]. destruct tk. cbn in H. subst i. reflexivity. Qed.
Lemma upd_id_twice : forall i (s : scn), upd_tok (tok_id i) (upd_tok (tok_id i) s) = upd_tok (tok_id i) s.
Proof. intros i s. reflexivity. Qed.

Lemma X_upd_tok : forall w T f s t, X w T s t -> tokok (f (sc_tok s)) -> X w T (upd_tok f s) (upd_tok f t).
Proof. intros w T f s t [H1 H2] H3. split; [|exact H3]. apply sr_upd_tok. assumption. Qed.
Lemma X_set_tok : forall w T k s t, X w T s t -> tokok k -> X w T (set_tok k s) (set_tok k t).
Proof. intros w T f s t [H1 H2] H3. split; [|exact H3]. apply sr_set_tok. assumption. Qed.
Lemma X_push : forall w T c s t, X w T s t -> X w T (push cfg c s) (push cfg c t).
Proof. intros w T c s t [H H2]. split; [|exact H2]. destruct H. constructor; auto. Qed.
Lemma X_pushes : forall w T l s t, X w T s t -> X w T (pushes cfg l s) (pushes cfg l t).
Proof. intros w T l. induction l as [|c l IH]; intros s t H; cbn [pushes]; auto. apply IH. apply X_push. auto. Qed.
Lemma X_set_err : forall w T k s t, X w T s t -> X w T (set_err k s) (set_err k t).
Proof. intros w T k s t [H H2]. split; [|exact H2]. apply sr_set_err. assumption. Qed.
Lemma X_set_state : forall w T k s t, X w T s t -> X w T (set_state k s) (set_state k t).
Proof. intros w T k s t [H H2]. split; [|exact H2]. apply sr_set_state. assumption. Qed.
Lemma X_set_obuf : forall w T k s t, X w T s t -> X w T (set_obuf k s) (set_obuf k t).
Proof. intros w T k s t [H H2]. split; [|exact H2]. destruct H. constructor; auto. Qed.
Lemma X_tok : forall w T s t, X w T s t -> sc_tok s = sc_tok t.
Proof. intros w T s t [H _]. destruct H. reflexivity. Qed.
Lemma X_state : forall w T s t, X w T s t -> sc_state s = sc_state t.
Proof. intros w T s t [H _]. destruct H. reflexivity. Qed.
Lemma X_fallback : forall w T s t, X w T s t -> X w T (fallbackEntity cfg s) (fallbackEntity cfg t).
Proof.
  intros w T s t H. unfold fallbackEntity. rewrite (X_tok _ _ _ _ H).
  destruct (tk_id (sc_tok t)); auto using X_push, X_pushes.
Qed.
Lemma X_pos : forall w T s t, X w T s t -> prel (r_pos ops (sc_src s)) (r_pos ops (sc_src t)).
Proof. intros w T s t [H _]. destruct H as [st er r t ob tp tp' tk H Hp]. intros Hput. apply (x_pos _ _ _ _ H Hput). Qed.
Lemma X_set_pos : forall w T s t, X w T s t ->
  X w T (set_tokpos (r_pos ops (sc_src s)) s) (set_tokpos (r_pos ops (sc_src t)) t).
Proof. intros w T s t H. pose proof (X_pos _ _ _ _ H) as Hp. destruct H as [H H2]. split; [|exact H2]. destruct H. constructor; auto. Qed.
Lemma tokok_id : forall i k, tokok k -> tokok (tok_id i k).
Proof. intros i k H. exact H. Qed.
Lemma tokok_init : forall i k, tokok (tok_init i k).
Proof. intros i k. unfold tokok. cbn. lia. Qed.
Lemma tokok_other : forall k k', tk_id k' = tk_id k -> tk_base k' = tk_base k -> tokok k -> tokok k'.
Proof. intros k k' _ H2 H. unfold tokok in *. rewrite H2. exact H. Qed.
Lemma X_tokok : forall w T s t, X w T s t -> tokok (sc_tok s).
Proof. intros w T s t H. apply H. Qed.
Lemma tok_put_same : forall c k k', tok_put c k = Some k' -> tk_id k' = tk_id k /\ tk_base k' = tk_base k /\ tk_pos k' = tk_pos k
   /\ tk_value k' = tk_value k.
Proof. intros c k k' H. unfold tok_put in H. destruct (Nat.ltb (tk_pos k) 16); inversion H. auto. Qed.
Hint Resolve X_upd_tok X_set_tok X_push X_set_err X_set_state X_set_obuf X_fallback X_set_pos tokok_init X_tokok : xdb.
Hint Extern 1 (tokok (tok_id _ _)) => (apply tokok_id; eapply X_tokok; eassumption) : xdb.
Ltac fr := cbn [sc_tok sc_src sc_state set_src set_state set_err set_obuf set_tokpos set_tok upd_tok push sk
  tok_id tok_init tok_cr tok_base tok_incpos tok_value tk_pos tk_buf tk_id tk_cr tk_base tk_value] in *.

Lemma x_numBaseLoop : forall w T k s t, X w T s t -> tk_id (sc_tok s) = TParsingNumericBaseEntity ->
  k = (16 - tk_pos (sc_tok s))%nat -> E w T (numBaseLoop ops cfg k s) (numBaseLoop ops cfg k t).
Proof.
  intros w T. induction k as [|k IH]; intros s t H Hid Hk.
  - cbn [numBaseLoop]. constructor. auto with xdb.
  - assert (Ht : numBaseLoop ops cfg (S k) t = parseNumericBaseEntity ops cfg t).
    { unfold parseNumericBaseEntity. rewrite (X_tok _ _ _ _ H) in Hid, Hk. rewrite upd_id_same by auto. rewrite <- Hk. reflexivity. }
    destruct (xs_ascii _ _ _ _ H) as [[c [E1 [E2 [Hp [Hf Hc]]]]]|E1].
    + cbn [numBaseLoop]. rewrite E1, E2. cbn [bind]. rewrite <- (X_tok _ _ _ _ H). clear Ht Hc.
      destruct (N.eqb_spec c 59) as [->|Hne].
      * destruct (0xFFFFFFFF <? tk_value (sc_tok s)).
        -- destruct (tok_put 59 (sc_tok s)) as [tk|] eqn:Etk; constructor.
           destruct (tok_put_same _ _ _ Etk) as [Hi [Hb [Hpp Hv]]].
           apply X_fallback. apply X_set_tok; auto. eapply tokok_other; [| |apply (X_tokok _ _ _ _ H)]; auto.
        -- destruct (xs_skip w T (upd_tok (tok_init TParsingToken) (push cfg (u32 (tk_value (sc_tok s))) s))
             (upd_tok (tok_init TParsingToken) (push cfg (u32 (tk_value (sc_tok s))) t))) as [E3 [E4 H2]];
             [auto with xdb|apply Hf; lia|].
           rewrite E3, E4. cbn [bind]. constructor. exact H2.
      * destruct (HEX c) as [chval|] eqn:Eh; [|constructor].
        destruct (N.leb_spec (tk_base (sc_tok s)) chval); [constructor; auto with xdb|].
        destruct (tok_put c (sc_tok s)) as [tk|] eqn:Etk; [|constructor].
        destruct (tok_put_same _ _ _ Etk) as [Hi [Hb [Hpp Hv]]].
        pose proof (X_tokok _ _ _ _ H) as Hbase. unfold tokok in Hbase.
        set (tk2 := tok_value (u64 (tk_value tk * tk_base tk + chval)) (tok_incpos tk)).
        assert (Hfull : fullR (sc_src s)).
        { apply Hf. intros ->. vm_compute in Eh. injection Eh as <-. lia. }
        destruct (xs_skip w T (set_tok tk2 s) (set_tok tk2 t)) as [E3 [E4 H2]]; [|exact Hfull|].
        { apply X_set_tok; auto. eapply tokok_other; [| |apply (X_tokok _ _ _ _ H)]; auto. }
        rewrite E3, E4. cbn [bind]. apply IH; auto.
        -- unfold tk2. fr. congruence.
        -- unfold tk2. fr. lia.
    + rewrite Ht. cbn [numBaseLoop]. rewrite E1. cbn [bind]. constructor. split; [rewrite Hid; reflexivity|].
      exists t. split; auto. unfold resumeEntity. rewrite <- (X_tok _ _ _ _ H), Hid. reflexivity.
Qed.

Lemma x_numericBase : forall w T s t, X w T s t -> tk_base (sc_tok s) <= 16 ->
  E w T (parseNumericBaseEntity ops cfg s) (parseNumericBaseEntity ops cfg t).
Proof.
  intros w T s t H Hb. unfold parseNumericBaseEntity. cbv zeta.
  assert (H2 : X w T (upd_tok (tok_id TParsingNumericBaseEntity) s) (upd_tok (tok_id TParsingNumericBaseEntity) t)).
  { apply X_upd_tok; [exact H|exact Hb]. }
  rewrite <- (X_tok _ _ _ _ H2). apply x_numBaseLoop; auto.
Qed.

Lemma x_numeric : forall w T s t, X w T s t ->
  E w T (parseNumericEntity ops cfg s) (parseNumericEntity ops cfg t).
Proof.
  intros w T s t H.
  assert (H2 : X w T (upd_tok (tok_id TParsingNumericEntity) s) (upd_tok (tok_id TParsingNumericEntity) t)) by auto with xdb.
  destruct (xs_ascii _ _ _ _ H2) as [[c [E1 [E2 [Hp [Hf Hc]]]]]|E1].
  - unfold parseNumericEntity. cbv zeta. rewrite E1, E2. cbn [bind].
    destruct (N.eqb_spec c 120) as [->|Hne].
    + edestruct (xs_skip w T) as [E3 [E4 H3]]; [apply (X_upd_tok w T (tok_base 16)); [exact H2|]|apply Hf; lia|].
      { unfold tokok. cbn. lia. }
      rewrite E3, E4. cbn [bind]. apply x_numericBase; auto. fr. lia.
    + apply x_numericBase; [|fr; lia]. apply X_upd_tok; [exact H2|].
      unfold tokok. cbn. lia.
  - unfold parseNumericEntity at 1. cbv zeta. rewrite E1. cbn [bind]. constructor. split; [reflexivity|].
    exists (upd_tok (tok_id TParsingNumericEntity) t). split; auto.
Qed.

Lemma x_pushEntity : forall w T s t, X w T s t ->
  snd (pushEntity cfg s) = snd (pushEntity cfg t) /\ X w T (fst (pushEntity cfg s)) (fst (pushEntity cfg t)) /\
  sc_src (fst (pushEntity cfg s)) = sc_src s.
Proof.
  intros w T s t H. unfold pushEntity. rewrite (X_tok _ _ _ _ H).
  destruct (predefined (tk_buf (sc_tok t))); [cbn [fst snd]; auto with xdb|].
  destruct (cf_map cfg) as [m|]; [destruct (map_find m (cf_bufaddr cfg))|]; cbn [fst snd]; auto with xdb.
Qed.

Definition namedRest (k : nat) (s : scn) (c : N) : out scn bool :=
  let! (s2, c2) := namedLoop ops k s c in
  if c2 =? 59
  then match tok_put 0 (sc_tok s2) with
       | None => Undef
       | Some t =>
           let (s3, ok) := pushEntity cfg (set_tok t s2) in
           if ok
           then let! (s4, u) := sc_skip ops (upd_tok (tok_init TParsingToken) s3) in Ret s4 true
           else Ret s3 false
       end
  else Ret (fallbackEntity cfg s2) true.

Lemma x_namedFin : forall w T s t c, X w T s t -> (c <> 0 -> fullR (sc_src s)) -> E w T (namedRest 0 s c) (namedRest 0 t c).
Proof.
  intros w T s t c H Hf. unfold namedRest. cbn [namedLoop bind]. destruct (N.eqb_spec c 59) as [->|Hne].
  - rewrite <- (X_tok _ _ _ _ H). destruct (tok_put 0 (sc_tok s)) as [tk|] eqn:Etk; [|constructor].
    destruct (tok_put_same _ _ _ Etk) as [Hi [Hb [Hpp Hv]]].
    assert (H2 : X w T (set_tok tk s) (set_tok tk t)).
    { apply X_set_tok; auto. eapply tokok_other; [| |apply (X_tokok _ _ _ _ H)]; auto. }
    destruct (x_pushEntity _ _ _ _ H2) as [Ha [Hx Hs]].
    destruct (pushEntity cfg (set_tok tk s)) as [s3 ok]. destruct (pushEntity cfg (set_tok tk t)) as [t3 ok']. cbn [fst snd] in *.
    subst ok'. destruct ok; [|constructor; auto].
    destruct (xs_skip w T (upd_tok (tok_init TParsingToken) s3) (upd_tok (tok_init TParsingToken) t3)) as [E3 [E4 H3]];
      [auto with xdb|fr; rewrite Hs; apply Hf; lia|].
    rewrite E3, E4. cbn [bind]. constructor. exact H3.
  - constructor. auto with xdb.
Qed.

Lemma x_namedRest : forall w T k s t c, X w T s t -> tk_id (sc_tok s) = TParsingNamedEntity ->
  k = (15 - tk_pos (sc_tok s))%nat -> peekR (sc_src s) -> (c <> 0 -> fullR (sc_src s)) ->
  E w T (namedRest k s c) (namedRest k t c).
Proof.
  intros w T. induction k as [|k IH]; intros s t c H Hid Hk Hp Hf; [apply x_namedFin; auto|].
  destruct (N.eqb_spec c 59) as [->|Hne].
  { pose proof (x_namedFin w T s t 59 H Hf) as HE. unfold namedRest in *. cbn [namedLoop bind N.eqb Pos.eqb] in *. exact HE. }
  destruct (xs_control _ _ _ _ H) as [[cc [E1 [E2 [Hp1 [Hf1 Hc]]]]]|[E1 _]].
  2:{ exfalso. unfold sc_control, on_src in E1. cbn [ir_ops r_control] in E1.
      destruct (need_cases (alen cs (ir_l (sc_src s))) (sc_src s) (X_m _ _ _ _ H)) as [[Hr Ec]|[Hr [Hm Ec]]].
      - rewrite Ec in E1. discriminate.
      - unfold peekR in Hp. congruence. }
  destruct (ctl_eqb cc CAny) eqn:Ecc.
  2:{ pose proof (x_namedFin w T s t c H Hf) as HE. unfold namedRest in *. cbn [namedLoop bind] in *.
      destruct (N.eqb_spec c 59); [congruence|]. rewrite E1, E2. cbn [bind]. rewrite Ecc. cbn [bind].
      destruct (N.eqb_spec c 59); [congruence|]. exact HE. }
  assert (Hfull : fullR (sc_src s)) by (apply Hf1; destruct cc; discriminate).
  unfold namedRest. cbn [namedLoop]. destruct (N.eqb_spec c 59); [congruence|]. rewrite E1, E2. cbn [bind]. rewrite Ecc.
  rewrite <- (X_tok _ _ _ _ H). destruct (tok_put c (sc_tok s)) as [tk|] eqn:Etk; [|constructor].
  destruct (tok_put_same _ _ _ Etk) as [Hi [Hb [Hpp Hv]]].
  assert (H2 : X w T (set_tok tk s) (set_tok tk t)).
  { apply X_set_tok; auto. eapply tokok_other; [| |apply (X_tokok _ _ _ _ H)]; auto. }
  destruct (xs_skip _ _ _ _ H2 Hfull) as [E3 [E4 H3]]. rewrite E3, E4. cbn [bind].
  assert (H4 : X w T (upd_tok tok_incpos (sk (set_tok tk s))) (upd_tok tok_incpos (sk (set_tok tk t)))).
  { apply X_upd_tok; auto. eapply tokok_other; [| |apply (X_tokok _ _ _ _ H)]; auto. }
  destruct (xs_ascii _ _ _ _ H4) as [[c2 [E5 [E6 [Hp2 [Hf2 Hc2]]]]]|E5].
  - rewrite E5, E6. cbn [bind]. apply IH; auto.
    + fr. congruence.
    + fr. lia.
  - rewrite E5. cbn [bind]. constructor. split.
    + fr. rewrite Hi, Hid. reflexivity.
    + eexists. split; [exact H4|]. unfold resumeEntity. rewrite <- (X_tok _ _ _ _ H4).
      assert (Hid2 : tk_id (sc_tok (upd_tok tok_incpos (sk (set_tok tk s)))) = TParsingNamedEntity) by (fr; congruence).
      rewrite Hid2. unfold parseNamedEntity. cbv zeta.
      rewrite (upd_id_same TParsingNamedEntity (upd_tok tok_incpos (sk (set_tok tk t)))) by (rewrite <- (X_tok _ _ _ _ H4); exact Hid2).
      set (t4 := upd_tok tok_incpos (sk (set_tok tk t))) in *.
      assert (Hk2 : k = (15 - tk_pos (sc_tok t4))%nat).
      { rewrite <- (X_tok _ _ _ _ H4). fr. lia. }
      unfold sc_ascii, on_src. cbn [ir_ops r_ascii]. rewrite need_zero by (eapply X_tm; eauto). cbn [omap bind].
      rewrite set_src_id, Hk2. reflexivity.
Qed.

Lemma x_named : forall w T s t, X w T s t -> E w T (parseNamedEntity ops cfg s) (parseNamedEntity ops cfg t).
Proof.
  intros w T s t H.
  assert (H2 : X w T (upd_tok (tok_id TParsingNamedEntity) s) (upd_tok (tok_id TParsingNamedEntity) t)) by auto with xdb.
  destruct (xs_ascii _ _ _ _ H2) as [[c [E1 [E2 [Hp [Hf Hc]]]]]|E1].
  - unfold parseNamedEntity. cbv zeta. rewrite E1, E2. cbn [bind].
    pose proof (x_namedRest w T (15 - tk_pos (sc_tok (upd_tok (tok_id TParsingNamedEntity) s))) _ _ c H2 eq_refl eq_refl Hp Hf) as HE.
    unfold namedRest in HE. rewrite <- (X_tok _ _ _ _ H2). exact HE.
  - unfold parseNamedEntity at 1. cbv zeta. rewrite E1. cbn [bind]. constructor. split; [reflexivity|].
    exists (upd_tok (tok_id TParsingNamedEntity) t). split; auto.
Qed.

Lemma x_entity : forall w T s t, X w T s t -> E w T (parseEntity ops cfg s) (parseEntity ops cfg t).
Proof.
  intros w T s t H.
  assert (H2 : X w T (upd_tok (tok_id TParsingEntity) s) (upd_tok (tok_id TParsingEntity) t)) by auto with xdb.
  destruct (xs_ascii _ _ _ _ H2) as [[c [E1 [E2 [Hp [Hf Hc]]]]]|E1].
  - unfold parseEntity. cbv zeta. rewrite E1, E2. cbn [bind].
    destruct (N.eqb_spec c 35) as [->|Hne]; [|apply x_named; auto].
    destruct (xs_skip _ _ _ _ H2 (Hf ltac:(lia))) as [E3 [E4 H3]]. rewrite E3, E4. cbn [bind]. apply x_numeric; auto.
  - unfold parseEntity at 1. cbv zeta. rewrite E1. cbn [bind]. constructor. split; [reflexivity|].
    exists (upd_tok (tok_id TParsingEntity) t). split; auto.
Qed.

Lemma x_resumeEntity : forall w T s t, X w T s t -> E w T (resumeEntity s) (resumeEntity t).
Proof.
  intros w T s t H. unfold resumeEntity. rewrite <- (X_tok _ _ _ _ H). destruct (tk_id (sc_tok s)) eqn:Ei; try constructor.
  - apply x_entity; auto.
  - apply x_numeric; auto.
  - apply x_numericBase; auto. apply (X_tokok _ _ _ _ H).
  - apply x_named; auto.
Qed.

(** *** tokens *)
Lemma x_tokenChar : forall w T s t, X w T s t ->
  (exists s' t', tokenChar ops cfg s = Ret s' tt /\ tokenChar ops cfg t = Ret t' tt /\ X w T s' t' /\ fullR (sc_src s') /\
     tk_id (sc_tok s') = tk_id (sc_tok s)) \/ tokenChar ops cfg s = Jump s.
Proof.
  intros w T s t H. destruct (xs_ascii _ _ _ _ H) as [[c [E1 [E2 [Hp [Hf Hc]]]]]|E1].
  2:{ right. unfold tokenChar. rewrite E1. reflexivity. }
  unfold tokenChar. rewrite E1, E2. cbn [bind].
  assert (Hcr : forall b k, tokok k -> tokok (tok_cr b k)).
  { intros b k Hk. eapply tokok_other; [| |exact Hk]; reflexivity. }
  destruct (N.eqb_spec c 13) as [->|Hn1].
  { left. do 2 eexists. split; [reflexivity|]. split; [reflexivity|]. split; [|split; [apply Hf; lia|reflexivity]].
    apply X_upd_tok; auto with xdb. apply Hcr. apply (X_tokok _ _ _ _ H). }
  destruct (N.eqb_spec c 10) as [->|Hn2].
  { left. do 2 eexists. split; [reflexivity|]. split; [reflexivity|]. rewrite <- (X_tok _ _ _ _ H).
    split; [|split; [|destruct (tk_cr (sc_tok s)); reflexivity]].
    - apply X_upd_tok; [destruct (tk_cr (sc_tok s)); auto with xdb|]. apply Hcr.
      destruct (tk_cr (sc_tok s)); apply (X_tokok _ _ _ _ H).
    - destruct (tk_cr (sc_tok s)); apply Hf; lia. }
  destruct (xs_copy _ _ _ _ H) as [[E3 [E4 [H2 Hf2]]]|E3].
  - left. rewrite E3, E4. cbn [bind]. do 2 eexists. split; [reflexivity|]. split; [reflexivity|].
    destruct (cp_same s) as [Hs [Hk Hst]]. split; [|split].
    + apply X_upd_tok; auto. apply Hcr. rewrite Hk. apply (X_tokok _ _ _ _ H).
    + fr. rewrite Hs. exact Hf2.
    + fr. rewrite Hk. reflexivity.
  - right. rewrite E3. reflexivity.
Qed.

Definition tokres (i : tokid) : bool := match i with TParsingToken => true | _ => entid i end.
Definition PJ w T f isTok (G : nat -> out scn bool) (s : scn) (y : out scn bool) : Prop :=
  tokres (tk_id (sc_tok s)) = true /\ exists t', X w T s t' /\ fle y (parseToken ops cfg f isTok t') /\
    forall h, fle (parseToken ops cfg h isTok t') (G h).

Definition tokenK f isTok (s1 : scn) (ok : bool) : out scn bool :=
  if ok then parseTokenLoop ops cfg f isTok (upd_tok (tok_init TParsingToken) s1) else Ret (upd_tok (tok_init TStart) s1) false.

Lemma parseToken_entity : forall f isTok s, entid (tk_id (sc_tok s)) = true ->
  parseToken ops cfg f isTok s = bind (resumeEntity s) (tokenK f isTok).
Proof.
  intros f isTok s H. unfold parseToken, parseTokenRecover, resumeEntity.
  destruct (tk_id (sc_tok s)); try discriminate H.
  - destruct (parseEntity ops cfg s) as [? []| | | |]; reflexivity.
  - destruct (parseNumericEntity ops cfg s) as [? []| | | |]; reflexivity.
  - destruct (parseNumericBaseEntity ops cfg s) as [? []| | | |]; reflexivity.
  - destruct (parseNamedEntity ops cfg s) as [? []| | | |]; reflexivity.
Qed.

Lemma x_parseTokenLoop : forall w T isTok f s t, X w T s t -> tk_id (sc_tok s) = TParsingToken ->
  crel (X w T) (PJ w T f isTok (fun h => parseTokenLoop ops cfg (h + f) isTok t))
    (parseTokenLoop ops cfg f isTok s) (parseTokenLoop ops cfg f isTok t).
Proof.
  intros w T isTok. induction f as [|f IH]; intros s t H Hid; [constructor|].
  set (G := fun h => parseTokenLoop ops cfg (h + S f) isTok t).
  assert (HG : forall h, G h = parseTokenLoop ops cfg (S (h + f)) isTok t) by (intros h; unfold G; f_equal; lia).
  assert (HJ : PJ w T (S f) isTok G s (parseTokenLoop ops cfg (S f) isTok t)).
  { split; [rewrite Hid; reflexivity|]. exists t. split; auto. unfold parseToken. rewrite <- (X_tok _ _ _ _ H), Hid.
    split; [apply fle_refl|]. intros h. apply mono_parseTokenLoop. lia. }
  assert (HIH : forall s1 t1, X w T s1 t1 -> tk_id (sc_tok s1) = TParsingToken ->
     (forall h, fle (parseTokenLoop ops cfg (h + f) isTok t1) (G h)) ->
     crel (X w T) (PJ w T (S f) isTok G) (parseTokenLoop ops cfg f isTok s1) (parseTokenLoop ops cfg f isTok t1)).
  { intros s' t' Ha Hb Hg. destruct (IH s' t' Ha Hb); constructor; auto.
    destruct H0 as [H1 [t0 [H2 [H3 H4]]]]. split; auto. exists t0. split; auto. split; [eapply fle_trans; [exact H3|]|].
    - apply mono_parseToken. lia.
    - intros h. eapply fle_trans; [apply H4|apply Hg]. }
  clear IH. clearbody G.
  destruct (xs_control _ _ _ _ H) as [[c [E1 [E2 [Hp [Hf Hc]]]]]|[E1 _]].
  2:{ cbn [parseTokenLoop]. rewrite E1. cbn [bind]. constructor. exact HJ. }
  cbn [parseTokenLoop] in *. rewrite E1, E2 in *. cbn [bind] in *.
  destruct (isTokAt isTok c) as [[|]|]; [| |constructor].
  - destruct (x_tokenChar _ _ _ _ H) as [[s' [t' [E3 [E4 [H2 [Hf2 Hid2]]]]]]|E3].
    + rewrite E3, E4 in *. cbn [bind] in *. destruct (xs_skip _ _ _ _ H2 Hf2) as [E5 [E6 H3]]. rewrite E5, E6 in *. cbn [bind] in *.
      apply HIH; auto. { fr. congruence. } intros h. rewrite HG. apply fle_refl.
    + rewrite E3. cbn [bind]. constructor. exact HJ.
  - destruct (ctl_eqb c CAmp) eqn:Ec; [|constructor; auto with xdb].
    assert (Hfull : fullR (sc_src s)) by (apply Hf; destruct c; discriminate).
    destruct (xs_skip _ _ _ _ H Hfull) as [E5 [E6 H3]]. rewrite E5, E6 in *. cbn [bind] in *.
    pose proof (x_entity _ _ _ _ H3) as HE.
    remember (parseEntity ops cfg (sk s)) as es eqn:Ees. remember (parseEntity ops cfg (sk t)) as et eqn:Eet.
    destruct HE as [s1 t1 ok H4|s1 y [Ha [t1 [Hb Hy]]]| |]; cbn [bind] in *; try constructor.
    + destruct ok; [|constructor; auto with xdb]. apply HIH; auto with xdb. intros h. rewrite HG. apply fle_refl.
    + split; [unfold tokres; destruct (tk_id (sc_tok s1)); auto|].
      exists t1. split; auto. rewrite Hy in *.
      split; [|intros h; rewrite HG]; rewrite parseToken_entity by (rewrite <- (X_tok _ _ _ _ Hb); auto).
      * apply fle_bind; [apply fle_refl|]. intros s2 [|]; unfold tokenK; [|apply fle_refl]. apply mono_parseTokenLoop. lia.
      * apply fle_bind; [apply fle_refl|]. intros s2 [|]; unfold tokenK; [|apply fle_refl]. apply mono_parseTokenLoop. lia.
Qed.

Lemma x_parseToken : forall w T isTok f s t, X w T s t ->
  crel (X w T) (PJ w T f isTok (fun h => parseToken ops cfg (h + f) isTok t))
    (parseToken ops cfg f isTok s) (parseToken ops cfg f isTok t).
Proof.
  intros w T isTok f s t H.
  destruct (entid (tk_id (sc_tok s))) eqn:Ei.
  - assert (Ei2 : entid (tk_id (sc_tok t)) = true) by (rewrite <- (X_tok _ _ _ _ H); exact Ei).
    assert (HG : forall h, parseToken ops cfg (h + f) isTok t = bind (resumeEntity t) (tokenK (h + f) isTok))
      by (intros h; apply parseToken_entity; auto).
    set (G := fun h => parseToken ops cfg (h + f) isTok t) in *. change (forall h, G h = bind (resumeEntity t) (tokenK (h + f) isTok)) in HG.
    clearbody G.
    rewrite !parseToken_entity by auto.
    pose proof (x_resumeEntity _ _ _ _ H) as HE.
    remember (resumeEntity s) as es eqn:Ees. remember (resumeEntity t) as et eqn:Eet.
    destruct HE as [s1 t1 ok H4|s1 y [Ha [t1 [Hb Hy]]]| |]; cbn [bind] in *; try constructor.
    + unfold tokenK in *. destruct ok; [|constructor; auto with xdb].
      assert (H5 : X w T (upd_tok (tok_init TParsingToken) s1) (upd_tok (tok_init TParsingToken) t1)) by auto with xdb.
      destruct (x_parseTokenLoop w T isTok f _ _ H5 ltac:(auto with xdb)); constructor; auto.
      destruct H0 as [K1 [t0 [K2 [K3 K4]]]]. split; auto. exists t0. split; auto. split; auto.
      intros h. rewrite HG. apply K4.
    + split; [unfold tokres; destruct (tk_id (sc_tok s1)); auto|].
      exists t1. split; auto. split; [|intros h; rewrite HG]; rewrite Hy, <- parseToken_entity by (rewrite <- (X_tok _ _ _ _ Hb); auto).
      * apply fle_refl.
      * apply mono_parseToken. lia.
  - unfold parseToken, parseTokenRecover. rewrite <- (X_tok _ _ _ _ H).
    destruct (tk_id (sc_tok s)) eqn:Ei3; try discriminate Ei; cbn [bind]; try (constructor; auto with xdb).
    + apply x_parseTokenLoop; [|auto with xdb..]. apply X_set_obuf, X_upd_tok; [auto with xdb|]. apply tokok_id. exact (X_tokok _ _ _ _ H).
    + apply x_parseTokenLoop; auto.
Qed.

(** *** an incomplete character skipped at the end of a chunk *)
Record orr (w : list N) (T : N * bool) (k : nat) (r t : ird) : Prop := mkOr {
  o_cs : cs = UTF8;
  o_mode : ir_m r = emode_of (snd T);
  o_m : ir_m r = EndJump;
  o_l : ir_l r = [];
  o_tm : ir_m t = EndZero;
  o_conts : exists conts, length conts = k /\ forallb continuation conts = true /\ w = conts ++ ir_l t;
  o_k : (1 <= k <= 7)%nat;
  o_pos : put = true -> u64 (fst T + N.of_nat k) = u64 (ir_p t);
  o_ok : complete_text cs (ir_l t);
  o_b : Forall isByte (ir_l t) }.
Definition O w T k (s t : scn) : Prop := srel prel (orr w T k) s t /\ tokok (sc_tok s).

Lemma overshoot : forall w T s t, X w T s t -> peekR (sc_src s) -> ~ fullR (sc_src s) -> exists k, O w T k (sk s) (sk t).
Proof.
  intros w T s t [H Hok] Hp Hnf. destruct H as [st er r t ob tp tp' tk H Hpos]. cbn [sc_src sc_tok] in *.
  assert (Hcs : cs = UTF8).
  { unfold peekR, fullR, alen in Hp, Hnf. revert Hp Hnf. destruct cs; auto; intros Hp Hnf; exfalso; apply Hnf; exact Hp. }
  destruct H as [H1 H2 H3 H4 H5 H6 H7 H8].
  apply ready_spec in Hp. destruct Hp as [Hp|Hp]; [exfalso; apply Hnf; apply ready_spec; auto|].
  assert (Hlt : (length (ir_l r) < clen cs (ir_l r))%nat).
  { destruct (Nat.lt_ge_cases (length (ir_l r)) (clen cs (ir_l r))); auto. exfalso; apply Hnf; apply ready_spec; auto. }
  assert (Hm : ir_m r = EndJump).
  { destruct (ir_m r) eqn:Em; auto; [|destruct (snd T); discriminate H1]. exfalso. apply Hnf. apply ready_spec. auto. }
  pose proof (alen_le_clen cs (ir_l r)) as Hal. pose proof (clen_bounds cs (ir_l r)) as Hcl.
  assert (Hc : clen cs (ir_l t) = clen cs (ir_l r)).
  { rewrite Hcs, H4. destruct (ir_l r) as [|b l]; [cbn in Hp; lia|]. cbn [app]. rewrite !utf8_clen. reflexivity. }
  destruct (split_multi (ir_l r) w) as [conts [rest [Hw [Hlen [Hcont [Hseq Hsk]]]]]].
  { rewrite <- H4. exact H8. }
  { rewrite <- H4. apply H7. exact Hcs. }
  { lia. }
  { rewrite <- Hcs. exact Hlt. }
  rewrite <- Hcs in Hlen, Hsk. rewrite <- H4 in Hsk.
  exists (clen cs (ir_l r) - length (ir_l r))%nat. split; [|exact Hok].
  constructor; auto. cbn [sc_src]. unfold skR. rewrite Hc. unfold ir_skipto.
  constructor; cbn [ir_m ir_l ir_p]; auto.
  - rewrite skipn_all2; [reflexivity|lia].
  - exists conts. rewrite Hsk. auto.
  - lia.
  - intros Hput. pose proof (H5 Hput) as H5'. pose proof (H6 Hput Hm) as H6'.
    transitivity (u64 (ir_p r + N.of_nat (length (ir_l r)) + N.of_nat (clen cs (ir_l r) - length (ir_l r)))).
    + symmetry. apply u64_add_r. exact H6'.
    + rewrite <- N.add_assoc, <- Nat2N.inj_add.
      replace (length (ir_l r) + (clen cs (ir_l r) - length (ir_l r)))%nat with (clen cs (ir_l r)) by lia.
      apply u64_add_r. exact H5'.
  - rewrite Hsk. intros _. exact Hseq.
  - rewrite <- Hc. apply skipn_Forall. exact H8.
Qed.

Lemma O_tok : forall w T k s t, O w T k s t -> sc_tok s = sc_tok t.
Proof. intros w T k s t [H _]. destruct H. reflexivity. Qed.
Lemma O_state : forall w T k s t, O w T k s t -> sc_state s = sc_state t.
Proof. intros w T k s t [H _]. destruct H. reflexivity. Qed.
Lemma O_control : forall w T k s t, O w T k s t -> sc_control ops s = Jump s.
Proof.
  intros w T k s t [H _]. destruct H as [st er r t ob tp tp' tk H Hpos].
  unfold sc_control, on_src. cbn [sc_src ir_ops r_control]. unfold need.
  rewrite (o_l _ _ _ _ _ H), (o_m _ _ _ _ _ H). rewrite (o_cs _ _ _ _ _ H). cbn [alen length Nat.leb omap]. reflexivity.
Qed.
Lemma O_upd_tok : forall w T k f s t, O w T k s t -> tokok (f (sc_tok s)) -> O w T k (upd_tok f s) (upd_tok f t).
Proof. intros w T k f s t [H1 H2] H3. split; [|exact H3]. apply sr_upd_tok. assumption. Qed.
Lemma O_set_state : forall w T k x s t, O w T k s t -> O w T k (set_state x s) (set_state x t).
Proof. intros w T k x s t [H H2]. split; [|exact H2]. apply sr_set_state. assumption. Qed.

Definition SJ w T f isTok (k : tokstate) (G : nat -> out scn bool) (s : scn) (y : out scn bool) : Prop :=
  sc_tok s = k /\ exists t', (fle y (skipTokenLoop ops f isTok t') /\ forall h, fle (skipTokenLoop ops h isTok t') (G h)) /\
    (X w T s t' \/ ((exists n, O w T n s t') /\ isTokAt isTok CUndef = Some true)).

Lemma x_skipTokenLoop : forall w T isTok f s t, X w T s t ->
  crel (X w T) (SJ w T f isTok (sc_tok s) (fun h => skipTokenLoop ops (h + f) isTok t))
    (skipTokenLoop ops f isTok s) (skipTokenLoop ops f isTok t).
Proof.
  intros w T isTok. induction f as [|f IH]; intros s t H; [constructor|].
  set (G := fun h => skipTokenLoop ops (h + S f) isTok t).
  assert (HG : forall h, G h = skipTokenLoop ops (S (h + f)) isTok t) by (intros h; unfold G; f_equal; lia).
  assert (HIH : forall s t, X w T s t -> (forall h, fle (skipTokenLoop ops (h + f) isTok t) (G h)) ->
     crel (X w T) (SJ w T (S f) isTok (sc_tok s) G) (skipTokenLoop ops f isTok s) (skipTokenLoop ops f isTok t)).
  { intros s' t' Ha Hg. destruct (IH s' t' Ha); constructor; auto.
    destruct H0 as [H1 [t0 [[H2 H4] H3]]]. split; auto. exists t0. split; auto. split; [eapply fle_trans; [exact H2|]|].
    - apply mono_skipTokenLoop. lia.
    - intros h. eapply fle_trans; [apply H4|apply Hg]. }
  clear IH. clearbody G.
  destruct (xs_control _ _ _ _ H) as [[c [E1 [E2 [Hp [Hf Hc]]]]]|[E1 _]].
  2:{ assert (E0 : skipTokenLoop ops (S f) isTok s = Jump s) by (cbn [skipTokenLoop]; rewrite E1; reflexivity).
      rewrite E0. constructor. split; auto. exists t. split; auto. split; [apply fle_refl|].
      intros h. rewrite HG. apply mono_skipTokenLoop. lia. }
  cbn [skipTokenLoop] in *. rewrite E1, E2 in *. cbn [bind] in *.
  destruct (isTokAt isTok c) as [b|] eqn:Eb; [|constructor].
  destruct (b || ctl_eqb c CAmp) eqn:Ebc.
  - destruct (ready (ir_m (sc_src s)) (clen cs (ir_l (sc_src s))) (ir_l (sc_src s))) eqn:Efull.
    + destruct (xs_skip _ _ _ _ H Efull) as [E5 [E6 H3]]. rewrite E5, E6 in *. cbn [bind] in *.
      replace (sc_tok s) with (sc_tok (sk s)) by reflexivity. apply HIH; auto. intros h. rewrite HG. apply fle_refl.
    + assert (Hnf : ~ fullR (sc_src s)) by (unfold fullR; congruence).
      assert (Hcu : c = CUndef). { destruct c; try reflexivity; exfalso; apply Hnf; apply Hf; discriminate. }
      clear Hc. subst c. destruct (overshoot _ _ _ _ H Hp Hnf) as [k HO].
      rewrite ir_skip_ret by (auto; eapply X_m; eauto). rewrite zero_skip in * by (eapply X_tm; eauto). cbn [bind] in *.
      destruct f as [|f]; [constructor|].
      assert (E0 : skipTokenLoop ops (S f) isTok (sk s) = Jump (sk s))
        by (cbn [skipTokenLoop]; rewrite (O_control _ _ _ _ _ HO); reflexivity).
      rewrite E0. constructor.
      split; [reflexivity|]. exists (sk t). split; [split; [apply mono_skipTokenLoop; lia|intros h; rewrite HG; apply mono_skipTokenLoop; lia]|].
      right. split; eauto. rewrite Eb. f_equal. destruct b; auto.
  - rewrite E1, E2 in *. cbn [bind] in *. destruct (ctl_eqb c CAny); [|constructor; auto].
    apply HIH; auto. intros h. rewrite HG. apply fle_refl.
Qed.

(** *** expected strings *)
Definition KJ w T k (s : scn) (y : out scn bool) : Prop :=
  tk_id (sc_tok s) = TParsingKey /\ exists t', X w T s t' /\ y = expectStr ops k t'.
Lemma x_expectLoop : forall w T k str' s t, X w T s t -> tk_id (sc_tok s) = TParsingKey ->
  str' = skipn (tk_pos (sc_tok s)) k -> Forall (fun x => x <> 0) k ->
  crel (X w T) (KJ w T k) (expectLoop ops str' s) (expectLoop ops str' t).
Proof.
  intros w T k. induction str' as [|x str' IH]; intros s t H Hid Hstr Hk.
  - cbn [expectLoop]. constructor. auto with xdb.
  - destruct (xs_ascii _ _ _ _ H) as [[c [E1 [E2 [Hp [Hf Hc]]]]]|E1].
    2:{ assert (E0 : expectLoop ops (x :: str') s = Jump s) by (cbn [expectLoop]; rewrite E1; reflexivity).
        rewrite E0. constructor. split; auto. exists t. split; auto.
        unfold expectStr. cbv zeta. rewrite upd_id_same by (rewrite <- (X_tok _ _ _ _ H); exact Hid).
        rewrite <- (X_tok _ _ _ _ H), <- Hstr. replace (Nat.leb (tk_pos (sc_tok s)) (length k)) with true; [reflexivity|].
        symmetry. apply Nat.leb_le. apply (f_equal (@length N)) in Hstr. rewrite skipn_length in Hstr. cbn [length] in Hstr. lia. }
    cbn [expectLoop]. rewrite E1, E2. cbn [bind]. destruct (N.eqb_spec c x) as [->|Hne].
    + assert (Hx : x <> 0).
      { apply (skipn_Forall _ (tk_pos (sc_tok s))) in Hk. rewrite <- Hstr in Hk. inversion Hk. assumption. }
      destruct (xs_skip _ _ _ _ H (Hf Hx)) as [E5 [E6 H3]]. rewrite E5, E6. cbn [bind].
      apply IH; auto.
      * apply X_upd_tok; auto. eapply tokok_other; [| |apply (X_tokok _ _ _ _ H)]; auto.
      * fr. apply (f_equal (@tl N)) in Hstr. cbn [tl] in Hstr. rewrite Hstr. symmetry. apply skipn_S_tl.
    + destruct (xs_control _ _ _ _ H) as [[cc [E3 [E4 [Hp1 [Hf1 Hc1]]]]]|[E3 _]].
      2:{ exfalso. unfold sc_control, on_src in E3. cbn [ir_ops r_control] in E3.
          destruct (need_cases (alen cs (ir_l (sc_src s))) (sc_src s) (X_m _ _ _ _ H)) as [[Hr Ec]|[Hr [Hm Ec]]].
          - rewrite Ec in E3. discriminate.
          - unfold peekR in Hp. congruence. }
      rewrite E3, E4. cbn [bind]. constructor. auto with xdb.
Qed.

Lemma x_expectStr : forall w T k s t, X w T s t -> Forall (fun x => x <> 0) k ->
  crel (X w T) (KJ w T k) (expectStr ops k s) (expectStr ops k t).
Proof.
  intros w T k s t H Hk. unfold expectStr at 1 2. cbv zeta.
  assert (H2 : X w T (upd_tok (tok_id TParsingKey) s) (upd_tok (tok_id TParsingKey) t)) by auto with xdb.
  rewrite <- (X_tok _ _ _ _ H2). destruct (Nat.leb _ _); [|constructor]. apply x_expectLoop; auto.
Qed.

(** *** actions *)
Definition DJ w T f mask a arg (G : nat -> out scn (etype + unit)) (s : scn) (y : out scn (etype + unit)) : Prop :=
  tk_id (sc_tok s) <> TParsingDone /\ exists t',
   (fle y (doAction ops cfg f mask a arg t') /\ forall h, fle (doAction ops cfg h mask a arg t') (G h)) /\
   (X w T s t' \/ ((exists n, O w T n s t') /\ exists isTok, tokenDef a = Some isTok /\ isTokAt isTok CUndef = Some true /\
       N.testbit mask (etype_idx arg) = false)).

Lemma doAction_tok : forall f mask a arg isTok s, tokenDef a = Some isTok -> tk_id (sc_tok s) <> TParsingDone ->
  doAction ops cfg f mask a arg s =
    let! (s1, ok) := (if N.testbit mask (etype_idx arg) then parseToken ops cfg f isTok s else skipTokenLoop ops f isTok s) in
    if ok then Ret s1 (inl arg) else Ret s1 (inr tt).
Proof. intros f mask a arg isTok s Ha Hd. unfold doAction. rewrite Ha. destruct (tk_id (sc_tok s)); congruence. Qed.
Lemma doAction_str : forall f mask a arg k s, tokenDef a = None -> stringDef a = Some k -> tk_id (sc_tok s) <> TParsingDone ->
  doAction ops cfg f mask a arg s =
    let! (s1, ok) := expectStr ops k s in
    if ok then match a with
               | ExpectIdentifierXML => Ret (push cfg 108 (push cfg 109 (push cfg 120 (push cfg 63 s1)))) (inl EHeaderStart)
               | _ => Ret s1 (inl ENone)
               end
    else Ret s1 (inr tt).
Proof. intros f mask a arg k s Ha Hs Hd. unfold doAction. rewrite Ha, Hs. destruct (tk_id (sc_tok s)); congruence. Qed.

Lemma tokid_done : forall i, i = TParsingDone \/ i <> TParsingDone.
Proof. intros i. destruct i; auto; right; discriminate. Qed.

Lemma x_doAction : forall w T f mask a arg s t, X w T s t ->
  crel (X w T) (DJ w T f mask a arg (fun h => doAction ops cfg (h + f) mask a arg t))
    (doAction ops cfg f mask a arg s) (doAction ops cfg f mask a arg t).
Proof.
  intros w T f mask a arg s t H.
  destruct (tokid_done (tk_id (sc_tok s))) as [Hd|Hd].
  - unfold doAction. rewrite <- (X_tok _ _ _ _ H), Hd.
    destruct (tokenDef a); [constructor; auto|]. destruct (stringDef a); constructor; auto with xdb.
  - pose proof Hd as Hd2. rewrite (X_tok _ _ _ _ H) in Hd2.
    destruct (tokenDef a) as [isTok|] eqn:Ea.
    + assert (HG : forall h, doAction ops cfg (h + f) mask a arg t = 
         let! (s1, ok) := (if N.testbit mask (etype_idx arg) then parseToken ops cfg (h + f) isTok t else skipTokenLoop ops (h + f) isTok t) in
         if ok then Ret s1 (inl arg) else Ret s1 (inr tt)) by (intros h; apply doAction_tok; auto).
      set (G := fun h => doAction ops cfg (h + f) mask a arg t) in *.
      change (forall h, G h = let! (s1, ok) := (if N.testbit mask (etype_idx arg) then parseToken ops cfg (h + f) isTok t else skipTokenLoop ops (h + f) isTok t) in
         if ok then Ret s1 (inl arg) else Ret s1 (inr tt)) in HG. clearbody G.
      rewrite !(doAction_tok _ _ _ _ isTok) by auto.
      destruct (N.testbit mask (etype_idx arg)) eqn:Em.
      * eapply crel_bind; [apply x_parseToken; exact H| |].
        -- intros s1 t1 ok H1. destruct ok; constructor; auto.
        -- intros s1 [Hr [t1 [Hx [Hy Hg]]]].
           assert (Hnd : tk_id (sc_tok s1) <> TParsingDone) by (intros E0; rewrite E0 in Hr; discriminate Hr).
           split; auto. exists t1. split; auto.
           split; [|intros h; rewrite HG];
           rewrite (doAction_tok _ _ _ _ isTok) by (auto; rewrite <- (X_tok _ _ _ _ Hx); auto); rewrite Em;
           (apply fle_bind; [auto|intros; apply fle_refl]).
      * eapply crel_bind; [apply x_skipTokenLoop; exact H| |].
        -- intros s1 t1 ok H1. destruct ok; constructor; auto.
        -- intros s1 [Hr [t1 [[Hy Hg] Hx]]]. split; [congruence|]. exists t1.
           assert (Hnd : tk_id (sc_tok t1) <> TParsingDone).
           { destruct Hx as [Hx|[[n Hx] _]]; [rewrite <- (X_tok _ _ _ _ Hx)|rewrite <- (O_tok _ _ _ _ _ Hx)]; congruence. }
           split.
           { split; [|intros h; rewrite HG]; rewrite (doAction_tok _ _ _ _ isTok) by auto; rewrite Em;
             (apply fle_bind; [auto|intros; apply fle_refl]). }
           destruct Hx as [Hx|[Hx Hu]]; [left; auto|right]. split; auto. exists isTok. auto.
    + destruct (stringDef a) as [k|] eqn:Es.
      * assert (HG : forall h, doAction ops cfg (h + f) mask a arg t = doAction ops cfg f mask a arg t).
        { intros h. rewrite !(doAction_str _ _ _ _ k) by auto. reflexivity. }
        set (G := fun h => doAction ops cfg (h + f) mask a arg t) in *.
        change (forall h, G h = doAction ops cfg f mask a arg t) in HG. clearbody G.
        rewrite (doAction_str _ _ _ _ k t) in * by auto. rewrite (doAction_str _ _ _ _ k s) by auto.
        eapply crel_bind; [apply (x_expectStr w T k); [exact H|]| |].
        -- destruct a; inversion Es; subst; repeat constructor; discriminate.
        -- intros s1 t1 ok H1. destruct ok; [destruct a|]; constructor; auto with xdb.
        -- intros s1 [Hr [t1 [Hx Hy]]]. assert (Hnd : tk_id (sc_tok s1) <> TParsingDone) by congruence.
           split; auto. exists t1. split; auto.
           split; [|intros h; rewrite HG]; rewrite (doAction_str _ _ _ _ k t1) by (auto; rewrite <- (X_tok _ _ _ _ Hx); auto);
           rewrite Hy; apply fle_refl.
      * unfold doAction. rewrite Ea, Es. constructor. auto with xdb.
Qed.

Lemma zero_control : forall t : scn, ir_m (sc_src t) = EndZero -> sc_control ops t = Ret t (ctl_of (casc cs (ir_l (sc_src t)))).
Proof.
  intros t H. unfold sc_control, on_src. cbn [ir_ops r_control]. rewrite need_zero by auto. cbn [omap]. rewrite set_src_id. reflexivity.
Qed.

Lemma skip_again : forall isTok f t t1 b, ir_m (sc_src t) = EndZero -> skipTokenLoop ops f isTok t = Ret t1 b ->
  b = true /\ skipTokenLoop ops f isTok t1 = Ret t1 true /\ sc_tok t1 = sc_tok t.
Proof.
  intros isTok. induction f as [|f IH]; intros t t1 b Hm H; [discriminate|].
  cbn [skipTokenLoop] in H. rewrite zero_control in H by auto. cbn [bind] in H.
  set (c := ctl_of (casc cs (ir_l (sc_src t)))) in *.
  destruct (isTokAt isTok c) as [b0|] eqn:Eb; [|discriminate].
  assert (Hup : forall t1, skipTokenLoop ops f isTok t1 = Ret t1 true -> skipTokenLoop ops (S f) isTok t1 = Ret t1 true).
  { intros t2 H2. eapply fle_ret; [|exact H2]. apply mono_skipTokenLoop. lia. }
  destruct (b0 || ctl_eqb c CAmp) eqn:Ebc.
  - rewrite zero_skip in H by auto. cbn [bind] in H. destruct (IH (sk t) t1 b) as [H1 [H2 H3]]; auto.
  - rewrite zero_control in H by auto. cbn [bind] in H. fold c in H.
    destruct (ctl_eqb c CAny) eqn:Ec.
    + destruct (IH _ _ _ Hm H) as [H1 [H2 H3]]. auto.
    + injection H as <- <-. split; auto. split; auto.
      cbn [skipTokenLoop]. rewrite zero_control by auto. cbn [bind]. fold c. rewrite Eb, Ebc.
      rewrite zero_control by auto. cbn [bind]. fold c. rewrite Ec. reflexivity.
Qed.

Lemma doAction_again : forall f mask a arg t t1 rt, ir_m (sc_src t) = EndZero ->
  doAction ops cfg f mask a arg t = Ret t1 (inl rt) -> doAction ops cfg f mask a arg t1 = Ret t1 (inl rt).
Proof.
  intros f mask a arg t t1 rt Hm H.
  destruct (tokid_done (tk_id (sc_tok t))) as [Hd|Hd].
  - assert (Hx : forall isTok, tokenDef a = Some isTok \/ stringDef a <> None -> t1 = t).
    { intros isTok Hx. unfold doAction in H. rewrite Hd in H. destruct (tokenDef a); [congruence|].
      destruct (stringDef a); [congruence|]. destruct Hx; congruence. }
    unfold doAction in *. rewrite Hd in H. destruct (tokenDef a) as [isTok|]; [injection H as <- <-; rewrite Hd; reflexivity|].
    destruct (stringDef a); [injection H as <- <-; rewrite Hd; reflexivity|]. injection H as <- <-. reflexivity.
  - destruct (tokenDef a) as [isTok|] eqn:Ea.
    + rewrite (doAction_tok _ _ _ _ isTok) in H by auto. destruct (N.testbit mask (etype_idx arg)) eqn:Em.
      * destruct (parseToken ops cfg f isTok t) as [t2 ok| | | |] eqn:Ep; cbn [bind] in H; try discriminate.
        destruct ok; [|discriminate]. injection H as <- <-. apply parseToken_done in Ep.
        unfold doAction. rewrite Ea, Ep. reflexivity.
      * destruct (skipTokenLoop ops f isTok t) as [t2 ok| | | |] eqn:Ep; cbn [bind] in H; try discriminate.
        destruct (skip_again _ _ _ _ _ Hm Ep) as [-> [Hs Ht]]. injection H as <- <-.
        rewrite (doAction_tok _ _ _ _ isTok) by (auto; congruence). rewrite Em, Hs. reflexivity.
    + destruct (stringDef a) as [k|] eqn:Es.
      * rewrite (doAction_str _ _ _ _ k) in H by auto.
        destruct (expectStr ops k t) as [t2 ok| | | |] eqn:Ep; cbn [bind] in H; try discriminate.
        destruct ok; [|discriminate]. unfold expectStr in Ep. destruct (Nat.leb _ _); [|discriminate Ep]. apply expectLoop_done in Ep.
        unfold doAction. rewrite Ea, Es. destruct a; try discriminate Es; injection H as <- <-; fr; rewrite Ep; reflexivity.
      * unfold doAction in *. rewrite Ea, Es in *. injection H as <- <-. reflexivity.
Qed.

(** *** nextItem *)
(** the current state skips characters that are not ASCII *)
Definition swallow (mask : N) (s : scn) : Prop :=
  exists e, stm_get (sc_state s) = Some e /\
    match el_action e with
    | None => nth_error (el_next e) (ctl_idx CUndef) = Some (Some (sc_state s)) /\ tk_id (sc_tok s) = TStart
    | Some (a, arg) => exists isTok, tokenDef a = Some isTok /\ isTokAt isTok CUndef = Some true /\
        N.testbit mask (etype_idx arg) = false /\ tk_id (sc_tok s) <> TParsingDone
    end.

Lemma undef_next : forall st e ns, stm_get st = Some e -> nth_error (el_next e) (ctl_idx CUndef) = Some (Some ns) ->
  el_action e = None /\ exists e', stm_get ns = Some e' /\ el_action e' = None /\
    nth_error (el_next e') (ctl_idx CUndef) = Some (Some ns).
Proof.
  intros st e ns H H2. destruct st; vm_compute in H; injection H as <-; vm_compute in H2; try discriminate H2;
    injection H2 as <-; (split; [reflexivity|]; eexists; repeat split; reflexivity).
Qed.

Definition NJ w T f mask (G : nat -> out scn etype) (s : scn) (y : out scn etype) : Prop :=
  exists t', (fle y (nextItem ops cfg f mask t') /\ forall h, fle (nextItem ops cfg h mask t') (G h)) /\ (X w T s t' \/ ((exists n, O w T n s t') /\ swallow mask s)).

Theorem x_nextItem : forall w T mask f s t, X w T s t ->
  crel (X w T) (NJ w T f mask (fun h => nextItem ops cfg (h + f) mask t)) (nextItem ops cfg f mask s) (nextItem ops cfg f mask t).
Proof.
  intros w T mask. induction f as [|f IH]; intros s t H; [constructor|].
  set (G := fun h => nextItem ops cfg (h + S f) mask t).
  assert (HG : forall h, G h = nextItem ops cfg (S (h + f)) mask t) by (intros h; unfold G; f_equal; lia).
  assert (HIH : forall s t, X w T s t -> (forall h, fle (nextItem ops cfg (h + f) mask t) (G h)) ->
     crel (X w T) (NJ w T (S f) mask G) (nextItem ops cfg f mask s) (nextItem ops cfg f mask t)).
  { intros s' t' Ha Hg. destruct (IH s' t' Ha); constructor; auto.
    destruct H0 as [t0 [[H2 H4] H3]]. exists t0. split; auto. split; [eapply fle_trans; [exact H2|]; apply mono_nextItem; lia|].
    intros h. eapply fle_trans; [apply H4|apply Hg]. }
  clear IH. clearbody G. pose proof (X_state _ _ _ _ H) as Hst.
  destruct (stm_get_some (sc_state s)) as [e He].
  (* transition and the following *)
  assert (HT : forall s1 t1 c rt, X w T s1 t1 -> peekR (sc_src s1) -> (c <> CUndef -> fullR (sc_src s1)) ->
     (el_action e = None -> rt = ENone) ->
     (forall h, fle (let! (s3, ok) := transition ops e c (upd_tok (tok_id TStart) t1) in
            if ok then if isNone rt then nextItem ops cfg (h + f) mask s3 else Ret s3 rt else Ret s3 EErrorOccurred) (G h)) ->
     crel (X w T) (NJ w T (S f) mask G)
       (let! (s3, ok) := transition ops e c (upd_tok (tok_id TStart) s1) in
            if ok then if isNone rt then nextItem ops cfg f mask s3 else Ret s3 rt else Ret s3 EErrorOccurred)
       (let! (s3, ok) := transition ops e c (upd_tok (tok_id TStart) t1) in
            if ok then if isNone rt then nextItem ops cfg f mask s3 else Ret s3 rt else Ret s3 EErrorOccurred)).
  { intros s1 t1 c rt H1 Hp Hf Hrt Hg. unfold transition in *.
    destruct (next_some _ _ c He) as [o Ho]. rewrite Ho in *. destruct o as [ns|].
    - assert (H2 : X w T (set_state ns (upd_tok (tok_id TStart) s1)) (set_state ns (upd_tok (tok_id TStart) t1))) by auto with xdb.
      destruct (ready (ir_m (sc_src s1)) (clen cs (ir_l (sc_src s1))) (ir_l (sc_src s1))) eqn:Efull.
      + destruct (xs_skip _ _ _ _ H2 Efull) as [E5 [E6 H3]]. rewrite E5, E6 in *. cbn [bind] in *.
        destruct (isNone rt); [apply HIH; auto|constructor; auto].
      + assert (Hnf : ~ fullR (sc_src s1)) by (unfold fullR; congruence).
        assert (Hcu : c = CUndef). { destruct c; try reflexivity; exfalso; apply Hnf; apply Hf; discriminate. }
        subst c. destruct (undef_next _ _ _ He Ho) as [Hna [e' [He' [Hna' Hn']]]]. rewrite (Hrt Hna).
        destruct (overshoot _ _ _ _ H2 Hp Hnf) as [k HO].
        rewrite (Hrt Hna) in Hg.
        rewrite ir_skip_ret by (auto; eapply X_m; exact H2). rewrite zero_skip in * by (eapply X_tm; exact H2). cbn [bind isNone] in *.
        destruct f as [|f]; [constructor|].
        set (s3 := sk (set_state ns (upd_tok (tok_id TStart) s1))) in *.
        assert (E0 : nextItem ops cfg (S f) mask s3 = Jump s3).
        { cbn [nextItem]. replace (sc_state s3) with ns by reflexivity. rewrite He', Hna'. cbn [bind fst snd].
          rewrite (O_control _ _ _ _ _ HO). reflexivity. }
        rewrite E0. constructor. eexists. split; [split; [apply mono_nextItem; lia|]|].
        { intros h. eapply fle_trans; [|apply Hg]. apply mono_nextItem. lia. }
        right. split; [eauto|].
        exists e'. split; [exact He'|]. rewrite Hna'. split; [exact Hn'|reflexivity].
    - destruct (el_fallback e) as [fs|].
      + cbn [bind] in *. destruct (isNone rt); [apply HIH; auto with xdb|constructor; auto with xdb].
      + destruct (el_miss e); cbn [bind]; constructor; auto with xdb. }
  destruct (el_action e) as [[a arg]|] eqn:Ea.
  - pose proof (x_doAction w T f mask a arg s t H) as HD.
    assert (Hmd : forall h, fle (doAction ops cfg f mask a arg t) (doAction ops cfg (h + f) mask a arg t)).
    { intros h. apply mono_doAction. lia. }
    remember (doAction ops cfg f mask a arg s) as ds eqn:Eds. remember (doAction ops cfg f mask a arg t) as dt eqn:Edt.
    pose proof (stk_doAction ops cfg f mask a arg _ s eq_refl) as Hk. rewrite <- Eds in Hk.
    pose proof (stk_doAction ops cfg f mask a arg _ t eq_refl) as Hkt. rewrite <- Edt in Hkt.
    destruct HD as [s1 t1 res H1|s1 y HJ| |].
    + assert (E0 : forall z, nextItem ops cfg (S f) mask t = z -> nextItem ops cfg (S f) mask t = z) by auto.
      destruct res as [rt|u].
      2:{ cbn [nextItem]. rewrite <- Hst, He, Ea, <- Eds, <- Edt. cbn [bind fst snd]. constructor. auto. }
      destruct (Nat.eqb (el_nofnext e) 0) eqn:En.
      { cbn [nextItem]. rewrite <- Hst, He, Ea, <- Eds, <- Edt. cbn [bind fst snd]. rewrite En. cbn [bind fst snd].
        constructor. destruct (el_fallback e); auto with xdb. }
      destruct (xs_control _ _ _ _ H1) as [[c [E1 [E2 [Hp [Hf Hc]]]]]|[E1 E2]].
      * cbn [nextItem]. rewrite <- Hst, He, Ea, <- Eds, <- Edt. cbn [bind fst snd]. rewrite En. cbn [bind fst snd].
        rewrite E1, E2. cbn [bind]. apply HT; auto; try (intros; discriminate).
        intros h. rewrite HG. cbn [nextItem]. rewrite <- Hst, He, Ea.
        rewrite (fle_ret _ _ _ _ (Hmd h) eq_refl). cbn [bind fst snd]. rewrite En. cbn [bind fst snd]. rewrite E2. cbn [bind].
        apply fle_refl.
      * assert (E3 : nextItem ops cfg (S f) mask s = Jump s1).
        { cbn [nextItem]. rewrite He, Ea, <- Eds. cbn [bind fst snd]. rewrite En. cbn [bind fst snd]. rewrite E1. reflexivity. }
        rewrite E3. constructor. exists t1. split; [|left; exact H1].
        assert (Hbk : forall g, doAction ops cfg g mask a arg t = Ret t1 (inl rt) ->
           nextItem ops cfg (S g) mask t = nextItem ops cfg (S g) mask t1).
        { intros g Eg. pose proof (doAction_again g mask a arg t t1 rt (X_tm _ _ _ _ H) Eg) as Hag.
          cbn [stk] in Hkt. cbn [nextItem]. rewrite Hkt, <- Hst, He, Ea, Eg, Hag. reflexivity. }
        split. 2:{ intros h. rewrite HG, Hbk by (apply (fle_ret _ _ _ _ (Hmd h) eq_refl)). apply mono_nextItem. lia. }
        right. pose proof (doAction_again f mask a arg t t1 rt (X_tm _ _ _ _ H) (eq_sym Edt)) as Hag.
        cbn [stk] in Hkt. cbn [nextItem]. rewrite Hkt, <- Hst, He, Ea, <- Edt, Hag. reflexivity.
    + assert (E3 : nextItem ops cfg (S f) mask s = Jump s1).
      { cbn [nextItem]. rewrite He, Ea, <- Eds. reflexivity. }
      rewrite E3. constructor. destruct HJ as [Hnd [t1 [[Hy Hg] Hx]]]. cbn [stk] in Hk.
      assert (Hst1 : sc_state t1 = sc_state s).
      { destruct Hx as [Hx|[[n Hx] _]]; [rewrite <- (X_state _ _ _ _ Hx)|rewrite <- (O_state _ _ _ _ _ Hx)]; exact Hk. }
      exists t1. split; [split|].
      * cbn [nextItem]. rewrite Hst1, <- Hst, He, Ea. rewrite <- Edt. apply fle_bind.
        -- apply fle_bind; [exact Hy|]. intros. apply fle_refl.
        -- intros. apply fle_refl.
      * intros h. rewrite HG. destruct h as [|h]; [left; reflexivity|].
        cbn [nextItem]. rewrite Hst1, <- Hst, He, Ea. apply fle_bind.
        -- apply fle_bind; [eapply fle_trans; [apply Hg|apply mono_doAction; lia]|]. intros. apply fle_refl.
        -- intros s2 r2. destruct (snd r2); [apply fle_refl|].
           apply fle_bind; [apply fle_refl|]. intros s3 c. apply fle_bind; [apply fle_refl|]. intros s4 ok.
           destruct ok; [|apply fle_refl]. destruct (isNone (fst r2)); [|apply fle_refl]. apply mono_nextItem. lia.
      * destruct Hx as [Hx|[Hx [isTok [Ht [Hu Hm]]]]]; [left; exact Hx|right]. split; auto.
        exists e. rewrite Hk. split; auto. rewrite Ea. exists isTok. auto.
    + cbn [nextItem]. rewrite <- Hst, He, Ea, <- Eds, <- Edt. cbn [bind]. constructor.
    + cbn [nextItem]. rewrite <- Hst, He, Ea, <- Eds, <- Edt. cbn [bind]. constructor.
  - destruct (xs_control _ _ _ _ H) as [[c [E1 [E2 [Hp [Hf Hc]]]]]|[E1 E2]].
    + cbn [nextItem]. rewrite <- Hst, He, Ea. cbn [bind fst snd]. rewrite E1, E2. cbn [bind]. apply HT; auto.
      intros h. rewrite HG. cbn [nextItem]. rewrite <- Hst, He, Ea. cbn [bind fst snd]. rewrite E2. cbn [bind]. apply fle_refl.
    + assert (E3 : nextItem ops cfg (S f) mask s = Jump s).
      { cbn [nextItem]. rewrite He, Ea. cbn [bind fst snd]. rewrite E1. reflexivity. }
      rewrite E3. constructor. exists t. split; [|left; exact H]. split; [apply fle_refl|].
      intros h. rewrite HG. apply mono_nextItem. lia.
Qed.

(** *** the rest of a character at the start of a chunk *)
Record vr (w : list N) (T : N * bool) (k : nat) (r t : ird) : Prop := mkVr {
  v_cs : cs = UTF8;
  v_mode : ir_m r = emode_of (snd T);
  v_me : ir_m r = EndZero -> w = [];
  v_tm : ir_m t = EndZero;
  v_conts : exists conts, length conts = k /\ forallb continuation conts = true /\ ir_l r ++ w = conts ++ ir_l t;
  v_k : (1 <= k <= 7)%nat;
  v_pos : put = true -> u64 (ir_p r + N.of_nat k) = u64 (ir_p t);
  v_T : put = true -> ir_m r = EndJump -> u64 (ir_p r + N.of_nat (length (ir_l r))) = u64 (fst T);
  v_ok : complete_text cs (ir_l t);
  v_b : Forall isByte (ir_l t) }.
Definition V w T k (s t : scn) : Prop := srel prel (vr w T k) s t /\ tokok (sc_tok s).

Lemma continuation_low : forall b, continuation b = true -> 127 < b /\ b < 0xC0.
Proof. intros b H. unfold continuation in H. lia. Qed.

Lemma vr_nil : forall w T k r t, vr w T k r t -> ir_l r = [] -> orr w T k r t.
Proof.
  intros w T k r t [H1 H2 H3 H4 [conts [Hl [Hc He]]] H6 H7 H8 H9 H10] Hn.
  assert (Hm : ir_m r = EndJump).
  { destruct (ir_m r) eqn:Em; auto.
    - rewrite (H3 eq_refl), Hn in He. destruct conts; [cbn in Hl; lia|discriminate].
    - destruct (snd T); discriminate. }
  constructor; auto.
  - exists conts. rewrite Hn in He. auto.
  - intros Hput. rewrite <- (H7 Hput). apply u64_add_r. rewrite <- (H8 Hput Hm), Hn. cbn [length]. f_equal. lia.
Qed.

Lemma vr_step : forall w T k r t, vr w T k r t -> ir_l r <> [] ->
  (1 <= length (ir_l r))%nat /\ casc cs (ir_l r) = 255 /\ clen cs (ir_l r) = 1%nat /\
  ((k = 1%nat /\ xr w T (skR r) t) \/ ((2 <= k)%nat /\ vr w T (k - 1) (skR r) t)).
Proof.
  intros w T k r t [H1 H2 H3 H4 [conts [Hl [Hc He]]] H6 H7 H8 H9 H10] Hn.
  destruct r as [l m p]. cbn [ir_l ir_m ir_p] in *. destruct l as [|b l]; [congruence|].
  destruct conts as [|b' conts]; [cbn in Hl; lia|]. cbn [app] in He. injection He as <- He.
  cbn [forallb] in Hc. apply andb_true_iff in Hc. destruct Hc as [Hb Hc]. apply continuation_low in Hb.
  assert (Hcl : clen cs (b :: l) = 1%nat).
  { rewrite H1, utf8_clen. destruct (N.ltb_spec b 0xC0); lia. }
  split; [cbn; lia|]. split.
  { rewrite H1. cbn [casc]. unfold nb. cbn [nth]. destruct (N.ltb_spec 127 b); [reflexivity|lia]. }
  split; [exact Hcl|].
  assert (Hsk : skR (mkIr (b :: l) m p) = mkIr l m (p + 1)).
  { unfold skR, ir_skipto. cbn [ir_l ir_m ir_p]. rewrite Hcl. reflexivity. }
  rewrite Hsk. cbn [length] in *.
  destruct conts as [|b2 conts].
  - left. cbn [length] in Hl. subst k. split; [reflexivity|]. cbn [app] in He. constructor; cbn [ir_l ir_m ir_p]; auto.
    intros Hput Hm. rewrite <- (H8 Hput Hm). f_equal. lia.
  - right. cbn [length] in Hl. split; [lia|]. constructor; cbn [ir_l ir_m ir_p]; auto.
    + exists (b2 :: conts). split; [cbn [length]; lia|auto].
    + lia.
    + intros Hput. rewrite <- (H7 Hput). f_equal. lia.
    + intros Hput Hm. rewrite <- (H8 Hput Hm). f_equal. lia.
Qed.

Lemma swallow_step : forall mask f s, swallow mask s -> ir_m (sc_src s) <> EndUndef -> (1 <= length (ir_l (sc_src s)))%nat -> cs = UTF8 ->
  casc cs (ir_l (sc_src s)) = 255 -> fle (nextItem ops cfg f mask (sk s)) (nextItem ops cfg (S f) mask s).
Proof.
  intros mask f s [e [He Hsw]] Hm Hl Hcs Hc.
  assert (Hp : peekR (sc_src s)).
  { apply ready_spec. right. rewrite Hcs. exact Hl. }
  assert (Ec : sc_control ops s = Ret s CUndef).
  { unfold sc_control, on_src. cbn [ir_ops r_control].
    destruct (need_cases (alen cs (ir_l (sc_src s))) (sc_src s) Hm) as [[Hr E]|[Hr _]]; [|unfold peekR in Hp; congruence].
    rewrite E, Hc. cbn [omap]. rewrite set_src_id. reflexivity. }
  assert (Es : sc_skip ops s = Ret (sk s) tt) by (apply ir_skip_ret; auto).
  destruct (el_action e) as [[a arg]|] eqn:Ea.
  - destruct Hsw as [isTok [Ht [Hu [Hmask Hd]]]].
    destruct f as [|f]; [left; reflexivity|].
    assert (Hd2 : tk_id (sc_tok (sk s)) <> TParsingDone) by exact Hd.
    assert (E1 : doAction ops cfg (S f) mask a arg s = doAction ops cfg f mask a arg (sk s)).
    { rewrite !(doAction_tok _ _ _ _ isTok) by auto. rewrite Hmask. cbn [skipTokenLoop]. rewrite Ec. cbn [bind].
      rewrite Hu. cbn [orb]. rewrite Es. reflexivity. }
    cbn [nextItem]. replace (sc_state (sk s)) with (sc_state s) by reflexivity. rewrite He, Ea.
    rewrite E1. apply fle_bind; [apply fle_refl|]. intros s1 r. destruct (snd r); [apply fle_refl|].
    apply fle_bind; [apply fle_refl|]. intros s2 c. apply fle_bind; [apply fle_refl|]. intros s3 ok.
    destruct ok; [|apply fle_refl]. destruct (isNone (fst r)); [|apply fle_refl].
    apply (mono_nextItem ops cfg f (S f)). lia.
  - destruct Hsw as [Hn Hid].
    right. cbn [nextItem]. rewrite He, Ea. cbn [bind fst snd]. rewrite Ec. cbn [bind]. unfold transition. rewrite Hn.
    rewrite upd_id_same by exact Hid.
    replace (set_state (sc_state s) s) with s by (destruct s; reflexivity). rewrite Es. cbn [bind isNone]. reflexivity.
Qed.

Lemma swallow_jump : forall mask f s, swallow mask s -> sc_control ops s = Jump s -> nextItem ops cfg (S (S f)) mask s = Jump s.
Proof.
  intros mask f s [e [He Hsw]] Ec.
  destruct (el_action e) as [[a arg]|] eqn:Ea.
  - destruct Hsw as [isTok [Ht [Hu [Hmask Hd]]]].
    assert (E1 : doAction ops cfg (S f) mask a arg s = Jump s).
    { rewrite (doAction_tok _ _ _ _ isTok) by auto. rewrite Hmask. cbn [skipTokenLoop]. rewrite Ec. reflexivity. }
    remember (S f) as g. cbn [nextItem]. rewrite He, Ea, E1. reflexivity.
  - cbn [nextItem]. rewrite He, Ea. cbn [bind fst snd]. rewrite Ec. reflexivity.
Qed.

Lemma absorb : forall w T mask f k s t, V w T k s t -> swallow mask s ->
  (exists s0, X w T s0 t /\ fle (nextItem ops cfg f mask s0) (nextItem ops cfg (f + k) mask s)) \/
  (exists s0 k', nextItem ops cfg (S (S f) + k) mask s = Jump s0 /\ O w T k' s0 t /\ swallow mask s0).
Proof.
  intros w T mask f. induction k as [|k IH]; intros s t [H Hok] Hsw.
  - exfalso. destruct H as [st er r t ob tp tp' tk H Hpos]. pose proof (v_k _ _ _ _ _ H). lia.
  - destruct H as [st er r t ob tp tp' tk H Hpos]. cbn [sc_src sc_tok] in *.
    set (s := mkSc st er r ob tp tk) in *.
    assert (Hm : ir_m r <> EndUndef) by (rewrite (v_mode _ _ _ _ _ H); destruct (snd T); discriminate).
    destruct (ir_l r) as [|b l] eqn:El.
    + right. pose proof (vr_nil _ _ _ _ _ H El) as Ho.
      assert (HO : O w T (S k) s (mkSc st er t ob tp' tk)).
      { split; [|exact Hok]. constructor; auto. }
      exists s, (S k). split; [|split; auto]. cbn [Nat.add]. apply swallow_jump; auto. eapply O_control; eauto.
    + destruct (vr_step _ _ _ _ _ H) as [Hl [Hc [Hcl Hnext]]]; [congruence|].
      assert (Hstep : forall g, fle (nextItem ops cfg g mask (sk s)) (nextItem ops cfg (S g) mask s)).
      { intros g. apply swallow_step; auto. apply (v_cs _ _ _ _ _ H). }
      assert (Hsw2 : swallow mask (sk s)) by exact Hsw.
      destruct Hnext as [[Hk Hx]|[Hk Hv]].
      * left. exists (sk s). split.
        -- split; [|exact Hok]. constructor; auto.
        -- eapply fle_trans; [apply Hstep|]. apply mono_nextItem. lia.
      * replace (S k - 1)%nat with k in Hv by lia.
        destruct (IH (sk s) (mkSc st er t ob tp' tk)) as [[s0 [Ha Hb]]|[s0 [k' [Ha Hb]]]]; auto.
        { split; [|exact Hok]. constructor; auto. }
        -- left. exists s0. split; auto. eapply fle_trans; [exact Hb|]. replace (f + S k)%nat with (S (f + k)) by lia. apply Hstep.
        -- right. exists s0, k'. split; auto.
           replace (S (S f) + S k)%nat with (S (S (S f) + k)) by lia.
           destruct (Hstep (S (S f) + k)%nat) as [E|E]; congruence.
Qed.

(** the same from the other side: what the call on the chunk delivers *)
Lemma swallow_back : forall mask f s, swallow mask s -> ir_m (sc_src s) <> EndUndef -> (1 <= length (ir_l (sc_src s)))%nat -> cs = UTF8 ->
  casc cs (ir_l (sc_src s)) = 255 -> fle (nextItem ops cfg f mask s) (nextItem ops cfg f mask (sk s)).
Proof.
  intros mask f s [e [He Hsw]] Hm Hl Hcs Hc.
  assert (Hp : peekR (sc_src s)).
  { apply ready_spec. right. rewrite Hcs. exact Hl. }
  assert (Ec : sc_control ops s = Ret s CUndef).
  { unfold sc_control, on_src. cbn [ir_ops r_control].
    destruct (need_cases (alen cs (ir_l (sc_src s))) (sc_src s) Hm) as [[Hr E]|[Hr _]]; [|unfold peekR in Hp; congruence].
    rewrite E, Hc. cbn [omap]. rewrite set_src_id. reflexivity. }
  assert (Es : sc_skip ops s = Ret (sk s) tt) by (apply ir_skip_ret; auto).
  destruct f as [|f]; [left; reflexivity|].
  destruct (el_action e) as [[a arg]|] eqn:Ea.
  - destruct Hsw as [isTok [Ht [Hu [Hmask Hd]]]].
    assert (Hd2 : tk_id (sc_tok (sk s)) <> TParsingDone) by exact Hd.
    assert (E1 : fle (doAction ops cfg f mask a arg s) (doAction ops cfg f mask a arg (sk s))).
    { rewrite !(doAction_tok _ _ _ _ isTok) by auto. rewrite Hmask. apply fle_bind; [|intros; apply fle_refl].
      destruct f as [|f]; [left; reflexivity|]. remember (skipTokenLoop ops (S f) isTok (sk s)) as z eqn:Ez.
      cbn [skipTokenLoop]. rewrite Ec. cbn [bind].
      rewrite Hu. cbn [orb]. rewrite Es. cbn [bind]. subst z. apply mono_skipTokenLoop. lia. }
    cbn [nextItem]. replace (sc_state (sk s)) with (sc_state s) by reflexivity. rewrite He, Ea.
    apply fle_bind; [|intros; apply fle_refl]. apply fle_bind; [exact E1|]. intros; apply fle_refl.
  - destruct Hsw as [Hn Hid].
    remember (nextItem ops cfg (S f) mask (sk s)) as z eqn:Ez.
    cbn [nextItem]. rewrite He, Ea. cbn [bind fst snd]. rewrite Ec. cbn [bind]. unfold transition. rewrite Hn.
    rewrite upd_id_same by exact Hid.
    replace (set_state (sc_state s) s) with s by (destruct s; reflexivity). rewrite Es. cbn [bind isNone]. subst z.
    apply mono_nextItem. lia.
Qed.

Lemma swallow_stop : forall mask f s, swallow mask s -> sc_control ops s = Jump s -> fle (nextItem ops cfg f mask s) (Jump s).
Proof.
  intros mask f s Hsw Ec. rewrite <- (swallow_jump mask f s Hsw Ec). apply mono_nextItem. lia.
Qed.

Lemma absorb_back : forall w T mask f k s t, V w T k s t -> swallow mask s ->
  (exists s0, X w T s0 t /\ fle (nextItem ops cfg f mask s) (nextItem ops cfg f mask s0)) \/
  (exists s0 k', fle (nextItem ops cfg f mask s) (Jump s0) /\ O w T k' s0 t /\ swallow mask s0).
Proof.
  intros w T mask f. induction k as [|k IH]; intros s t [H Hok] Hsw.
  - exfalso. destruct H as [st er r t ob tp tp' tk H Hpos]. pose proof (v_k _ _ _ _ _ H). lia.
  - destruct H as [st er r t ob tp tp' tk H Hpos]. cbn [sc_src sc_tok] in *.
    set (s := mkSc st er r ob tp tk) in *.
    assert (Hm : ir_m r <> EndUndef) by (rewrite (v_mode _ _ _ _ _ H); destruct (snd T); discriminate).
    destruct (ir_l r) as [|b l] eqn:El.
    + right. pose proof (vr_nil _ _ _ _ _ H El) as Ho.
      assert (HO : O w T (S k) s (mkSc st er t ob tp' tk)).
      { split; [|exact Hok]. constructor; auto. }
      exists s, (S k). split; [|split; auto]. apply swallow_stop; auto. eapply O_control; eauto.
    + destruct (vr_step _ _ _ _ _ H) as [Hl [Hc [Hcl Hnext]]]; [congruence|].
      assert (Hstep : fle (nextItem ops cfg f mask s) (nextItem ops cfg f mask (sk s))).
      { apply swallow_back; auto. apply (v_cs _ _ _ _ _ H). }
      assert (Hsw2 : swallow mask (sk s)) by exact Hsw.
      destruct Hnext as [[Hk Hx]|[Hk Hv]].
      * left. exists (sk s). split; [|exact Hstep].
        split; [|exact Hok]. constructor; auto.
      * replace (S k - 1)%nat with k in Hv by lia.
        destruct (IH (sk s) (mkSc st er t ob tp' tk)) as [[s0 [Ha Hb]]|[s0 [k' [Ha Hb]]]]; auto.
        { split; [|exact Hok]. constructor; auto. }
        -- left. exists s0. split; auto. eapply fle_trans; [exact Hstep|exact Hb].
        -- right. exists s0, k'. split; auto. eapply fle_trans; [exact Hstep|exact Ha].
Qed.

(** *** the next chunk *)
Lemma feed_X : forall w T s t a p c eom p2 T2, X (c ++ w) T s t -> sc_src s = mkIr a EndJump p ->
  (put = true -> u64 (p2 + N.of_nat (length a)) = u64 (fst T)) ->
  (put = true -> u64 (fst T2) = u64 (fst T + N.of_nat (length c))) -> snd T2 = eom -> (eom = false -> w = []) ->
  X w T2 (set_src s (mkIr (a ++ c) (emode_of eom) p2)) t.
Proof.
  intros w T s t a p c eom p2 T2 [H Hok] Hs Hp2 HT2 Hsnd Hw. destruct H as [st er r t ob tp tp' tk H Hpos]. cbn [sc_src] in Hs. subst r.
  split; [|exact Hok]. constructor; auto. destruct H as [H1 H2 H3 H4 H5 H6 H7 H8]. cbn [ir_l ir_m ir_p] in *.
  constructor; cbn [ir_l ir_m ir_p]; auto.
  - rewrite Hsnd. reflexivity.
  - destruct eom; [discriminate|auto].
  - rewrite H4, app_assoc. reflexivity.
  - intros Hput. rewrite <- (H5 Hput). apply (u64_sub_r _ _ (N.of_nat (length a))). rewrite (Hp2 Hput), (H6 Hput eq_refl). reflexivity.
  - intros Hput Hm. rewrite (HT2 Hput). rewrite app_length, Nat2N.inj_add, N.add_assoc. apply u64_add_r. auto.
Qed.
Lemma feed_O : forall w T k s t a p c eom p2 T2, O (c ++ w) T k s t -> sc_src s = mkIr a EndJump p ->
  (put = true -> u64 (p2 + N.of_nat (length a)) = u64 (fst T)) ->
  (put = true -> u64 (fst T2) = u64 (fst T + N.of_nat (length c))) -> snd T2 = eom -> (eom = false -> w = []) ->
  V w T2 k (set_src s (mkIr (a ++ c) (emode_of eom) p2)) t.
Proof.
  intros w T k s t a p c eom p2 T2 [H Hok] Hs Hp2 HT2 Hsnd Hw. destruct H as [st er r t ob tp tp' tk H Hpos]. cbn [sc_src] in Hs. subst r.
  split; [|exact Hok]. constructor; auto. destruct H as [H1 H0 H2 H3 H4 [conts [Hl [Hc He]]] H6 H7 H8 H9]. cbn [ir_l ir_m ir_p] in *.
  subst a. cbn [length] in *. constructor; cbn [ir_l ir_m ir_p app]; auto.
  - rewrite Hsnd. reflexivity.
  - destruct eom; [discriminate|auto].
  - exists conts. auto.
  - intros Hput. rewrite <- (H7 Hput). apply u64_add_r. rewrite <- (Hp2 Hput). f_equal. lia.
  - intros Hput Hm. rewrite (HT2 Hput). apply u64_add_r. rewrite <- (Hp2 Hput). f_equal. lia.
Qed.
Lemma X_jumped : forall w T s t, X w T s t -> snd T = true -> exists a p, sc_src s = mkIr a EndJump p.
Proof.
  intros w T s t [H _] HT. destruct H as [st er r t ob tp tp' tk H Hpos]. cbn [sc_src]. pose proof (x_mode _ _ _ _ H) as Hm.
  rewrite HT in Hm. destruct r as [a m p]. cbn in Hm. subst m. eauto.
Qed.
Lemma O_jumped : forall w T k s t, O w T k s t -> exists a p, sc_src s = mkIr a EndJump p.
Proof.
  intros w T k s t [H _]. destruct H as [st er r t ob tp tp' tk H Hpos]. cbn [sc_src]. pose proof (o_m _ _ _ _ _ H) as Hm.
  destruct r as [a m p]. cbn in Hm. subst m. eauto.
Qed.
End Chunk.
