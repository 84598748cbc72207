(** The entity map and the mask of elements (proofs). *)
From Verif Require Import Base Iter CharMap CodePages Charset TextScanner Ideal ReaderSim ScannerSim IterSim
  CharsetSpec CharsetProofs ReadSpec ReadProofs XmlScanner ScanSpec ScanProofs Safety FuelMono ChunkScan ChunkTop Term ScanTop.

Lemma bind_ext : forall {S A B} (x : out S A) (f g : S -> A -> out S B), (forall s a, f s a = g s a) -> bind x f = bind x g.
Proof. intros S A B [] f g H; cbn [bind]; auto. Qed.

(** ** The entity map is only looked at with the address of the buffer *)
Section Map.
Context {R : Type} (rops : readerops R) (o : charset) (raw : bool) (m : list (N * N)) (addr addr' : N).
Hypothesis Hm : map_find m addr = None.
Let c1 := mkCfg o raw (Some m) addr.
Let c2 := mkCfg o raw None addr'.

Lemma m_push : forall c (s : scanner R), push c1 c s = push c2 c s.
Proof. reflexivity. Qed.
Lemma m_pushes : forall l (s : scanner R), pushes c1 l s = pushes c2 l s.
Proof. induction l as [|c l IH]; intros s; cbn [pushes]; [reflexivity|]. rewrite m_push. apply IH. Qed.
Lemma m_fallback : forall (s : scanner R), fallbackEntity c1 s = fallbackEntity c2 s.
Proof. intros s. unfold fallbackEntity. destruct (tk_id (sc_tok s)); rewrite ?m_push, ?m_pushes; reflexivity. Qed.
Lemma m_pushEntity : forall (s : scanner R), pushEntity c1 s = pushEntity c2 s.
Proof. intros s. unfold pushEntity. cbn [c1 c2 cf_map cf_bufaddr]. rewrite Hm. reflexivity. Qed.
Lemma m_numBaseLoop : forall k (s : scanner R), numBaseLoop rops c1 k s = numBaseLoop rops c2 k s.
Proof.
  induction k as [|k IH]; intros s; cbn [numBaseLoop]; [rewrite m_fallback; reflexivity|]. apply bind_ext. intros s1 c.
  destruct (c =? 59).
  - destruct (0xFFFFFFFF <? tk_value (sc_tok s1)); [|reflexivity]. destruct (tok_put c (sc_tok s1)); [|reflexivity]. rewrite m_fallback. reflexivity.
  - destruct (HEX c); [|reflexivity]. destruct (tk_base (sc_tok s1) <=? n); [rewrite m_fallback; reflexivity|].
    destruct (tok_put c (sc_tok s1)); [|reflexivity]. apply bind_ext. intros s2 u. apply IH.
Qed.
Lemma m_numericBase : forall (s : scanner R), parseNumericBaseEntity rops c1 s = parseNumericBaseEntity rops c2 s.
Proof. intros s. apply m_numBaseLoop. Qed.
Lemma m_numeric : forall (s : scanner R), parseNumericEntity rops c1 s = parseNumericEntity rops c2 s.
Proof.
  intros s. unfold parseNumericEntity. apply bind_ext. intros s1 c. destruct (c =? 120); [|apply m_numericBase].
  apply bind_ext. intros s2 u. apply m_numericBase.
Qed.
Lemma m_named : forall (s : scanner R), parseNamedEntity rops c1 s = parseNamedEntity rops c2 s.
Proof.
  intros s. unfold parseNamedEntity. apply bind_ext. intros s1 c. apply bind_ext. intros s2 c2'. destruct (c2' =? 59); [|rewrite m_fallback; reflexivity].
  destruct (tok_put 0 (sc_tok s2)); [|reflexivity]. rewrite m_pushEntity. reflexivity.
Qed.
Lemma m_entity : forall (s : scanner R), parseEntity rops c1 s = parseEntity rops c2 s.
Proof.
  intros s. unfold parseEntity. apply bind_ext. intros s1 c. destruct (c =? 35); [|apply m_named]. apply bind_ext. intros s2 u. apply m_numeric.
Qed.
Lemma m_recover : forall (s : scanner R), parseTokenRecover rops c1 s = parseTokenRecover rops c2 s.
Proof. intros s. unfold parseTokenRecover. destruct (tk_id (sc_tok s)); rewrite ?m_entity, ?m_numeric, ?m_numericBase, ?m_named; reflexivity. Qed.
Lemma m_tokenLoop : forall f it (s : scanner R), parseTokenLoop rops c1 f it s = parseTokenLoop rops c2 f it s.
Proof.
  induction f as [|f IH]; intros it s; cbn [parseTokenLoop]; [reflexivity|]. apply bind_ext. intros s1 c. destruct (isTokAt it c) as [[|]|]; [| |reflexivity].
  - apply bind_ext. intros s2 u. apply bind_ext. intros s3 u3. apply IH.
  - destruct (ctl_eqb c CAmp); [|reflexivity]. apply bind_ext. intros s2 u. rewrite m_entity. apply bind_ext. intros s3 ok. destruct ok; [apply IH|reflexivity].
Qed.
Lemma m_token : forall f it (s : scanner R), parseToken rops c1 f it s = parseToken rops c2 f it s.
Proof.
  intros f it s. unfold parseToken. destruct (tk_id (sc_tok s)); rewrite ?m_tokenLoop, ?m_recover; try reflexivity;
   apply bind_ext; intros s1 ok; rewrite m_tokenLoop; reflexivity.
Qed.
Lemma m_action : forall f mask a arg (s : scanner R), doAction rops c1 f mask a arg s = doAction rops c2 f mask a arg s.
Proof.
  intros f mask a arg s. unfold doAction. destruct (tokenDef a) as [it|].
  - destruct (tk_id (sc_tok s)); rewrite ?m_token; reflexivity.
  - reflexivity.
Qed.
Lemma m_nextItem : forall f mask (s : scanner R), nextItem rops c1 f mask s = nextItem rops c2 f mask s.
Proof.
  induction f as [|f IH]; intros mask s; cbn [nextItem]; [reflexivity|]. destruct (stm_get (sc_state s)) as [e|]; [|reflexivity].
  assert (E : forall x y (k : scanner R -> etype * bool -> out (scanner R) etype) (k' : scanner R -> etype * bool -> out (scanner R) etype), x = y -> (forall s a, k s a = k' s a) -> bind x k = bind y k')
    by (intros x y k k' <- Hk; apply bind_ext; exact Hk).
  apply E.
  - destruct (el_action e) as [[a arg]|]; [|reflexivity]. rewrite m_action. reflexivity.
  - intros s1 r. destruct (snd r); [reflexivity|]. apply bind_ext. intros s2 c. apply bind_ext. intros s3 ok. destruct ok; [|reflexivity].
    destruct (isNone (fst r)); [apply IH|reflexivity].
Qed.
Lemma m_scan : forall f masks (s : scanner R), scan rops c1 f masks s = scan rops c2 f masks s.
Proof.
  intros f. induction masks as [|k masks IH]; intros s; cbn [scan]; [reflexivity|]. rewrite m_nextItem. apply bind_ext. intros s1 t. rewrite IH. reflexivity.
Qed.
End Map.

(** ** Masks *)
Section Mask.
Context (e : uchr) (cfg : config).
Notation ops := (ur_ops e).
Notation scn := (scanner urd).
Definition uctl (r : urd) : ctl := ctl_of (u_asc (ucur e r)).
Definition unext (r : urd) : urd := mkUr (tl (ur_l r)) (ur_p r + u_len (ucur e r)).

(** the characters of a token, including ampersands *)
Inductive passes (it : list bool) : urd -> urd -> Prop :=
| pass_0 : forall r, passes it r r
| pass_S : forall r r', isTokAt it (uctl r) = Some true \/ uctl r = CAmp -> passes it (unext r) r' -> passes it r r'.
Definition stops (it : list bool) (r : urd) : Prop := isTokAt it (uctl r) = Some false /\ uctl r <> CAmp.

Lemma pass_trans : forall it a b c, passes it a b -> passes it b c -> passes it a c.
Proof. intros it a b c H. induction H; auto. intros H1. econstructor; eauto. Qed.
Lemma pass_stop : forall it r a b, passes it r a -> stops it a -> passes it r b -> stops it b -> a = b.
Proof.
  intros it r a b H. induction H as [r|r a H1 H IH]; intros Ha Hb Sb.
  - destruct Hb as [r|r b H1 Hb]; [reflexivity|]. destruct Ha as [Ha1 Ha2]. destruct H1; congruence.
  - destruct Hb as [r|r b H2 Hb]; [|auto]. destruct Sb as [Sb1 Sb2]. destruct H1; congruence.
Qed.

Lemma u_control : forall (s : scn), sc_control ops s = Ret s (uctl (sc_src s)).
Proof. intros []. reflexivity. Qed.
Lemma u_ascii : forall (s : scn), sc_ascii ops s = Ret s (asc_of (u_asc (ucur e (sc_src s)))).
Proof. intros []. reflexivity. Qed.
Lemma u_skip : forall (s : scn), sc_skip ops s = Ret (set_src s (unext (sc_src s))) tt.
Proof. intros []. reflexivity. Qed.

Lemma skip_passes : forall f it (s : scn) s' ok, isTokAt it CAny = Some true -> skipTokenLoop ops f it s = Ret s' ok ->
  ok = true /\ s' = set_src s (sc_src s') /\ passes it (sc_src s) (sc_src s') /\ stops it (sc_src s').
Proof.
  intros f it s s' ok Hany. revert s. induction f as [|f IH]; intros s H; cbn [skipTokenLoop] in H; [discriminate|].
  rewrite u_control in H. cbn [bind] in H. destruct (isTokAt it (uctl (sc_src s))) as [b|] eqn:E; [|discriminate].
  destruct (b || ctl_eqb (uctl (sc_src s)) CAmp) eqn:Eb.
  - rewrite u_skip in H. cbn [bind] in H. apply IH in H. destruct H as [H1 [H2 [H3 H4]]]. cbn [sc_src set_src] in *. split; [exact H1|]. split; [exact H2|]. split; [|exact H4].
    econstructor; [|exact H3]. apply Bool.orb_true_iff in Eb. destruct Eb as [->|Eb]; [left; exact E|right]. destruct (uctl (sc_src s)); try discriminate; reflexivity.
  - rewrite u_control in H. cbn [bind] in H. apply Bool.orb_false_iff in Eb. destruct Eb as [-> Eb].
    destruct (ctl_eqb (uctl (sc_src s)) CAny) eqn:Ea.
    + exfalso. destruct (uctl (sc_src s)); try discriminate Ea. congruence.
    + injection H as <- <-. split; [reflexivity|]. split; [destruct s; reflexivity|]. split; [constructor|]. split; [exact E|]. intros E2. rewrite E2 in Eb. discriminate.
Qed.

(** what a function that parses a part of a token changes *)
Definition kept (it : list bool) (s s' : scn) : Prop :=
  sc_state s' = sc_state s /\ sc_err s' = sc_err s /\ passes it (sc_src s) (sc_src s').
Lemma kept_trans : forall it a b c, kept it a b -> kept it b c -> kept it a c.
Proof. intros it a b c [H1 [H2 H3]] [G1 [G2 G3]]. split; [congruence|]. split; [congruence|]. eapply pass_trans; eauto. Qed.
Lemma kept_refl : forall it s s', sc_state s' = sc_state s -> sc_err s' = sc_err s -> sc_src s' = sc_src s -> kept it s s'.
Proof. intros it s s' H1 H2 H3. split; [exact H1|]. split; [exact H2|]. rewrite H3. constructor. Qed.

Lemma pushes_same : forall l (s : scn), sc_state (pushes cfg l s) = sc_state s /\ sc_err (pushes cfg l s) = sc_err s /\ sc_src (pushes cfg l s) = sc_src s /\ sc_tok (pushes cfg l s) = sc_tok s.
Proof. induction l as [|c l IH]; intros s; cbn [pushes]; [auto|]. destruct (IH (push cfg c s)) as [H1 [H2 [H3 H4]]]. rewrite H1, H2, H3, H4. auto. Qed.
Lemma fallback_same : forall (s : scn), sc_state (fallbackEntity cfg s) = sc_state s /\ sc_err (fallbackEntity cfg s) = sc_err s /\ sc_src (fallbackEntity cfg s) = sc_src s.
Proof.
  intros s. unfold fallbackEntity. destruct (tk_id (sc_tok s)); cbn [push set_obuf sc_state sc_err sc_src]; auto;
  match goal with |- context [pushes cfg ?l ?x] => destruct (pushes_same l x) as [-> [-> [-> _]]] end; auto.
Qed.
Lemma kept_fallback : forall it s s1, kept it s s1 -> kept it s (fallbackEntity cfg s1).
Proof. intros it s s1 H. eapply kept_trans; [exact H|]. destruct (fallback_same s1) as [H1 [H2 H3]]. apply kept_refl; assumption. Qed.

Lemma any_asc : forall it c, isTokAt it CAny = Some true -> forallb (fun d => ctl_eqb (ctl_of d) CAny) [c] = true -> 0 < c -> c < 128 ->
  forall r, asc_of (u_asc (ucur e r)) = c -> isTokAt it (uctl r) = Some true.
Proof.
  intros it c Hany Hc H0 Hlt r E. cbn [forallb] in Hc. unfold uctl. unfold asc_of in E. destruct (u_asc (ucur e r) <? 128); [|lia]. rewrite E.
  destruct (ctl_of c); try discriminate. exact Hany.
Qed.
Lemma kept_skip : forall it s s1, kept it s s1 -> isTokAt it (uctl (sc_src s1)) = Some true \/ uctl (sc_src s1) = CAmp ->
  kept it s (set_src s1 (unext (sc_src s1))).
Proof.
  intros it s s1 [H1 [H2 H3]] Hc. split; [exact H1|]. split; [exact H2|]. cbn [set_src sc_src]. eapply pass_trans; [exact H3|]. econstructor; [exact Hc|]. constructor.
Qed.
Lemma kept_tok : forall it s s1 t, kept it s s1 -> kept it s (set_tok t s1).
Proof. intros it s s1 t H. exact H. Qed.

Lemma hex_any : forall c h, HEX c = Some h -> h < 16 -> ctl_of c = CAny /\ 0 < c < 128.
Proof.
  intros c h H Hh. unfold HEX, cm_get in H.
  assert (Hc : c < 256). { destruct (N.lt_ge_cases c 256); [assumption|]. rewrite (proj2 (nth_error_None hexCharMap (N.to_nat c))) in H by (change (length hexCharMap) with 256%nat; lia). discriminate. }
  assert (Hs : forallb (fun c => match nth_error hexCharMap (N.to_nat c) with Some h => if h <? 16 then ctl_eqb (ctl_of c) CAny && (0 <? c) && (c <? 128) else true | None => true end) (map N.of_nat (seq 0 256)) = true) by (vm_compute; reflexivity).
  rewrite forallb_forall in Hs. specialize (Hs c). rewrite H in Hs. replace (h <? 16) with true in Hs by lia.
  assert (In c (map N.of_nat (seq 0 256))) as Hin by (apply in_map_iff; exists (N.to_nat c); split; [lia|apply in_seq; lia]).
  specialize (Hs Hin). apply andb_prop in Hs. destruct Hs as [Hs1 Hs3]. apply andb_prop in Hs1. destruct Hs1 as [Hs1 Hs2].
  split; [destruct (ctl_of c); try discriminate; reflexivity|lia].
Qed.

Lemma numBase_kept : forall it k (s0 s : scn) s' ok, isTokAt it CAny = Some true -> tk_base (sc_tok s) <= 16 -> kept it s0 s ->
  numBaseLoop ops cfg k s = Ret s' ok -> ok = true /\ kept it s0 s'.
Proof.
  intros it k s0 s s' ok Hany. revert s. induction k as [|k IH]; intros s Hb Hk H; cbn [numBaseLoop] in H.
  - injection H as <- <-. split; [reflexivity|]. apply kept_fallback. exact Hk.
  - rewrite u_ascii in H. cbn [bind] in H. destruct (_ =? 59) eqn:E59.
    + destruct (0xFFFFFFFF <? _).
      * destruct (tok_put _ _); [|discriminate]. injection H as <- <-. split; [reflexivity|]. apply kept_fallback. exact Hk.
      * rewrite u_skip in H. cbn [bind] in H. injection H as <- <-. split; [reflexivity|].
        apply (kept_skip it s0 (upd_tok (tok_init TParsingToken) (push cfg (u32 (tk_value (sc_tok s))) s))); [exact Hk|]. left.
        apply N.eqb_eq in E59. eapply any_asc; [exact Hany| | | |exact E59]; [reflexivity|lia|lia].
    + destruct (HEX _) as [h|] eqn:Eh; [|discriminate]. destruct (_ <=? h) eqn:El; [injection H as <- <-; split; [reflexivity|]; apply kept_fallback; exact Hk|].
      destruct (tok_put _ _) as [t|] eqn:Et; [|discriminate]. rewrite u_skip in H. cbn [bind] in H.
      refine (IH _ _ _ H).
      * unfold tok_put in Et. destruct (Nat.ltb _ _); [|discriminate]. injection Et as <-. exact Hb.
      * apply (kept_skip it s0 (set_tok (tok_value (u64 (tk_value t * tk_base t + h)) (tok_incpos t)) s)); [exact Hk|]. left.
        destruct (hex_any _ _ Eh ltac:(lia)) as [X1 X2]. refine (any_asc it (asc_of (u_asc (ucur e (sc_src s)))) Hany _ _ _ _ eq_refl); [cbn [forallb]; rewrite X1; reflexivity|tauto|tauto].
Qed.

Lemma named_kept : forall it k (s0 s : scn) c s' c', isTokAt it CAny = Some true -> kept it s0 s -> c = asc_of (u_asc (ucur e (sc_src s))) ->
  namedLoop ops k s c = Ret s' c' -> kept it s0 s' /\ c' = asc_of (u_asc (ucur e (sc_src s'))).
Proof.
  intros it k s0 s c s' c' Hany. revert s c. induction k as [|k IH]; intros s c Hk Hc H; cbn [namedLoop] in H.
  - injection H as <- <-. auto.
  - destruct (c =? 59); [injection H as <- <-; auto|]. rewrite u_control in H. cbn [bind] in H.
    destruct (ctl_eqb (uctl (sc_src s)) CAny) eqn:E; [|injection H as <- <-; auto].
    destruct (tok_put c (sc_tok s)) as [t|]; [|discriminate]. rewrite u_skip in H. cbn [bind] in H. rewrite u_ascii in H. cbn [bind] in H.
    refine (IH _ _ _ _ H); [|reflexivity]. apply kept_tok. apply (kept_skip it s0 (set_tok t s)); [exact Hk|]. left. cbn [set_tok sc_src].
    destruct (uctl (sc_src s)); try discriminate E. exact Hany.
Qed.

Lemma entity_kept : forall it (s0 s : scn) s' ok, isTokAt it CAny = Some true -> kept it s0 s ->
  parseEntity ops cfg s = Ret s' ok -> if ok then kept it s0 s' else sc_err s' = ErrUndefinedCharacterEntity.
Proof.
  intros it s0 s s' ok Hany Hk H. unfold parseEntity in H. rewrite u_ascii in H. cbn [bind] in H. destruct (_ =? 35) eqn:E35.
  - rewrite u_skip in H. cbn [bind] in H. apply N.eqb_eq in E35.
    assert (K1 : kept it s0 (set_src (upd_tok (tok_id TParsingEntity) s) (unext (sc_src (upd_tok (tok_id TParsingEntity) s))))).
    { apply kept_skip; [exact Hk|]. left. eapply any_asc; [exact Hany| | | |exact E35]; [reflexivity|lia|lia]. }
    revert H K1. generalize (set_src (upd_tok (tok_id TParsingEntity) s) (unext (sc_src (upd_tok (tok_id TParsingEntity) s)))). clear s Hk E35. intros s H Hk.
    unfold parseNumericEntity in H. rewrite u_ascii in H. cbn [bind] in H. destruct (_ =? 120) eqn:E120.
    + rewrite u_skip in H. cbn [bind] in H. apply N.eqb_eq in E120. unfold parseNumericBaseEntity in H.
      apply (numBase_kept it _ s0) in H; [destruct H as [-> H]; exact H|exact Hany|cbn; lia|].
      apply kept_tok. apply (kept_skip it s0 (upd_tok (tok_base 16) (upd_tok (tok_id TParsingNumericEntity) s))); [exact Hk|]. left.
      eapply any_asc; [exact Hany| | | |exact E120]; [reflexivity|lia|lia].
    + unfold parseNumericBaseEntity in H. apply (numBase_kept it _ s0) in H; [destruct H as [-> H]; exact H|exact Hany|cbn; lia|exact Hk].
  - unfold parseNamedEntity in H. rewrite u_ascii in H. cbn [bind] in H. destruct (namedLoop _ _ _ _) as [s2 c2| | | |] eqn:En; try discriminate. cbn [bind] in H.
    apply (named_kept it _ s0) in En; [|exact Hany|exact Hk|reflexivity]. destruct En as [K2 Ec]. destruct (c2 =? 59) eqn:E59.
    + destruct (tok_put 0 (sc_tok s2)) as [t|]; [|discriminate]. unfold pushEntity in H.
      destruct (predefined _) as [c|]; [|destruct (cf_map cfg) as [mm|]; [destruct (map_find mm (cf_bufaddr cfg)) as [c|]|]]; try (injection H as <- <-; reflexivity);
      rewrite u_skip in H; cbn [bind] in H; injection H as <- <-;
      (apply (kept_skip it s0 (upd_tok (tok_init TParsingToken) (push cfg c (set_tok t s2)))); [exact K2|]; left; apply N.eqb_eq in E59; subst c2;
       eapply any_asc; [exact Hany| | | |exact E59]; [reflexivity|lia|lia]).
    + injection H as <- <-. apply kept_fallback. exact K2.
Qed.

Lemma copychar_same : forall (s : scn), exists ob, copychar ops cfg s = Ret (set_obuf ob s) tt.
Proof. intros []. unfold copychar. destruct (cf_raw cfg); eexists; reflexivity. Qed.
Lemma tokenChar_kept : forall it (s0 s : scn) s' u, kept it s0 s -> tokenChar ops cfg s = Ret s' u -> kept it s0 s' /\ sc_src s' = sc_src s.
Proof.
  intros it s0 s s' u Hk H. unfold tokenChar in H. rewrite u_ascii in H. cbn [bind] in H. destruct (_ =? 13); [injection H as <-; auto|].
  destruct (_ =? 10); [destruct (tk_cr (sc_tok s)); injection H as <-; auto|].
  destruct (copychar_same s) as [ob E]. rewrite E in H. cbn [bind] in H. injection H as <-. auto.
Qed.

Lemma token_kept : forall it f (s0 s : scn) s' ok, isTokAt it CAny = Some true -> kept it s0 s ->
  parseTokenLoop ops cfg f it s = Ret s' ok ->
  if ok then kept it s0 s' /\ stops it (sc_src s') /\ tk_id (sc_tok s') = TParsingDone /\ tk_pos (sc_tok s') = 0%nat else sc_err s' = ErrUndefinedCharacterEntity.
Proof.
  intros it f s0 s s' ok Hany. revert s. induction f as [|f IH]; intros s Hk H; cbn [parseTokenLoop] in H; [discriminate|].
  rewrite u_control in H. cbn [bind] in H. destruct (isTokAt it (uctl (sc_src s))) as [[|]|] eqn:E; [| |discriminate].
  - destruct (tokenChar ops cfg s) as [s2 u| | | |] eqn:Et; try discriminate. cbn [bind] in H. rewrite u_skip in H. cbn [bind] in H.
    apply (tokenChar_kept it s0) in Et; [|exact Hk]. destruct Et as [K2 E2]. refine (IH _ _ H). apply kept_skip; [exact K2|]. left. rewrite E2. exact E.
  - destruct (ctl_eqb (uctl (sc_src s)) CAmp) eqn:Ea.
    + rewrite u_skip in H. cbn [bind] in H. destruct (parseEntity _ _ _) as [s3 [|]| | | |] eqn:Ep; try discriminate; cbn [bind] in H;
      apply (entity_kept it s0) in Ep; try exact Hany.
      * refine (IH _ _ H). apply kept_tok. exact Ep.
      * apply kept_skip; [exact Hk|]. right. destruct (uctl (sc_src s)); try discriminate; reflexivity.
      * injection H as <- <-. exact Ep.
      * apply kept_skip; [exact Hk|]. right. destruct (uctl (sc_src s)); try discriminate; reflexivity.
    + injection H as <- <-. split; [apply kept_tok; exact Hk|]. split; [|split; reflexivity]. cbn [upd_tok set_tok sc_src]. split; [exact E|]. intros E2. rewrite E2 in Ea. discriminate.
Qed.

(** *** Two scanners in the same place *)
Definition place_rel (s t : scn) : Prop :=
  sc_state s = sc_state t /\ sc_err s = sc_err t /\ sc_src s = sc_src t /\ tk_pos (sc_tok s) = 0%nat /\ tk_pos (sc_tok t) = 0%nat.
Definition masks_rel (s t : scn) : Prop :=
  place_rel s t /\ tk_id (sc_tok s) = tk_id (sc_tok t) /\ (tk_id (sc_tok s) = TStart \/ tk_id (sc_tok s) = TParsingDone).
Definition undefd (s : scn) : Prop := sc_err s = ErrUndefinedCharacterEntity.

Lemma def_any : forall a it, tokenDef a = Some it -> isTokAt it CAny = Some true.
Proof. intros [] it H; try discriminate H; injection H as <-; reflexivity. Qed.

(** a token, parsed or skipped *)
Lemma token_done : forall f (b : bool) it (s : scn) s' ok, isTokAt it CAny = Some true -> tk_id (sc_tok s) = TStart -> tk_pos (sc_tok s) = 0%nat ->
  (if b then parseToken ops cfg f it s else skipTokenLoop ops f it s) = Ret s' ok ->
  (ok = true /\ kept it s s' /\ stops it (sc_src s') /\ tk_pos (sc_tok s') = 0%nat) \/ (ok = false /\ undefd s').
Proof.
  intros f b it s s' ok Hany Hid Hp H. destruct b.
  - unfold parseToken in H. rewrite Hid in H. apply (token_kept it f s) in H; [|exact Hany|apply kept_refl; reflexivity].
    destruct ok; [left|right]; [|auto]. destruct H as [H1 [H2 [H3 H4]]]. auto.
  - apply skip_passes in H; [|exact Hany]. destruct H as [-> [E [H1 H2]]]. left. split; [reflexivity|]. split; [|split; [exact H2|]].
    + split; [rewrite E; reflexivity|]. split; [rewrite E; reflexivity|exact H1].
    + rewrite E. exact Hp.
Qed.

Lemma expect_rel : forall l (s t : scn) s' t' r r', place_rel s t ->
  expectLoop ops l s = Ret s' r -> expectLoop ops l t = Ret t' r' -> r = r' /\ masks_rel s' t'.
Proof.
  assert (G : forall l (s t : scn) s' t' r r', sc_state s = sc_state t /\ sc_err s = sc_err t /\ sc_src s = sc_src t ->
    expectLoop ops l s = Ret s' r -> expectLoop ops l t = Ret t' r' -> r = r' /\ masks_rel s' t').
  { induction l as [|x l IH]; intros s t s' t' r r' [H1 [H2 H3]] Es Et; cbn [expectLoop] in Es, Et.
    - injection Es as <- <-. injection Et as <- <-. split; [reflexivity|]. repeat split; auto.
    - rewrite u_ascii in Es, Et. cbn [bind] in Es, Et. rewrite H3 in Es. destruct (_ =? x).
      + rewrite u_skip in Es, Et. cbn [bind] in Es, Et. eapply IH; [|exact Es|exact Et]. cbn [set_src upd_tok set_tok sc_state sc_err sc_src]. rewrite H3. auto.
      + rewrite u_control in Es, Et. cbn [bind] in Es, Et. rewrite H3 in Es. injection Es as <- <-. injection Et as <- <-. split; [reflexivity|]. repeat split; cbn; auto. }
  intros l s t s' t' r r' [H1 [H2 [H3 _]]]. apply G. auto.
Qed.

Lemma action_rel : forall f g m1 m2 a arg (s t : scn) s' t' r r', masks_rel s t ->
  doAction ops cfg f m1 a arg s = Ret s' r -> doAction ops cfg g m2 a arg t = Ret t' r' ->
  (r = inr tt /\ undefd s') \/ (r' = inr tt /\ undefd t') \/ (r = r' /\ place_rel s' t' /\ (tokenDef a = None -> masks_rel s' t') /\ (r = inr tt -> masks_rel s' t')).
Proof.
  intros f g m1 m2 a arg s t s' t' r r' Hr Hs Ht. assert (Hr0 := Hr). destruct Hr as [[H1 [H2 [H3 [H4 H5]]]] [H6 H7]]. unfold doAction in Hs, Ht.
  destruct (tokenDef a) as [it|] eqn:Ed.
  - assert (Hany := def_any _ _ Ed). destruct H7 as [H7|H7].
    + rewrite H7 in Hs. rewrite <- H6, H7 in Ht.
      destruct (if N.testbit m1 (etype_idx arg) then _ else _) as [s1 ok1| | | |] eqn:E1; try discriminate Hs. cbn [bind] in Hs.
      destruct (if N.testbit m2 (etype_idx arg) then _ else _) as [t1 ok2| | | |] eqn:E2; try discriminate Ht. cbn [bind] in Ht.
      apply token_done in E1; [|exact Hany|exact H7|exact H4]. apply token_done in E2; [|exact Hany|congruence|exact H5].
      destruct E1 as [[-> [K1 [S1 P1]]]|[-> U1]]; [|left; injection Hs as <- <-; auto].
      destruct E2 as [[-> [K2 [S2 P2]]]|[-> U2]]; [|right; left; injection Ht as <- <-; auto].
      injection Hs as <- <-. injection Ht as <- <-. right. right. split; [reflexivity|]. split; [|split; discriminate].
      destruct K1 as [K11 [K12 K13]]. destruct K2 as [K21 [K22 K23]].
      split; [congruence|]. split; [congruence|]. split; [|auto]. eapply pass_stop; [exact K13|exact S1|rewrite H3; exact K23|exact S2].
    + rewrite H7 in Hs. rewrite <- H6, H7 in Ht. injection Hs as <- <-. injection Ht as <- <-. right. right. split; [reflexivity|]. split; [apply Hr0|]. auto.
  - right. right. destruct (stringDef a) as [k|] eqn:Ek.
    + destruct H7 as [H7|H7].
      * rewrite H7 in Hs. rewrite <- H6, H7 in Ht.
        destruct (expectStr ops k s) as [s1 ok1| | | |] eqn:E1; try discriminate Hs. cbn [bind] in Hs.
        destruct (expectStr ops k t) as [t1 ok2| | | |] eqn:E2; try discriminate Ht. cbn [bind] in Ht.
        unfold expectStr in E1, E2. unfold upd_tok, set_tok, tok_id in E1, E2. cbn [sc_tok tk_pos] in E1, E2. rewrite H4 in E1. rewrite H5 in E2. cbn [skipn Nat.leb] in E1, E2.
        eapply expect_rel in E2; [|shelve|exact E1]. Unshelve. 2:{ split; [exact H1|]. split; [exact H2|]. split; [exact H3|]. split; reflexivity. }
        destruct E2 as [<- [M1 [M2 M3]]].
        destruct ok1; [|injection Hs as <- <-; injection Ht as <- <-; split; [reflexivity|]; split; [exact M1|]; split; intros _; (split; [exact M1|]; split; assumption)].
        destruct a; try discriminate Ek; injection Hs as <- <-; injection Ht as <- <-; (split; [reflexivity|]); (split; [exact M1|]); split; intros _; (split; [exact M1|]; split; assumption).
      * rewrite H7 in Hs. rewrite <- H6, H7 in Ht. injection Hs as <- <-. injection Ht as <- <-. split; [reflexivity|]. split; [apply Hr0|]. auto.
    + injection Hs as <- <-. injection Ht as <- <-. split; [reflexivity|]. split; [exact (conj H1 (conj H2 (conj H3 (conj H4 H5))))|].
      split; intros _; split; try (exact (conj H1 (conj H2 (conj H3 (conj H4 H5))))); auto.
Qed.

Lemma token_next : forall st el a arg it, stm_get st = Some el -> el_action el = Some (a, arg) -> tokenDef a = Some it -> Nat.eqb (el_nofnext el) 0 = false.
Proof.
  intros st el a arg it H1 H2 H3. destruct st; vm_compute in H1; injection H1 as <-; try discriminate H2; cbn in H2; injection H2 as <- <-; try discriminate H3; reflexivity.
Qed.

Lemma step_rel : forall f g m1 m2 (s t : scn) s' t' r r', masks_rel s t ->
  nstep ops cfg f m1 s = Ret s' r -> nstep ops cfg g m2 t = Ret t' r' ->
  (r = Some EErrorOccurred /\ undefd s') \/ (r' = Some EErrorOccurred /\ undefd t') \/ (r = r' /\ masks_rel s' t').
Proof.
  intros f g m1 m2 s t s' t' r r' Hr Hs Ht. unfold nstep in Hs, Ht. assert (Es : sc_state s = sc_state t) by apply Hr. rewrite Es in Hs.
  destruct (stm_get (sc_state t)) as [el|] eqn:Eg; [|discriminate].
  assert (Htr : forall (s1 t1 : scn) rt s' t' r r', place_rel s1 t1 ->
    (let! (s2, c) := sc_control ops s1 in let! (s3, ok) := transition ops el c (upd_tok (tok_id TStart) s2) in
     if ok then if isNone rt then Ret s3 None else Ret s3 (Some rt) else Ret s3 (Some EErrorOccurred)) = Ret s' r ->
    (let! (s2, c) := sc_control ops t1 in let! (s3, ok) := transition ops el c (upd_tok (tok_id TStart) s2) in
     if ok then if isNone rt then Ret s3 None else Ret s3 (Some rt) else Ret s3 (Some EErrorOccurred)) = Ret t' r' ->
    r = r' /\ masks_rel s' t').
  { clear. intros s1 t1 rt s' t' r r' [H1 [H2 [H3 [H4 H5]]]] Hs Ht. rewrite u_control in Hs, Ht. cbn [bind] in Hs, Ht. rewrite H3 in Hs. unfold transition in Hs, Ht.
    destruct (nth_error (el_next el) _) as [[ns|]|]; [| |discriminate].
    - rewrite u_skip in Hs, Ht. cbn [bind] in Hs, Ht. destruct (isNone rt); injection Hs as <- <-; injection Ht as <- <-; (split; [reflexivity|]); 
      unfold masks_rel, place_rel; cbn; rewrite H3; auto 10.
    - destruct (el_fallback el) as [fs|].
      + cbn [bind] in Hs, Ht. destruct (isNone rt); injection Hs as <- <-; injection Ht as <- <-; (split; [reflexivity|]); unfold masks_rel, place_rel; cbn; rewrite H3; auto 10.
      + destruct (el_miss el) as [er|]; cbn [bind] in Hs, Ht; injection Hs as <- <-; injection Ht as <- <-; (split; [reflexivity|]); unfold masks_rel, place_rel; cbn; rewrite H3; auto 10. }
  destruct (el_action el) as [[a arg]|] eqn:Ea.
  - destruct (doAction ops cfg f m1 a arg s) as [s1 r1| | | |] eqn:E1; try discriminate Hs. cbn [bind] in Hs.
    destruct (doAction ops cfg g m2 a arg t) as [t1 r2| | | |] eqn:E2; try discriminate Ht. cbn [bind] in Ht.
    destruct (action_rel f g m1 m2 a arg s t s1 t1 r1 r2 Hr E1 E2) as [[-> U]|[[-> U]|[<- [P [M1 M2]]]]].
    + cbn [bind snd fst] in Hs. injection Hs as <- <-. left. auto.
    + cbn [bind snd fst] in Ht. injection Ht as <- <-. right. left. auto.
    + right. right. destruct r1 as [rt|[]].
      * destruct (Nat.eqb (el_nofnext el) 0) eqn:E0; cbn [bind snd fst] in Hs, Ht.
        -- assert (Hn : tokenDef a = None) by (destruct (tokenDef a) eqn:Ed; [|reflexivity]; rewrite (token_next _ _ _ _ _ Eg Ea Ed) in E0; discriminate).
           specialize (M1 Hn). injection Hs as <- <-. injection Ht as <- <-. split; [reflexivity|]. destruct M1 as [[H1 [H2 [H3 [H4 H5]]]] M1].
           destruct (el_fallback el); (split; [|exact M1]); unfold place_rel, set_state; cbn [sc_state sc_err sc_src sc_tok]; auto.
        -- eapply Htr; [exact P|exact Hs|exact Ht].
      * cbn [bind snd fst] in Hs, Ht. injection Hs as <- <-. injection Ht as <- <-. split; [reflexivity|]. apply M2. reflexivity.
  - cbn [bind snd fst] in Hs, Ht. right. right. eapply (Htr s t ENone); [apply Hr|exact Hs|exact Ht].
Qed.

Lemma next_rel : forall f g m1 m2 (s t : scn) s' t' r r', masks_rel s t ->
  nextItem ops cfg f m1 s = Ret s' r -> nextItem ops cfg g m2 t = Ret t' r' ->
  undefd s' \/ undefd t' \/ (r = r' /\ masks_rel s' t').
Proof.
  induction f as [|f IH]; intros g m1 m2 s t s' t' r r' Hr Hs Ht; [discriminate|]. destruct g as [|g]; [discriminate|].
  rewrite nextItem_step in Hs, Ht. destruct (nstep ops cfg f m1 s) as [s1 o1| | | |] eqn:E1; try discriminate Hs. cbn [bind] in Hs.
  destruct (nstep ops cfg g m2 t) as [t1 o2| | | |] eqn:E2; try discriminate Ht. cbn [bind] in Ht.
  destruct (step_rel f g m1 m2 s t s1 t1 o1 o2 Hr E1 E2) as [[-> U]|[[-> U]|[<- M]]].
  - injection Hs as <- _. auto.
  - injection Ht as <- _. auto.
  - destruct o1 as [r1|]; [injection Hs as <- <-; injection Ht as <- <-; auto|]. eapply IH; eauto.
Qed.

(** what does not depend on the mask *)
Definition structure (ev : event) : etype * xerror * N := (ev_type ev, ev_err ev, ev_pos ev).

Lemma scan_rel : forall f g masks1 masks2 (s t : scn) s' t' evs1 evs2, masks_rel s t -> length masks1 = length masks2 ->
  scan ops cfg f masks1 s = Ret s' evs1 -> scan ops cfg g masks2 t = Ret t' evs2 ->
  Forall (fun ev => ev_err ev <> ErrUndefinedCharacterEntity) evs1 -> Forall (fun ev => ev_err ev <> ErrUndefinedCharacterEntity) evs2 ->
  map structure evs1 = map structure evs2.
Proof.
  intros f g. induction masks1 as [|m1 masks1 IH]; intros [|m2 masks2] s t s' t' evs1 evs2 Hr Hl Hs Ht U1 U2; try discriminate Hl; cbn [scan] in Hs, Ht.
  - injection Hs as _ <-. injection Ht as _ <-. reflexivity.
  - destruct (nextItem ops cfg f m1 s) as [s1 r1| | | |] eqn:E1; try discriminate Hs. cbn [bind] in Hs.
    destruct (nextItem ops cfg g m2 t) as [t1 r2| | | |] eqn:E2; try discriminate Ht. cbn [bind] in Ht.
    destruct (scan ops cfg f masks1 s1) as [s2 ev1| | | |] eqn:E3; try discriminate Hs. cbn [bind] in Hs.
    destruct (scan ops cfg g masks2 t1) as [t2 ev2| | | |] eqn:E4; try discriminate Ht. cbn [bind] in Ht.
    injection Hs as _ <-. injection Ht as _ <-. inversion U1 as [|? ? V1 W1]; subst. inversion U2 as [|? ? V2 W2]; subst. cbn [observe ev_err] in V1, V2.
    destruct (next_rel f g m1 m2 s t s1 t1 r1 r2 Hr E1 E2) as [U|[U|[<- M]]]; [contradiction|contradiction|].
    cbn [map]. injection Hl as Hl. assert (G : map structure ev1 = map structure ev2) by (eapply IH; eauto). rewrite G. f_equal. unfold structure, observe, sc_getPosition. cbn [ev_type ev_err ev_pos].
    destruct M as [[H1 [H2 [H3 _]]] _]. rewrite H2, H3. reflexivity.
Qed.

(** *** Termination does not depend on the mask either *)
Hypothesis He : u_asc e = 0.
Definition urem (r : urd) : nat := length (ur_l r).
Definition uend (r : urd) : Prop := ur_l r = [].

Lemma ut_control : forall r, tm (fun r' c => (urem r' <= urem r)%nat /\ (urem r' = 0%nat -> c = CEndOfText /\ uend r)) (r_control ops r).
Proof. intros [[|c l] p]; cbn; unfold urem, uend, ucur; cbn; rewrite ?He; split; auto; discriminate. Qed.
Lemma ut_ascii : forall r, tm (fun r' c => (urem r' <= urem r)%nat /\ (urem r' = 0%nat -> c = 0)) (r_ascii ops r).
Proof. intros [[|c l] p]; cbn; unfold urem, ucur; cbn; rewrite ?He; split; auto; discriminate. Qed.
Lemma ut_chr : forall r, tm (fun r' _ => (urem r' <= urem r)%nat) (r_chr ops r).
Proof. intros r. cbn. lia. Qed.
Lemma ut_raw : forall r, tm (fun r' _ => (urem r' <= urem r)%nat) (r_raw ops r).
Proof. intros r. cbn. lia. Qed.
Lemma ut_skip : forall r, tm (fun r' _ => (urem r' <= urem r)%nat /\ (0 < urem r -> urem r' < urem r)%nat) (r_skip ops r).
Proof. intros [[|c l] p]; cbn; unfold urem; cbn; lia. Qed.
Lemma ut_cc : forall r r1 c r2 c2, r_control ops r = Ret r1 c -> r_control ops r1 = Ret r2 c2 -> c2 = c.
Proof. intros r r1 c r2 c2 E1 E2. cbn in E1, E2. injection E1 as <- <-. injection E2 as _ <-. reflexivity. Qed.
Lemma ut_end : forall r, uend r -> exists r1 r2, r_control ops r = Ret r1 CEndOfText /\ r_skip ops r1 = Ret r2 tt /\ uend r2.
Proof. intros [l p] E. unfold uend in E. cbn in E. subst l. do 2 eexists. cbn. unfold ucur. cbn. rewrite He. repeat split. Qed.

Lemma ut_nstep : forall f mask (s : scn), (urem (sc_src s) < f)%nat -> tm (fun s' _ => (urem (sc_src s') <= urem (sc_src s))%nat) (nstep ops cfg f mask s).
Proof.
  intros f mask s Hf. eapply tm_weaken; [apply (t_nstep ops cfg urem uend ut_control ut_ascii ut_chr ut_raw ut_skip ut_cc); exact Hf|]. intros s' o [H _]. exact H.
Qed.
Lemma ut_nextItem : forall mask f (s : scn) s' r, (3 * urem (sc_src s) + 3 < f)%nat -> nextItem ops cfg f mask s = Ret s' r -> (urem (sc_src s') <= urem (sc_src s))%nat.
Proof.
  intros mask f s s' r Hf E. pose proof (rank_le (sc_state s)).
  destruct (t_nextItem ops cfg urem uend ut_control ut_ascii ut_chr ut_raw ut_skip ut_cc ut_end mask f s ltac:(lia)) as [T|[_ T]]; [rewrite E in T; exact T|].
  rewrite T in E. discriminate.
Qed.

Lemma next_ends : forall f g m1 m2 (s t : scn) s' r, masks_rel s t -> (urem (sc_src t) + f < g)%nat ->
  nextItem ops cfg f m1 s = Ret s' r -> ~ undefd s' -> nextItem ops cfg g m2 t <> Fuel.
Proof.
  induction f as [|f IH]; intros g m1 m2 s t s' r Hr Hg Hs U Ht; [discriminate|]. destruct g as [|g]; [lia|].
  rewrite nextItem_step in Hs, Ht. destruct (nstep ops cfg f m1 s) as [s1 o1| | | |] eqn:E1; try discriminate Hs. cbn [bind] in Hs.
  pose proof (ut_nstep g m2 t ltac:(lia)) as T.
  destruct (nstep ops cfg g m2 t) as [t1 o2| | | |] eqn:E2; cbn [tm bind] in T, Ht; try discriminate Ht; try contradiction.
  destruct (step_rel f g m1 m2 s t s1 t1 o1 o2 Hr E1 E2) as [[-> V]|[[-> V]|[<- M]]].
  - injection Hs as <- _. contradiction.
  - discriminate.
  - destruct o1 as [r1|]; [discriminate|]. eapply (IH g m1 m2 s1 t1); eauto. lia.
Qed.

Lemma scan_ends : forall f g masks1 masks2 (s t : scn) s' evs1, masks_rel s t -> length masks1 = length masks2 -> (3 * urem (sc_src t) + 3 + f < g)%nat ->
  scan ops cfg f masks1 s = Ret s' evs1 -> Forall (fun ev => ev_err ev <> ErrUndefinedCharacterEntity) evs1 -> scan ops cfg g masks2 t = Fuel ->
  exists n t' evs2, scan ops cfg g (firstn n masks2) t = Ret t' evs2 /\ Exists (fun ev => ev_err ev = ErrUndefinedCharacterEntity) evs2.
Proof.
  intros f g. induction masks1 as [|m1 masks1 IH]; intros [|m2 masks2] s t s' evs1 Hr Hl Hg Hs U1 Ht; try discriminate Hl; cbn [scan] in Hs, Ht; [discriminate|].
  destruct (nextItem ops cfg f m1 s) as [s1 r1| | | |] eqn:E1; try discriminate Hs. cbn [bind] in Hs.
  destruct (scan ops cfg f masks1 s1) as [s2 ev1| | | |] eqn:E3; try discriminate Hs. cbn [bind] in Hs. injection Hs as _ <-.
  inversion U1 as [|? ? V1 W1]; subst. cbn [observe ev_err] in V1.
  pose proof (next_ends f g m1 m2 s t s1 r1 Hr ltac:(lia) E1 V1) as Hf.
  destruct (nextItem ops cfg g m2 t) as [t1 r2| | | |] eqn:E2; try discriminate Ht; try contradiction. cbn [bind] in Ht.
  destruct (next_rel f g m1 m2 s t s1 t1 r1 r2 Hr E1 E2) as [U|[U|[<- M]]]; [contradiction| |].
  - exists 1%nat, t1, [observe ops r2 t1]. cbn [firstn scan]. rewrite E2. split; [reflexivity|]. constructor. exact U.
  - injection Hl as Hl. pose proof (ut_nextItem m2 g t t1 r1 ltac:(lia) E2) as Hle.
    destruct (IH masks2 s1 t1 s2 ev1 M Hl ltac:(lia) E3 W1) as [n [t' [evs2 [G1 G2]]]].
    { destruct (scan ops cfg g masks2 t1); cbn [bind] in Ht; congruence. }
    exists (S n), t', (observe ops r1 t1 :: evs2). cbn [firstn scan]. rewrite E2. cbn [bind]. rewrite G1. split; [reflexivity|]. right. exact G2.
Qed.
End Mask.

(** ** Texts in memory *)
Lemma xml_scan_mono : forall incs outcs f g masks text, (f <= g)%nat -> fle (xml_scan incs outcs f masks text) (xml_scan incs outcs g masks text).
Proof. intros incs outcs f g masks text H. apply mono_scan. exact H. Qed.
Lemma xml_scan_ends : forall incs outcs f masks text g s evs, cs_constructible incs = true -> Forall isByte text -> (3 * length text + 4 <= f)%nat ->
  xml_scan incs outcs g masks text = Ret s evs -> xml_scan incs outcs f masks text = Ret s evs.
Proof.
  intros incs outcs f masks text g s evs Hcs Hb Hf E.
  assert (H : xml_scan incs outcs (3 * length text + 4) masks text = Ret s evs).
  { destruct (xml_scan incs outcs (3 * length text + 4) masks text) as [s1 e1| | | |] eqn:E1;
      try (pose proof (xml_scan_clean incs outcs (3 * length text + 4) masks text Hcs Hb) as C; rewrite E1 in C; contradiction).
    - pose proof (xml_scan_mono incs outcs g (Nat.max g (3 * length text + 4)) masks text ltac:(lia)) as H1.
      pose proof (xml_scan_mono incs outcs (3 * length text + 4) (Nat.max g (3 * length text + 4)) masks text ltac:(lia)) as H2.
      rewrite E in H1. rewrite E1 in H2. destruct H1 as [H1|H1]; [discriminate|]. destruct H2 as [H2|H2]; [discriminate|]. congruence.
    - rewrite (xml_scan_bound incs outcs masks text Hcs Hb E1 g) in E. discriminate. }
  destruct (xml_scan_mono incs outcs _ f masks text Hf) as [G|G]; congruence.
Qed.

Lemma units_asc : forall cs, cs_constructible cs = true -> u_asc (dec cs []) = 0.
Proof. intros cs Hcs. exact (casc_nil cs Hcs). Qed.

Theorem masks_top : forall incs outcs f1 f2 masks1 masks2 text s1 evs1, cs_constructible incs = true -> Forall isByte text ->
  length masks1 = length masks2 -> xml_scan incs outcs f1 masks1 text = Ret s1 evs1 ->
  Forall (fun ev => ev_err ev <> ErrUndefinedCharacterEntity) evs1 -> (3 * length text + 4 <= f2)%nat ->
  (exists s2 evs2, xml_scan incs outcs f2 masks2 text = Ret s2 evs2 /\ map structure evs2 = map structure evs1) \/
  (exists n s2 evs2, xml_scan incs outcs f2 (firstn n masks2) text = Ret s2 evs2 /\ Exists (fun ev => ev_err ev = ErrUndefinedCharacterEntity) evs2).
Proof.
  intros incs outcs f1 f2 masks1 masks2 text s1 evs1 Hcs Hb Hl E1 U1 Hf2.
  assert (Hrel : masks_rel (sc_make (mkUr (units incs text) 0)) (sc_make (mkUr (units incs text) 0))) by (unfold masks_rel, place_rel; cbn; auto 10).
  assert (X1 : exists u1, ur_scan incs (xml_config incs outcs None 0) f1 masks1 text = Ret u1 evs1).
  { pose proof (xml_scan_ur incs outcs f1 masks1 text Hcs Hb) as X. rewrite E1 in X. inversion X; subst. eauto. }
  destruct X1 as [u1 X1].
  destruct (xml_scan incs outcs f2 masks2 text) as [s2 evs2| | | |] eqn:E2;
    try (pose proof (xml_scan_clean incs outcs f2 masks2 text Hcs Hb) as C; rewrite E2 in C; contradiction).
  - assert (D : Forall (fun ev => ev_err ev <> ErrUndefinedCharacterEntity) evs2 \/ Exists (fun ev => ev_err ev = ErrUndefinedCharacterEntity) evs2).
    { clear. induction evs2 as [|ev evs IH]; [left; constructor|].
      assert (H : ev_err ev = ErrUndefinedCharacterEntity \/ ev_err ev <> ErrUndefinedCharacterEntity) by (destruct (ev_err ev); (left; reflexivity) || (right; discriminate)).
      destruct H as [H|H]; [right; left; exact H|]. destruct IH as [IH|IH]; [left; constructor; assumption|right; right; exact IH]. }
    destruct D as [D|D]; [|right; exists (length masks2), s2, evs2; rewrite firstn_all; auto].
    left. exists s2, evs2. split; [reflexivity|]. pose proof (xml_scan_ur incs outcs f2 masks2 text Hcs Hb) as X. rewrite E2 in X. inversion X as [? u2 ? ? _ HH G1 G2| | | |]; subst.
    symmetry. eapply scan_rel; [exact Hrel|exact Hl|exact X1|symmetry; exact G2|exact U1|exact D].
  - right. pose (g := (3 * length (units incs text) + 4 + f1 + f2)%nat).
    assert (X2 : ur_scan incs (xml_config incs outcs None 0) g masks2 text = Fuel).
    { pose proof (xml_scan_ur incs outcs g masks2 text Hcs Hb) as X. destruct (xml_scan incs outcs g masks2 text) eqn:Eg.
      - rewrite (xml_scan_ends incs outcs f2 masks2 text g _ _ Hcs Hb Hf2 Eg) in E2. discriminate.
      - pose proof (xml_scan_clean incs outcs g masks2 text Hcs Hb) as C; rewrite Eg in C; contradiction.
      - pose proof (xml_scan_clean incs outcs g masks2 text Hcs Hb) as C; rewrite Eg in C; contradiction.
      - pose proof (xml_scan_clean incs outcs g masks2 text Hcs Hb) as C; rewrite Eg in C; contradiction.
      - inversion X. reflexivity. }
    destruct (scan_ends (dec incs []) (xml_config incs outcs None 0) (units_asc incs Hcs) f1 g masks1 masks2 _ _ u1 evs1 Hrel Hl ltac:(unfold g, urem; cbn [sc_make sc_src ur_l]; lia) X1 U1 X2)
      as [n [t' [evs2 [G1 G2]]]].
    pose proof (xml_scan_ur incs outcs g (firstn n masks2) text Hcs Hb) as X. unfold ur_scan in X. rewrite G1 in X. inversion X as [u2 ? ? ? _ HH Q1 Q2| | | |]; subst.
    exists n, u2, evs2. split; [|exact G2]. eapply xml_scan_ends; [exact Hcs|exact Hb|exact Hf2|symmetry; exact Q1].
Qed.
