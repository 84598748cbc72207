(** The buffer for references has no influence on what is delivered; copies of a scanner (proofs). *)
From Verif Require Import Base Iter CharMap CodePages Charset TextScanner Ideal ReaderSim ScannerSim
  XmlScanner ScanSpec ScanProofs Safety Term.

Lemma predefined_prefix : forall n b b', length b = 16%nat -> length b' = 16%nat -> (n < 16)%nat -> firstn (S n) b = firstn (S n) b' -> nth_error b n = Some 0 ->
  predefined b = predefined b'.
Proof.
  intros n b b' Hb Hb' Hn H Hz.
  do 16 (destruct b as [|? b]; [discriminate Hb|]). do 16 (destruct b' as [|? b']; [discriminate Hb'|]). clear Hb Hb'.
  destruct n as [|[|[|[|n]]]]; cbn [firstn nth_error] in H, Hz.
  - injection Hz as ->. injection H as <-. reflexivity.
  - injection Hz as ->. injection H as <- <-. reflexivity.
  - injection Hz as ->. injection H as <- <- <-. reflexivity.
  - injection Hz as ->. injection H as <- <- <- <-. reflexivity.
  - injection H as <- <- <- <- <- _. reflexivity.
Qed.

Lemma firstn_upd_le : forall (l l' : list N) n k c, (k <= n)%nat -> firstn n l = firstn n l' -> firstn n (upd k c l) = firstn n (upd k c l').
Proof.
  induction l as [|x l IH]; intros [|y l'] [|n] k c Hk H; cbn [firstn] in H; try discriminate; try reflexivity.
  injection H as -> H. destruct k; cbn [upd firstn]; [rewrite H; reflexivity|]. f_equal. apply IH; [lia|exact H].
Qed.
Lemma firstn_upd_S : forall (l l' : list N) n c, (n < length l)%nat -> (n < length l')%nat -> firstn n l = firstn n l' -> firstn (S n) (upd n c l) = firstn (S n) (upd n c l').
Proof.
  induction l as [|x l IH]; intros [|y l'] [|n] c H1 H2 H; cbn [length] in *; try lia; [reflexivity|]. cbn [firstn] in H. injection H as -> H.
  cbn [upd]. rewrite !firstn_cons. f_equal. apply IH; [lia|lia|exact H].
Qed.
Lemma nth_upd : forall (l : list N) n c, (n < length l)%nat -> nth_error (upd n c l) n = Some c.
Proof. induction l as [|x l IH]; intros [|n] c H; cbn [length] in H; try lia; [reflexivity|]. cbn [upd nth_error]. apply IH. lia. Qed.

Section Copy.
Context {R : Type} (rops : readerops R) (cfg : config).
Notation scn := (scanner R).

(** scanners that differ in the buffer, but not in its first [pos + k] characters *)
Inductive brelk (k : nat) : scn -> scn -> Prop :=
| br : forall st er r ob tp id cr pos base v b b', length b = 16%nat -> length b' = 16%nat -> firstn (pos + k) b = firstn (pos + k) b' ->
    brelk k (mkSc st er r ob tp (mkTok id cr pos base v b)) (mkSc st er r ob tp (mkTok id cr pos base v b')).
Notation brel := (brelk 0).
Notation oreq := (orel brel brel).

Lemma firstn_less : forall (a b : list N) n k, (k <= n)%nat -> firstn n a = firstn n b -> firstn k a = firstn k b.
Proof. intros a b n k Hk H. replace k with (Nat.min k n) by lia. rewrite <- !firstn_firstn, H. reflexivity. Qed.
Lemma br_weak : forall s t, brelk 1 s t -> brel s t.
Proof. intros s t H. destruct H. constructor; auto. eapply firstn_less; [|eassumption]. lia. Qed.

Lemma b_src : forall {A} (m : R -> out R A) k s t, brelk k s t -> orel (brelk k) (brelk k) (on_src m s) (on_src m t).
Proof. intros A m k s t H. destruct H. unfold on_src. cbn [sc_src]. destruct (m r); cbn [omap]; constructor; constructor; auto. Qed.
Lemma b_control : forall k s t, brelk k s t -> orel (brelk k) (brelk k) (sc_control rops s) (sc_control rops t).
Proof. intros. apply b_src. assumption. Qed.
Lemma b_ascii : forall k s t, brelk k s t -> orel (brelk k) (brelk k) (sc_ascii rops s) (sc_ascii rops t).
Proof. intros. apply b_src. assumption. Qed.
Lemma b_skip : forall k s t, brelk k s t -> orel (brelk k) (brelk k) (sc_skip rops s) (sc_skip rops t).
Proof. intros. apply b_src. assumption. Qed.
Lemma b_push : forall c k s t, brelk k s t -> brelk k (push cfg c s) (push cfg c t).
Proof. intros c k s t H. destruct H. constructor; auto. Qed.
Lemma b_pushes : forall l k s t, brelk k s t -> brelk k (pushes cfg l s) (pushes cfg l t).
Proof. induction l as [|c l IH]; intros k s t H; cbn [pushes]; auto. apply IH. apply b_push. exact H. Qed.
Lemma b_copychar : forall s t, brel s t -> oreq (copychar rops cfg s) (copychar rops cfg t).
Proof.
  intros s t H. unfold copychar. destruct (cf_raw cfg).
  - eapply orel_bind; [apply (b_src (r_raw rops) 0); exact H|]. intros s1 t1 a H1. constructor. destruct H1. constructor; auto.
  - eapply orel_bind; [apply (b_src (r_chr rops) 0); exact H|]. intros s1 t1 a H1. constructor. apply b_push. exact H1.
Qed.
Lemma b_fallback : forall s t, brel s t -> brel (fallbackEntity cfg s) (fallbackEntity cfg t).
Proof.
  intros s t H. unfold fallbackEntity. assert (E : tokchars (sc_tok s) = tokchars (sc_tok t) /\ tk_id (sc_tok s) = tk_id (sc_tok t)).
  { destruct H as [? ? ? ? ? ? ? ? ? ? ? ? ? ? E]. rewrite Nat.add_0_r in E. unfold tokchars. cbn. rewrite E. auto. }
  destruct E as [E1 E2]. rewrite E1, E2. destruct (tk_id (sc_tok t)); try exact H; repeat (first [apply b_pushes|apply b_push]); exact H.
Qed.
(** updates of the token state that do not touch buffer and position *)
Lemma b_tok : forall f k, (forall id cr pos base v b, exists id' cr' base' v', f (mkTok id cr pos base v b) = mkTok id' cr' pos base' v' b /\
    forall b', f (mkTok id cr pos base v b') = mkTok id' cr' pos base' v' b') -> forall s t, brelk k s t -> brelk k (upd_tok f s) (upd_tok f t).
Proof.
  intros f k Hf s t H. destruct H as [st er r ob tp id cr pos base v b b' H1 H2 H3]. unfold upd_tok, set_tok. cbn [sc_state sc_err sc_src sc_obuf sc_tokpos sc_tok].
  destruct (Hf id cr pos base v b) as [id' [cr' [base' [v' [E1 E2]]]]]. rewrite E1, E2. constructor; auto.
Qed.
Lemma b_id : forall i k s t, brelk k s t -> brelk k (upd_tok (tok_id i) s) (upd_tok (tok_id i) t).
Proof. intros i k s t. apply b_tok. intros. do 4 eexists. split; reflexivity. Qed.
Lemma b_cr : forall i k s t, brelk k s t -> brelk k (upd_tok (tok_cr i) s) (upd_tok (tok_cr i) t).
Proof. intros i k s t. apply b_tok. intros. do 4 eexists. split; reflexivity. Qed.
Lemma b_base : forall i k s t, brelk k s t -> brelk k (upd_tok (tok_base i) s) (upd_tok (tok_base i) t).
Proof. intros i k s t. apply b_tok. intros. do 4 eexists. split; reflexivity. Qed.
Lemma b_init : forall i k s t, brelk k s t -> brel (upd_tok (tok_init i) s) (upd_tok (tok_init i) t).
Proof. intros i k s t H. destruct H. constructor; auto. Qed.
Lemma b_incpos : forall s t, brelk 1 s t -> brel (upd_tok tok_incpos s) (upd_tok tok_incpos t).
Proof. intros s t H. destruct H as [? ? ? ? ? ? ? ? ? ? ? ? ? ? E]. constructor; auto. rewrite Nat.add_0_r. rewrite Nat.add_1_r in E. exact E. Qed.
Lemma b_value : forall v s t, brel s t -> brel (upd_tok (tok_value v) s) (upd_tok (tok_value v) t).
Proof. intros i s t. apply b_tok. intros. do 4 eexists. split; reflexivity. Qed.
(** storing a character *)
Lemma b_put : forall c s t, brel s t ->
  match tok_put c (sc_tok s), tok_put c (sc_tok t) with
  | Some x, Some y => brelk 1 (set_tok x s) (set_tok y t) /\ nth_error (tk_buf x) (tk_pos x) = Some c /\ (tk_pos x < 16)%nat
  | None, None => True
  | _, _ => False
  end.
Proof.
  intros c s t H. destruct H as [st er r ob tp id cr pos base v b b' H1 H2 H3]. unfold tok_put. cbn [sc_tok tk_pos tk_id tk_cr tk_base tk_value tk_buf].
  destruct (Nat.ltb_spec pos 16); [|exact I]. cbn [tk_buf tk_pos]. rewrite Nat.add_0_r in H3. split; [|split; [apply nth_upd; rewrite H1; assumption|assumption]].
  constructor; rewrite ?length_upd; auto. rewrite Nat.add_1_r. apply firstn_upd_S; rewrite ?H1, ?H2; assumption.
Qed.
Lemma b_fields : forall k s t, brelk k s t -> tk_id (sc_tok s) = tk_id (sc_tok t) /\ tk_cr (sc_tok s) = tk_cr (sc_tok t) /\ tk_pos (sc_tok s) = tk_pos (sc_tok t) /\
  tk_base (sc_tok s) = tk_base (sc_tok t) /\ tk_value (sc_tok s) = tk_value (sc_tok t) /\ sc_state s = sc_state t /\ sc_err s = sc_err t /\ sc_src s = sc_src t /\
  sc_obuf s = sc_obuf t /\ sc_tokpos s = sc_tokpos t.
Proof. intros k s t H. destruct H. cbn. auto 12. Qed.

Lemma b_numBaseLoop : forall k s t, brel s t -> oreq (numBaseLoop rops cfg k s) (numBaseLoop rops cfg k t).
Proof.
  induction k as [|k IH]; intros s t H; cbn [numBaseLoop]; [constructor; apply b_fallback; exact H|].
  eapply orel_bind; [apply b_ascii; exact H|]. intros s1 t1 c H1. destruct (b_fields 0 _ _ H1) as [_ [_ [_ [Eb [Ev _]]]]].
  pose proof (b_put c _ _ H1) as Hp. destruct (c =? 59).
  - rewrite Ev. destruct (0xFFFFFFFF <? tk_value (sc_tok t1)).
    + destruct (tok_put c (sc_tok s1)) as [x|], (tok_put c (sc_tok t1)) as [y|]; try contradiction; [|constructor]. constructor. apply b_fallback.
      destruct Hp as [Hp _]. apply b_incpos in Hp. exact Hp.
    + eapply orel_bind; [apply b_skip; eapply b_init; apply b_push; exact H1|]. intros s2 t2 u H2. constructor. exact H2.
  - destruct (HEX c) as [h|]; [|constructor]. rewrite Eb. destruct (tk_base (sc_tok t1) <=? h); [constructor; apply b_fallback; exact H1|].
    destruct (tok_put c (sc_tok s1)) as [x|] eqn:Ex, (tok_put c (sc_tok t1)) as [y|] eqn:Ey; try contradiction; [|constructor].
    destruct Hp as [Hp _]. destruct (b_fields 1 _ _ Hp) as [_ [_ [_ [Eb2 [Ev2 _]]]]]. cbn [set_tok sc_tok] in Eb2, Ev2. rewrite Eb2, Ev2.
    apply b_incpos in Hp. apply (b_value (u64 (tk_value y * tk_base y + h))) in Hp.
    eapply orel_bind; [apply b_skip; exact Hp|]. intros s2 t2 u H2. apply IH. exact H2.
Qed.
Lemma b_numericBase : forall s t, brel s t -> oreq (parseNumericBaseEntity rops cfg s) (parseNumericBaseEntity rops cfg t).
Proof.
  intros s t H. unfold parseNumericBaseEntity. apply (b_id TParsingNumericBaseEntity) in H.
  destruct (b_fields 0 _ _ H) as [_ [_ [-> _]]]. apply b_numBaseLoop. exact H.
Qed.
Lemma b_numeric : forall s t, brel s t -> oreq (parseNumericEntity rops cfg s) (parseNumericEntity rops cfg t).
Proof.
  intros s t H. unfold parseNumericEntity. eapply orel_bind; [apply b_ascii; apply b_id; exact H|]. intros s1 t1 c H1. destruct (c =? 120).
  - eapply orel_bind; [apply b_skip; apply b_base; exact H1|]. intros s2 t2 u H2. apply b_numericBase. exact H2.
  - apply b_numericBase. apply b_base. exact H1.
Qed.
Lemma b_namedLoop : forall k s t c, brel s t -> oreq (namedLoop rops k s c) (namedLoop rops k t c).
Proof.
  induction k as [|k IH]; intros s t c H; cbn [namedLoop]; [constructor; exact H|]. destruct (c =? 59); [constructor; exact H|].
  eapply orel_bind; [apply b_control; exact H|]. intros s1 t1 cc H1. destruct (ctl_eqb cc CAny); [|constructor; exact H1].
  pose proof (b_put c _ _ H1) as Hp. destruct (tok_put c (sc_tok s1)) as [x|], (tok_put c (sc_tok t1)) as [y|]; try contradiction; [|constructor].
  destruct Hp as [Hp _]. eapply orel_bind; [eapply orel_weaken; [apply b_skip; exact Hp| |apply br_weak]; intros ? ? G; exact G|]. intros s2 t2 u H2.
  eapply orel_bind; [apply b_ascii; apply b_incpos; exact H2|]. intros s3 t3 c3 H3. apply IH. exact H3.
Qed.
Lemma b_pushEntity : forall s t, brelk 1 s t -> nth_error (tk_buf (sc_tok s)) (tk_pos (sc_tok s)) = Some 0 -> (tk_pos (sc_tok s) < 16)%nat ->
  brelk 1 (fst (pushEntity cfg s)) (fst (pushEntity cfg t)) /\ snd (pushEntity cfg s) = snd (pushEntity cfg t).
Proof.
  intros s t H Hz Hp. unfold pushEntity. assert (E : predefined (tk_buf (sc_tok s)) = predefined (tk_buf (sc_tok t))).
  { destruct H as [st er r ob tp id cr pos base v b b' H1 H2 H3]. cbn [sc_tok tk_buf tk_pos] in *. rewrite Nat.add_1_r in H3. eapply predefined_prefix; eauto. }
  rewrite E. clear E. destruct (predefined (tk_buf (sc_tok t))) as [c|]; [split; [apply b_push; exact H|reflexivity]|].
  assert (Herr : brelk 1 (set_err ErrUndefinedCharacterEntity s) (set_err ErrUndefinedCharacterEntity t)) by (destruct H; constructor; auto).
  destruct (cf_map cfg) as [m|]; [|split; [exact Herr|reflexivity]]. destruct (map_find m (cf_bufaddr cfg)) as [c|]; split; try reflexivity; [apply b_push; exact H|exact Herr].
Qed.
Lemma b_named : forall s t, brel s t -> oreq (parseNamedEntity rops cfg s) (parseNamedEntity rops cfg t).
Proof.
  intros s t H. unfold parseNamedEntity. eapply orel_bind; [apply b_ascii; apply b_id; exact H|]. intros s1 t1 c H1.
  destruct (b_fields 0 _ _ H1) as [_ [_ [-> _]]]. eapply orel_bind; [apply b_namedLoop; exact H1|]. intros s2 t2 c2 H2.
  destruct (c2 =? 59); [|constructor; apply b_fallback; exact H2].
  pose proof (b_put 0 _ _ H2) as Hp. destruct (tok_put 0 (sc_tok s2)) as [x|], (tok_put 0 (sc_tok t2)) as [y|]; try contradiction; [|constructor].
  destruct Hp as [Hp [Hz Hl]]. destruct (b_pushEntity _ _ Hp Hz Hl) as [Q1 Q2].
  destruct (pushEntity cfg (set_tok x s2)) as [s3 ok], (pushEntity cfg (set_tok y t2)) as [t3 ok']. cbn [fst snd] in *. subst ok'. destruct ok.
  - eapply orel_bind; [apply b_skip; eapply b_init; exact Q1|]. intros s4 t4 u H4. constructor. exact H4.
  - constructor. apply br_weak. exact Q1.
Qed.
Lemma b_entity : forall s t, brel s t -> oreq (parseEntity rops cfg s) (parseEntity rops cfg t).
Proof.
  intros s t H. unfold parseEntity. eapply orel_bind; [apply b_ascii; apply b_id; exact H|]. intros s1 t1 c H1. destruct (c =? 35); [|apply b_named; exact H1].
  eapply orel_bind; [apply b_skip; exact H1|]. intros s2 t2 u H2. apply b_numeric. exact H2.
Qed.
Lemma b_recover : forall s t, brel s t -> oreq (parseTokenRecover rops cfg s) (parseTokenRecover rops cfg t).
Proof.
  intros s t H. unfold parseTokenRecover. destruct (b_fields 0 _ _ H) as [-> _].
  assert (Hf : forall x y, oreq x y -> oreq (let! (s1, rt) := x in Ret (upd_tok (tok_init TParsingToken) s1) rt : out scn bool)
                                        (let! (s1, rt) := y in Ret (upd_tok (tok_init TParsingToken) s1) rt)).
  { intros x y Hx. eapply orel_bind; [exact Hx|]. intros s1 t1 a H1. constructor. eapply b_init. exact H1. }
  assert (He : brel (set_err ErrInternal s) (set_err ErrInternal t)) by (destruct H; constructor; auto).
  destruct (tk_id (sc_tok t)); try (constructor; exact He); apply Hf;
    [apply b_entity|apply b_numeric|apply b_numericBase|apply b_named]; exact H.
Qed.
Lemma b_tokenChar : forall s t, brel s t -> oreq (tokenChar rops cfg s) (tokenChar rops cfg t).
Proof.
  intros s t H. unfold tokenChar. eapply orel_bind; [apply b_ascii; exact H|]. intros s1 t1 c H1. destruct (c =? 13); [constructor; apply b_cr; apply b_push; exact H1|].
  destruct (c =? 10).
  - destruct (b_fields 0 _ _ H1) as [_ [-> _]]. constructor. apply b_cr. destruct (tk_cr (sc_tok t1)); [exact H1|apply b_push; exact H1].
  - eapply orel_bind; [apply b_copychar; exact H1|]. intros s2 t2 u H2. constructor. apply b_cr. exact H2.
Qed.
Lemma b_tokenLoop : forall f it s t, brel s t -> oreq (parseTokenLoop rops cfg f it s) (parseTokenLoop rops cfg f it t).
Proof.
  induction f as [|f IH]; intros it s t H; cbn [parseTokenLoop]; [constructor|].
  eapply orel_bind; [apply b_control; exact H|]. intros s1 t1 c H1. destruct (isTokAt it c) as [[|]|]; [| |constructor].
  - eapply orel_bind; [apply b_tokenChar; exact H1|]. intros s2 t2 u H2. eapply orel_bind; [apply b_skip; exact H2|]. intros s3 t3 u3 H3. apply IH. exact H3.
  - destruct (ctl_eqb c CAmp); [|constructor; eapply b_init; exact H1].
    eapply orel_bind; [apply b_skip; exact H1|]. intros s2 t2 u H2. eapply orel_bind; [apply b_entity; exact H2|]. intros s3 t3 ok H3.
    destruct ok; [apply IH; eapply b_init; exact H3|constructor; eapply b_init; exact H3].
Qed.
Lemma b_token : forall f it s t, brel s t -> oreq (parseToken rops cfg f it s) (parseToken rops cfg f it t).
Proof.
  intros f it s t H. unfold parseToken. destruct (b_fields 0 _ _ H) as [-> _].
  assert (Hr : oreq (let! (s1, ok) := parseTokenRecover rops cfg s in if ok then parseTokenLoop rops cfg f it s1 else Ret (upd_tok (tok_init TStart) s1) false)
                    (let! (s1, ok) := parseTokenRecover rops cfg t in if ok then parseTokenLoop rops cfg f it s1 else Ret (upd_tok (tok_init TStart) s1) false)).
  { eapply orel_bind; [apply b_recover; exact H|]. intros s1 t1 ok H1. destruct ok; [apply b_tokenLoop; exact H1|constructor; eapply b_init; exact H1]. }
  destruct (tk_id (sc_tok t)); try exact Hr; apply b_tokenLoop; [|exact H].
  destruct H. cbn [sc_src]. constructor; auto.
Qed.
Lemma b_skipToken : forall f it s t, brel s t -> oreq (skipTokenLoop rops f it s) (skipTokenLoop rops f it t).
Proof.
  induction f as [|f IH]; intros it s t H; cbn [skipTokenLoop]; [constructor|].
  eapply orel_bind; [apply b_control; exact H|]. intros s1 t1 c H1. destruct (isTokAt it c) as [b|]; [|constructor]. destruct (b || ctl_eqb c CAmp).
  - eapply orel_bind; [apply b_skip; exact H1|]. intros s2 t2 u H2. apply IH. exact H2.
  - eapply orel_bind; [apply b_control; exact H1|]. intros s2 t2 c2 H2. destruct (ctl_eqb c2 CAny); [apply IH; exact H2|constructor; exact H2].
Qed.
(** expectStr increments the position without storing characters *)
Inductive erel : scn -> scn -> Prop :=
| er_i : forall st er r ob tp id cr pos base v b b', length b = 16%nat -> length b' = 16%nat ->
    erel (mkSc st er r ob tp (mkTok id cr pos base v b)) (mkSc st er r ob tp (mkTok id cr pos base v b')).
Lemma e_src : forall {A} (m : R -> out R A) s t, erel s t -> orel erel erel (on_src m s) (on_src m t).
Proof. intros A m s t H. destruct H. unfold on_src. cbn [sc_src]. destruct (m r); cbn [omap]; constructor; constructor; auto. Qed.
Lemma e_expect : forall l s t, erel s t -> orel brel erel (expectLoop rops l s) (expectLoop rops l t).
Proof.
  induction l as [|x l IH]; intros s t H; cbn [expectLoop].
  - constructor. destruct H. constructor; auto.
  - eapply orel_bind; [apply (e_src (r_ascii rops)); exact H|]. intros s1 t1 c H1. destruct (c =? x).
    + eapply orel_bind; [apply (e_src (r_skip rops)); exact H1|]. intros s2 t2 u H2. apply IH. destruct H2. constructor; auto.
    + eapply orel_bind; [apply (e_src (r_control rops)); exact H1|]. intros s2 t2 u H2. constructor. destruct H2. constructor; auto.
Qed.
Lemma b_erel : forall s t, brel s t -> erel s t.
Proof. intros s t H. destruct H. constructor; auto. Qed.
Notation ore := (orel brel erel).
Lemma or_e : forall A (x y : out scn A), oreq x y -> ore x y.
Proof. intros A x y H. eapply orel_weaken; [exact H|auto|apply b_erel]. Qed.

Lemma b_expectStr : forall k s t, brel s t -> ore (expectStr rops k s) (expectStr rops k t).
Proof.
  intros k s t H. unfold expectStr. apply (b_id TParsingKey) in H. destruct (b_fields 0 _ _ H) as [_ [_ [-> _]]]. destruct (Nat.leb _ _); [|constructor]. apply e_expect. apply b_erel. exact H.
Qed.
Lemma b_action : forall f mask a arg s t, brel s t -> ore (doAction rops cfg f mask a arg s) (doAction rops cfg f mask a arg t).
Proof.
  intros f mask a arg s t H. unfold doAction. destruct (b_fields 0 _ _ H) as [Ei _]. rewrite Ei. destruct (tokenDef a) as [it|].
  - apply or_e.
    assert (Hn : oreq (let! (s1, ok) := (if N.testbit mask (etype_idx arg) then parseToken rops cfg f it s else skipTokenLoop rops f it s) in if ok then Ret s1 (inl arg) else Ret s1 (inr tt))
                      (let! (s1, ok) := (if N.testbit mask (etype_idx arg) then parseToken rops cfg f it t else skipTokenLoop rops f it t) in if ok then Ret s1 (inl arg) else Ret s1 (inr tt))).
    { eapply orel_bind; [destruct (N.testbit mask (etype_idx arg)); [apply b_token; exact H|apply b_skipToken; exact H]|]. intros s1 t1 ok H1. destruct ok; constructor; exact H1. }
    destruct (tk_id (sc_tok t)); try exact Hn. constructor. exact H.
  - destruct (stringDef a) as [k|].
    + assert (Hn : ore (let! (s1, ok) := expectStr rops k s in if ok then match a with ExpectIdentifierXML => Ret (push cfg 108 (push cfg 109 (push cfg 120 (push cfg 63 s1)))) (inl EHeaderStart) | _ => Ret s1 (inl ENone) end else Ret s1 (inr tt))
                       (let! (s1, ok) := expectStr rops k t in if ok then match a with ExpectIdentifierXML => Ret (push cfg 108 (push cfg 109 (push cfg 120 (push cfg 63 s1)))) (inl EHeaderStart) | _ => Ret s1 (inl ENone) end else Ret s1 (inr tt))).
      { eapply orel_bind; [apply b_expectStr; exact H|]. intros s1 t1 ok H1. destruct ok; [|constructor; exact H1]. destruct a; constructor; repeat apply b_push; exact H1. }
      destruct (tk_id (sc_tok t)); try exact Hn. constructor. exact H.
    + constructor. destruct H. constructor; auto.
Qed.
Lemma b_transition : forall e c s t, brel s t -> ore (transition rops e c s) (transition rops e c t).
Proof.
  intros e c s t H. unfold transition. destruct (nth_error (el_next e) (ctl_idx c)) as [[ns|]|]; [| |constructor].
  - eapply orel_bind; [apply or_e; apply b_skip; destruct H; constructor; auto|]. intros s1 t1 u H1. constructor. exact H1.
  - destruct (el_fallback e); [constructor; destruct H; constructor; auto|]. destruct (el_miss e); constructor; destruct H; constructor; auto.
Qed.
Lemma b_nextItem : forall f mask s t, brel s t -> ore (nextItem rops cfg f mask s) (nextItem rops cfg f mask t).
Proof.
  induction f as [|f IH]; intros mask s t H; cbn [nextItem]; [constructor|]. destruct (b_fields 0 _ _ H) as [_ [_ [_ [_ [_ [-> _]]]]]].
  destruct (stm_get (sc_state t)) as [e|]; [|constructor]. eapply orel_bind with (RR := brel).
  - destruct (el_action e) as [[a arg]|]; [|constructor; exact H]. eapply orel_bind; [apply b_action; exact H|]. intros s1 t1 r H1. destruct r as [rt|]; [|constructor; exact H1].
    destruct (Nat.eqb (el_nofnext e) 0); [|constructor; exact H1]. constructor. destruct (el_fallback e); [destruct H1; constructor; auto|exact H1].
  - intros s1 t1 r H1. destruct (snd r); [constructor; exact H1|]. eapply orel_bind; [apply or_e; apply b_control; exact H1|]. intros s2 t2 c H2.
    eapply orel_bind; [apply b_transition; apply b_id; exact H2|]. intros s3 t3 ok H3. destruct ok; [|constructor; exact H3]. destruct (isNone (fst r)); [apply IH; exact H3|constructor; exact H3].
Qed.
Lemma b_scan : forall f masks s t, brel s t -> orelv brel erel eq (scan rops cfg f masks s) (scan rops cfg f masks t).
Proof.
  intros f. induction masks as [|m masks IH]; intros s t H; cbn [scan]; [constructor; auto|].
  destruct (b_nextItem f m s t H) as [s1 t1 a H1|s1 t1 H1|s1 t1 H1| |]; cbn [bind]; try (constructor; assumption).
  destruct (IH s1 t1 H1) as [s2 t2 e1 e2 H2 <-|s2 t2 H2|s2 t2 H2| |]; cbn [bind]; try (constructor; assumption).
  constructor; [exact H2|]. f_equal. destruct (b_fields 0 _ _ H1) as [_ [_ [_ [_ [_ [_ [G1 [G2 [G3 G4]]]]]]]]]. unfold observe, sc_getItem, sc_getTokenPosition, sc_getPosition. congruence.
Qed.

(** *** Where the copy is made *)
Definition reset (s : scn) : Prop := sc_tok s = tok_init TStart (sc_tok s).
Lemma bind_inv : forall {S A B} (x : out S A) (f : S -> A -> out S B) s' b, bind x f = Ret s' b -> exists s a, x = Ret s a /\ f s a = Ret s' b.
Proof. intros S A B [] f s' b H; cbn [bind] in H; try discriminate. eauto. Qed.
Lemma src_tok : forall {A} (m : R -> out R A) (s s' : scn) a, on_src m s = Ret s' a -> sc_tok s' = sc_tok s.
Proof. intros A m s s' a H. unfold on_src in H. destruct (m (sc_src s)); inversion H; reflexivity. Qed.
Lemma tokenLoop_tok : forall f it s s' ok, parseTokenLoop rops cfg f it s = Ret s' ok -> sc_tok s' = tok_init (if ok then TParsingDone else TStart) (sc_tok s').
Proof.
  induction f as [|f IH]; intros it s s' ok H; cbn [parseTokenLoop] in H; [discriminate|]. apply bind_inv in H. destruct H as [s1 [c [_ H]]].
  destruct (isTokAt it c) as [[|]|]; [| |discriminate].
  - apply bind_inv in H. destruct H as [s2 [u [_ H]]]. apply bind_inv in H. destruct H as [s3 [u3 [_ H]]]. eapply IH. exact H.
  - destruct (ctl_eqb c CAmp); [|injection H as <- <-; reflexivity].
    apply bind_inv in H. destruct H as [s2 [u [_ H]]]. apply bind_inv in H. destruct H as [s3 [ok3 [_ H]]]. destruct ok3; [eapply IH; exact H|]. injection H as <- <-. reflexivity.
Qed.
Lemma token_tok : forall f it s s' ok, parseToken rops cfg f it s = Ret s' ok -> sc_tok s' = tok_init (if ok then TParsingDone else TStart) (sc_tok s').
Proof.
  intros f it s s' ok H. unfold parseToken in H.
  assert (G : (let! (s1, ok) := parseTokenRecover rops cfg s in if ok then parseTokenLoop rops cfg f it s1 else Ret (upd_tok (tok_init TStart) s1) false) = Ret s' ok ->
    sc_tok s' = tok_init (if ok then TParsingDone else TStart) (sc_tok s')).
  { clear H. intros H. apply bind_inv in H. destruct H as [s1 [o [_ H]]]. destruct o; [eapply tokenLoop_tok; exact H|]. injection H as <- <-. reflexivity. }
  destruct (tk_id (sc_tok s)); auto; eapply tokenLoop_tok; exact H.
Qed.
Lemma skip_tok : forall f it s s' ok, skipTokenLoop rops f it s = Ret s' ok -> sc_tok s' = sc_tok s.
Proof.
  induction f as [|f IH]; intros it s s' ok H; cbn [skipTokenLoop] in H; [discriminate|]. apply bind_inv in H. destruct H as [s1 [c [E1 H]]]. apply src_tok in E1.
  destruct (isTokAt it c) as [b|]; [|discriminate]. destruct (b || ctl_eqb c CAmp).
  - apply bind_inv in H. destruct H as [s2 [u [E2 H]]]. apply src_tok in E2. apply IH in H. congruence.
  - apply bind_inv in H. destruct H as [s2 [c2 [E2 H]]]. apply src_tok in E2. destruct (ctl_eqb c2 CAny); [apply IH in H|injection H as <- _]; congruence.
Qed.
(** an error in a keyword *)
Definition keyword_error (e : xerror) : Prop := e = ErrSyntaxToken \/ e = ErrUnexpectedEndOfText.
Lemma expect_tok : forall l s s' ok, expectLoop rops l s = Ret s' ok -> sc_tok s' = tok_init TParsingDone (sc_tok s') /\ (ok = false -> keyword_error (sc_err s')).
Proof.
  induction l as [|x l IH]; intros s s' ok H; cbn [expectLoop] in H; [injection H as <- <-; split; [reflexivity|discriminate]|].
  apply bind_inv in H. destruct H as [s1 [c [_ H]]]. destruct (c =? x).
  - apply bind_inv in H. destruct H as [s2 [u [_ H]]]. eapply IH. exact H.
  - apply bind_inv in H. destruct H as [s2 [u [_ H]]]. injection H as <- _. split; [reflexivity|]. intros _. unfold keyword_error. cbn. destruct (ctl_eqb u CEndOfText); auto.
Qed.
Lemma action_tok : forall f mask a arg s s' r, reset s -> doAction rops cfg f mask a arg s = Ret s' r ->
  (exists i, sc_tok s' = tok_init i (sc_tok s')) /\ (tokenDef a = None -> stringDef a = None -> reset s') /\ (forall u, r = inr u -> reset s' \/ keyword_error (sc_err s')).
Proof.
  intros f mask a arg s s' r Hr H. unfold doAction in H. assert (Et : tk_id (sc_tok s) = TStart) by (rewrite Hr; reflexivity). rewrite Et in H.
  destruct (tokenDef a) as [it|].
  - apply bind_inv in H. destruct H as [s1 [ok [H E]]]. assert (G : sc_tok s1 = tok_init (if ok then TParsingDone else TStart) (sc_tok s1) \/ sc_tok s1 = sc_tok s).
    { destruct (N.testbit mask (etype_idx arg)); [left; eapply token_tok; exact H|right; eapply skip_tok; exact H]. }
    assert (G2 : s' = s1) by (destruct ok; congruence). subst s'. split; [destruct G as [G|G]; [eauto|exists TStart; rewrite G; exact Hr]|]. split; [discriminate|].
    intros u ->. destruct ok; [discriminate|]. left. destruct G as [G|G]; [exact G|]. unfold reset. rewrite G. exact Hr.
  - destruct (stringDef a) as [k|].
    + unfold expectStr in H. apply bind_inv in H. destruct H as [s1 [ok [H E]]]. destruct (Nat.leb _ _); [|discriminate H]. apply expect_tok in H. destruct H as [H He].
      split; [|split; [discriminate|]]; [|destruct ok; [intros u ->; destruct a; discriminate E|injection E as <- _; auto]]. destruct ok; [|injection E as <- _; eauto]. destruct a; injection E as <- _; eauto.
    + injection H as <- <-. split; [exists TStart; exact Hr|]. split; [intros _ _; exact Hr|discriminate].
Qed.
Lemma string_next : forall st el a arg k, stm_get st = Some el -> el_action el = Some (a, arg) -> stringDef a = Some k -> Nat.eqb (el_nofnext el) 0 = false.
Proof.
  intros st el a arg k H1 H2 H3. destruct st; vm_compute in H1; injection H1 as <-; try discriminate H2; cbn in H2; injection H2 as <- <-; try discriminate H3; reflexivity.
Qed.
Lemma tok_next : forall st el a arg it, stm_get st = Some el -> el_action el = Some (a, arg) -> tokenDef a = Some it -> Nat.eqb (el_nofnext el) 0 = false.
Proof.
  intros st el a arg it H1 H2 H3. destruct st; vm_compute in H1; injection H1 as <-; try discriminate H2; cbn in H2; injection H2 as <- <-; try discriminate H3; reflexivity.
Qed.
Lemma next_tok : forall f mask s s' t, reset s -> nextItem rops cfg f mask s = Ret s' t -> reset s' \/ (t = EErrorOccurred /\ keyword_error (sc_err s')).
Proof.
  induction f as [|f IH]; intros mask s s' t Hr H; cbn [nextItem] in H; [discriminate|]. destruct (stm_get (sc_state s)) as [e|] eqn:He; [|discriminate].
  assert (Htr : forall (s1 : scn) rt i, sc_tok s1 = tok_init i (sc_tok s1) ->
    (let! (s2, c) := sc_control rops s1 in let! (s3, ok) := transition rops e c (upd_tok (tok_id TStart) s2) in
     if ok then if isNone rt then nextItem rops cfg f mask s3 else Ret s3 rt else Ret s3 EErrorOccurred) = Ret s' t -> reset s' \/ (t = EErrorOccurred /\ keyword_error (sc_err s'))).
  { clear H. intros s1 rt i H1 H. apply bind_inv in H. destruct H as [s2 [c [E2 H]]]. apply src_tok in E2. apply bind_inv in H. destruct H as [s3 [ok [E3 H]]].
    assert (G : reset s3).
    { assert (G2 : reset (upd_tok (tok_id TStart) s2)) by (unfold reset; cbn; rewrite E2, H1; reflexivity). unfold transition in E3. destruct (nth_error (el_next e) (ctl_idx c)) as [[ns|]|]; [| |discriminate].
      - apply bind_inv in E3. destruct E3 as [s4 [u [E4 E3]]]. apply src_tok in E4. injection E3 as <- _. unfold reset. rewrite E4. exact G2.
      - destruct (el_fallback e); [injection E3 as <- _; exact G2|]. destruct (el_miss e); injection E3 as <- _; exact G2. }
    destruct ok; [|injection H as <- _; auto]. destruct (isNone rt); [eapply IH; eassumption|injection H as <- _; auto]. }
  destruct (el_action e) as [[a arg]|] eqn:Ea.
  - destruct (doAction rops cfg f mask a arg s) as [s1 r| | | |] eqn:Ed; cbn [bind] in H; try discriminate. destruct (action_tok f mask a arg s s1 r Hr Ed) as [[i G1] [G2 G3]].
    destruct r as [rt|u]; cbn [bind snd fst] in H.
    + destruct (Nat.eqb (el_nofnext e) 0) eqn:E0; cbn [bind snd fst] in H; [|eapply Htr; eassumption].
      assert (T1 : tokenDef a = None) by (destruct (tokenDef a) eqn:Et; [rewrite (tok_next _ _ _ _ _ He Ea Et) in E0; discriminate|reflexivity]).
      assert (T2 : stringDef a = None) by (destruct (stringDef a) eqn:Et; [rewrite (string_next _ _ _ _ _ He Ea Et) in E0; discriminate|reflexivity]).
      specialize (G2 T1 T2). injection H as <- _. left. destruct (el_fallback e); exact G2.
    + injection H as <- <-. destruct (G3 u eq_refl) as [G|G]; [left; exact G|right; auto].
  - cbn [bind snd fst] in H. eapply (Htr s ENone); eassumption.
Qed.

Definition buf16 (s : scn) : Prop := length (tk_buf (sc_tok s)) = 16%nat.
Lemma brel_self : forall s, buf16 s -> brel s s.
Proof. intros [st er r ob tp [id cr pos base v b]] H. constructor; auto. Qed.
Lemma next_buf : forall f mask s s' t, buf16 s -> nextItem rops cfg f mask s = Ret s' t -> buf16 s'.
Proof.
  intros f mask s s' t H E. pose proof (b_nextItem f mask s s (brel_self s H)) as G. rewrite E in G. inversion G as [? ? ? G2| | | |]; subst. inversion G2; subst. assumption.
Qed.
Lemma scan_tok : forall f masks s s' evs, reset s -> buf16 s -> scan rops cfg f masks s = Ret s' evs ->
  Forall (fun e => ev_type e = EErrorOccurred -> ~ keyword_error (ev_err e)) evs -> reset s' /\ buf16 s'.
Proof.
  intros f. induction masks as [|m masks IH]; intros s s' evs H1 H2 E F; cbn [scan] in E; [injection E as <- <-; auto|].
  apply bind_inv in E. destruct E as [s1 [t [E1 E]]]. apply bind_inv in E. destruct E as [s2 [evs2 [E2 E]]]. injection E as <- <-. inversion F as [|? ? F1 F2]; subst. cbn [observe ev_type ev_err] in F1.
  eapply IH; [|eapply next_buf; eassumption|exact E2|exact F2]. destruct (next_tok f m s s1 t H1 E1) as [G|[-> G]]; [exact G|]. exfalso. apply (F1 eq_refl). exact G.
Qed.
Lemma copy_brel : forall s, reset s -> buf16 s -> brel s (sc_copy s).
Proof.
  intros [st er r ob tp tk] H1 H2. unfold reset in H1. unfold buf16 in H2. cbn [sc_tok] in H1, H2. rewrite H1. unfold sc_copy, tok_new, tok_init. cbn [sc_state sc_err sc_src sc_obuf sc_tokpos sc_tok]. constructor; auto.
Qed.
Lemma copy_next : forall f masks s, reset s -> buf16 s -> omap (fun _ => tt) (scan rops cfg f masks (sc_copy s)) = omap (fun _ => tt) (scan rops cfg f masks s).
Proof. intros f masks s H1 H2. destruct (b_scan f masks s (sc_copy s) (copy_brel s H1 H2)) as [? ? ? ? ? ->| | | |]; reflexivity. Qed.
End Copy.
