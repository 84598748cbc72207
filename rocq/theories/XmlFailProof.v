(** The scanner with an output buffer that throws (proofs). *)
From Coq Require Import Lia.
From Verif Require Import Base Iter CharMap CodePages Charset TextScanner Ideal ReaderSim ScannerSim ScanProofs FuelMono
  XmlScanner ReadSpec ScanSpec Safety Term CopyProofs XmlFail PrintFailSpec PrintFailProof XmlFailSpec.

(** ** The text delivered has no influence on the rest *)
Section Changed.
Context {R : Type} (rops : readerops R) (cfg : config).
Context (W : list N -> list N -> Prop).
Hypothesis W0 : W [] [].
Hypothesis Wadd : forall a b u, W a b -> W (a ++ u) (b ++ u).
Notation scn := (scanner R).

(** scanners that differ in the text delivered and in the buffer for references, but not in its first [pos + k] characters *)
Inductive brelk (k : nat) : scn -> scn -> Prop :=
| br : forall st er r ob ob' tp id cr pos base v b b', W ob ob' -> length b = 16%nat -> length b' = 16%nat -> firstn (pos + k) b = firstn (pos + k) b' ->
    brelk k (mkSc st er r ob tp (mkTok id cr pos base v b)) (mkSc st er r ob' tp (mkTok id cr pos base v b')).
Notation brel := (brelk 0).
Notation oreq := (orel brel brel).

Lemma br_weak : forall s t, brelk 1 s t -> brel s t.
Proof. intros s t H. destruct H. constructor; auto. eapply firstn_less; [|eassumption]. lia. Qed.

Lemma b_src : forall {A} (m : R -> out R A) k s t, brelk k s t -> orel (brelk k) (brelk k) (on_src m s) (on_src m t).
Proof. intros A m k s t H. destruct H. unfold on_src. cbn [sc_src]. destruct (m r); cbn [omap]; constructor; constructor; auto. Qed.
Lemma b_control : forall k s t, brelk k s t -> orel (brelk k) (brelk k) (sc_control rops s) (sc_control rops t).
Proof. intros. apply b_src. assumption. Qed.
Lemma b_ascii : forall k s t, brelk k s t -> orel (brelk k) (brelk k) (sc_ascii rops s) (sc_ascii rops t).
Proof. intros. apply b_src. assumption. Qed.
Lemma b_skip : forall k s t, brelk k s t -> orel (brelk k) (brelk k) (sc_skip rops s) (sc_skip rops t).
Proof. intros. apply b_src. assumption. Qed.
Lemma b_push : forall c k s t, brelk k s t -> brelk k (push cfg c s) (push cfg c t).
Proof. intros c k s t H. destruct H. constructor; auto. Qed.
Lemma b_pushes : forall l k s t, brelk k s t -> brelk k (pushes cfg l s) (pushes cfg l t).
Proof. induction l as [|c l IH]; intros k s t H; cbn [pushes]; auto. apply IH. apply b_push. exact H. Qed.
Lemma b_copychar : forall s t, brel s t -> oreq (copychar rops cfg s) (copychar rops cfg t).
Proof.
  intros s t H. unfold copychar. destruct (cf_raw cfg).
  - eapply orel_bind; [apply (b_src (r_raw rops) 0); exact H|]. intros s1 t1 a H1. constructor. destruct H1. constructor; auto.
  - eapply orel_bind; [apply (b_src (r_chr rops) 0); exact H|]. intros s1 t1 a H1. constructor. apply b_push. exact H1.
Qed.
Lemma b_fallback : forall s t, brel s t -> brel (fallbackEntity cfg s) (fallbackEntity cfg t).
Proof.
  intros s t H. unfold fallbackEntity. assert (E : tokchars (sc_tok s) = tokchars (sc_tok t) /\ tk_id (sc_tok s) = tk_id (sc_tok t)).
  { destruct H as [? ? ? ? ? ? ? ? ? ? ? ? ? ? ? ? E]. rewrite Nat.add_0_r in E. unfold tokchars. cbn. rewrite E. auto. }
  destruct E as [E1 E2]. rewrite E1, E2. destruct (tk_id (sc_tok t)); try exact H; repeat (first [apply b_pushes|apply b_push]); exact H.
Qed.
(** updates of the token state that do not touch buffer and position *)
Lemma b_tok : forall f k, (forall id cr pos base v b, exists id' cr' base' v', f (mkTok id cr pos base v b) = mkTok id' cr' pos base' v' b /\
    forall b', f (mkTok id cr pos base v b') = mkTok id' cr' pos base' v' b') -> forall s t, brelk k s t -> brelk k (upd_tok f s) (upd_tok f t).
Proof.
  intros f k Hf s t H. destruct H as [st er r ob ob' tp id cr pos base v b b' HW H1 H2 H3]. unfold upd_tok, set_tok. cbn [sc_state sc_err sc_src sc_obuf sc_tokpos sc_tok].
  destruct (Hf id cr pos base v b) as [id' [cr' [base' [v' [E1 E2]]]]]. rewrite E1, E2. constructor; auto.
Qed.
Lemma b_id : forall i k s t, brelk k s t -> brelk k (upd_tok (tok_id i) s) (upd_tok (tok_id i) t).
Proof. intros i k s t. apply b_tok. intros. do 4 eexists. split; reflexivity. Qed.
Lemma b_cr : forall i k s t, brelk k s t -> brelk k (upd_tok (tok_cr i) s) (upd_tok (tok_cr i) t).
Proof. intros i k s t. apply b_tok. intros. do 4 eexists. split; reflexivity. Qed.
Lemma b_base : forall i k s t, brelk k s t -> brelk k (upd_tok (tok_base i) s) (upd_tok (tok_base i) t).
Proof. intros i k s t. apply b_tok. intros. do 4 eexists. split; reflexivity. Qed.
Lemma b_init : forall i k s t, brelk k s t -> brel (upd_tok (tok_init i) s) (upd_tok (tok_init i) t).
Proof. intros i k s t H. destruct H. constructor; auto. Qed.
Lemma b_incpos : forall s t, brelk 1 s t -> brel (upd_tok tok_incpos s) (upd_tok tok_incpos t).
Proof. intros s t H. destruct H as [? ? ? ? ? ? ? ? ? ? ? ? ? ? ? ? E]. constructor; auto. rewrite Nat.add_0_r. rewrite Nat.add_1_r in E. exact E. Qed.
Lemma b_value : forall v s t, brel s t -> brel (upd_tok (tok_value v) s) (upd_tok (tok_value v) t).
Proof. intros i s t. apply b_tok. intros. do 4 eexists. split; reflexivity. Qed.
(** storing a character *)
Lemma b_put : forall c s t, brel s t ->
  match tok_put c (sc_tok s), tok_put c (sc_tok t) with
  | Some x, Some y => brelk 1 (set_tok x s) (set_tok y t) /\ nth_error (tk_buf x) (tk_pos x) = Some c /\ (tk_pos x < 16)%nat
  | None, None => True
  | _, _ => False
  end.
Proof.
  intros c s t H. destruct H as [st er r ob ob' tp id cr pos base v b b' HW H1 H2 H3]. unfold tok_put. cbn [sc_tok tk_pos tk_id tk_cr tk_base tk_value tk_buf].
  destruct (Nat.ltb_spec pos 16); [|exact I]. cbn [tk_buf tk_pos]. rewrite Nat.add_0_r in H3. split; [|split; [apply nth_upd; rewrite H1; assumption|assumption]].
  constructor; rewrite ?length_upd; auto. rewrite Nat.add_1_r. apply firstn_upd_S; rewrite ?H1, ?H2; assumption.
Qed.
Lemma b_fields : forall k s t, brelk k s t -> tk_id (sc_tok s) = tk_id (sc_tok t) /\ tk_cr (sc_tok s) = tk_cr (sc_tok t) /\ tk_pos (sc_tok s) = tk_pos (sc_tok t) /\
  tk_base (sc_tok s) = tk_base (sc_tok t) /\ tk_value (sc_tok s) = tk_value (sc_tok t) /\ sc_state s = sc_state t /\ sc_err s = sc_err t /\ sc_src s = sc_src t /\
  sc_tokpos s = sc_tokpos t.
Proof. intros k s t H. destruct H. cbn. auto 12. Qed.

Lemma b_numBaseLoop : forall k s t, brel s t -> oreq (numBaseLoop rops cfg k s) (numBaseLoop rops cfg k t).
Proof.
  induction k as [|k IH]; intros s t H; cbn [numBaseLoop]; [constructor; apply b_fallback; exact H|].
  eapply orel_bind; [apply b_ascii; exact H|]. intros s1 t1 c H1. destruct (b_fields 0 _ _ H1) as [_ [_ [_ [Eb [Ev _]]]]].
  pose proof (b_put c _ _ H1) as Hp. destruct (c =? 59).
  - rewrite Ev. destruct (0xFFFFFFFF <? tk_value (sc_tok t1)).
    + destruct (tok_put c (sc_tok s1)) as [x|], (tok_put c (sc_tok t1)) as [y|]; try contradiction; [|constructor]. constructor. apply b_fallback.
      destruct Hp as [Hp _]. apply b_incpos in Hp. exact Hp.
    + eapply orel_bind; [apply b_skip; eapply b_init; apply b_push; exact H1|]. intros s2 t2 u H2. constructor. exact H2.
  - destruct (HEX c) as [h|]; [|constructor]. rewrite Eb. destruct (tk_base (sc_tok t1) <=? h); [constructor; apply b_fallback; exact H1|].
    destruct (tok_put c (sc_tok s1)) as [x|] eqn:Ex, (tok_put c (sc_tok t1)) as [y|] eqn:Ey; try contradiction; [|constructor].
    destruct Hp as [Hp _]. destruct (b_fields 1 _ _ Hp) as [_ [_ [_ [Eb2 [Ev2 _]]]]]. cbn [set_tok sc_tok] in Eb2, Ev2. rewrite Eb2, Ev2.
    apply b_incpos in Hp. apply (b_value (u64 (tk_value y * tk_base y + h))) in Hp.
    eapply orel_bind; [apply b_skip; exact Hp|]. intros s2 t2 u H2. apply IH. exact H2.
Qed.
Lemma b_numericBase : forall s t, brel s t -> oreq (parseNumericBaseEntity rops cfg s) (parseNumericBaseEntity rops cfg t).
Proof.
  intros s t H. unfold parseNumericBaseEntity. apply (b_id TParsingNumericBaseEntity) in H.
  destruct (b_fields 0 _ _ H) as [_ [_ [-> _]]]. apply b_numBaseLoop. exact H.
Qed.
Lemma b_numeric : forall s t, brel s t -> oreq (parseNumericEntity rops cfg s) (parseNumericEntity rops cfg t).
Proof.
  intros s t H. unfold parseNumericEntity. eapply orel_bind; [apply b_ascii; apply b_id; exact H|]. intros s1 t1 c H1. destruct (c =? 120).
  - eapply orel_bind; [apply b_skip; apply b_base; exact H1|]. intros s2 t2 u H2. apply b_numericBase. exact H2.
  - apply b_numericBase. apply b_base. exact H1.
Qed.
Lemma b_namedLoop : forall k s t c, brel s t -> oreq (namedLoop rops k s c) (namedLoop rops k t c).
Proof.
  induction k as [|k IH]; intros s t c H; cbn [namedLoop]; [constructor; exact H|]. destruct (c =? 59); [constructor; exact H|].
  eapply orel_bind; [apply b_control; exact H|]. intros s1 t1 cc H1. destruct (ctl_eqb cc CAny); [|constructor; exact H1].
  pose proof (b_put c _ _ H1) as Hp. destruct (tok_put c (sc_tok s1)) as [x|], (tok_put c (sc_tok t1)) as [y|]; try contradiction; [|constructor].
  destruct Hp as [Hp _]. eapply orel_bind; [eapply orel_weaken; [apply b_skip; exact Hp| |apply br_weak]; intros ? ? G; exact G|]. intros s2 t2 u H2.
  eapply orel_bind; [apply b_ascii; apply b_incpos; exact H2|]. intros s3 t3 c3 H3. apply IH. exact H3.
Qed.
Lemma b_pushEntity : forall s t, brelk 1 s t -> nth_error (tk_buf (sc_tok s)) (tk_pos (sc_tok s)) = Some 0 -> (tk_pos (sc_tok s) < 16)%nat ->
  brelk 1 (fst (pushEntity cfg s)) (fst (pushEntity cfg t)) /\ snd (pushEntity cfg s) = snd (pushEntity cfg t).
Proof.
  intros s t H Hz Hp. unfold pushEntity. assert (E : predefined (tk_buf (sc_tok s)) = predefined (tk_buf (sc_tok t))).
  { destruct H as [st er r ob ob' tp id cr pos base v b b' HW H1 H2 H3]. cbn [sc_tok tk_buf tk_pos] in *. rewrite Nat.add_1_r in H3. eapply predefined_prefix; eauto. }
  rewrite E. clear E. destruct (predefined (tk_buf (sc_tok t))) as [c|]; [split; [apply b_push; exact H|reflexivity]|].
  assert (Herr : brelk 1 (set_err ErrUndefinedCharacterEntity s) (set_err ErrUndefinedCharacterEntity t)) by (destruct H; constructor; auto).
  destruct (cf_map cfg) as [m|]; [|split; [exact Herr|reflexivity]]. destruct (map_find m (cf_bufaddr cfg)) as [c|]; split; try reflexivity; [apply b_push; exact H|exact Herr].
Qed.
Lemma b_named : forall s t, brel s t -> oreq (parseNamedEntity rops cfg s) (parseNamedEntity rops cfg t).
Proof.
  intros s t H. unfold parseNamedEntity. eapply orel_bind; [apply b_ascii; apply b_id; exact H|]. intros s1 t1 c H1.
  destruct (b_fields 0 _ _ H1) as [_ [_ [-> _]]]. eapply orel_bind; [apply b_namedLoop; exact H1|]. intros s2 t2 c2 H2.
  destruct (c2 =? 59); [|constructor; apply b_fallback; exact H2].
  pose proof (b_put 0 _ _ H2) as Hp. destruct (tok_put 0 (sc_tok s2)) as [x|], (tok_put 0 (sc_tok t2)) as [y|]; try contradiction; [|constructor].
  destruct Hp as [Hp [Hz Hl]]. destruct (b_pushEntity _ _ Hp Hz Hl) as [Q1 Q2].
  destruct (pushEntity cfg (set_tok x s2)) as [s3 ok], (pushEntity cfg (set_tok y t2)) as [t3 ok']. cbn [fst snd] in *. subst ok'. destruct ok.
  - eapply orel_bind; [apply b_skip; eapply b_init; exact Q1|]. intros s4 t4 u H4. constructor. exact H4.
  - constructor. apply br_weak. exact Q1.
Qed.
Lemma b_entity : forall s t, brel s t -> oreq (parseEntity rops cfg s) (parseEntity rops cfg t).
Proof.
  intros s t H. unfold parseEntity. eapply orel_bind; [apply b_ascii; apply b_id; exact H|]. intros s1 t1 c H1. destruct (c =? 35); [|apply b_named; exact H1].
  eapply orel_bind; [apply b_skip; exact H1|]. intros s2 t2 u H2. apply b_numeric. exact H2.
Qed.
Lemma b_recover : forall s t, brel s t -> oreq (parseTokenRecover rops cfg s) (parseTokenRecover rops cfg t).
Proof.
  intros s t H. unfold parseTokenRecover. destruct (b_fields 0 _ _ H) as [-> _].
  assert (Hf : forall x y, oreq x y -> oreq (let! (s1, rt) := x in Ret (upd_tok (tok_init TParsingToken) s1) rt : out scn bool)
                                        (let! (s1, rt) := y in Ret (upd_tok (tok_init TParsingToken) s1) rt)).
  { intros x y Hx. eapply orel_bind; [exact Hx|]. intros s1 t1 a H1. constructor. eapply b_init. exact H1. }
  assert (He : brel (set_err ErrInternal s) (set_err ErrInternal t)) by (destruct H; constructor; auto).
  destruct (tk_id (sc_tok t)); try (constructor; exact He); apply Hf;
    [apply b_entity|apply b_numeric|apply b_numericBase|apply b_named]; exact H.
Qed.
Lemma b_tokenChar : forall s t, brel s t -> oreq (tokenChar rops cfg s) (tokenChar rops cfg t).
Proof.
  intros s t H. unfold tokenChar. eapply orel_bind; [apply b_ascii; exact H|]. intros s1 t1 c H1. destruct (c =? 13); [constructor; apply b_cr; apply b_push; exact H1|].
  destruct (c =? 10).
  - destruct (b_fields 0 _ _ H1) as [_ [-> _]]. constructor. apply b_cr. destruct (tk_cr (sc_tok t1)); [exact H1|apply b_push; exact H1].
  - eapply orel_bind; [apply b_copychar; exact H1|]. intros s2 t2 u H2. constructor. apply b_cr. exact H2.
Qed.
Lemma b_tokenLoop : forall f it s t, brel s t -> oreq (parseTokenLoop rops cfg f it s) (parseTokenLoop rops cfg f it t).
Proof.
  induction f as [|f IH]; intros it s t H; cbn [parseTokenLoop]; [constructor|].
  eapply orel_bind; [apply b_control; exact H|]. intros s1 t1 c H1. destruct (isTokAt it c) as [[|]|]; [| |constructor].
  - eapply orel_bind; [apply b_tokenChar; exact H1|]. intros s2 t2 u H2. eapply orel_bind; [apply b_skip; exact H2|]. intros s3 t3 u3 H3. apply IH. exact H3.
  - destruct (ctl_eqb c CAmp); [|constructor; eapply b_init; exact H1].
    eapply orel_bind; [apply b_skip; exact H1|]. intros s2 t2 u H2. eapply orel_bind; [apply b_entity; exact H2|]. intros s3 t3 ok H3.
    destruct ok; [apply IH; eapply b_init; exact H3|constructor; eapply b_init; exact H3].
Qed.
Lemma b_token : forall f it s t, brel s t -> oreq (parseToken rops cfg f it s) (parseToken rops cfg f it t).
Proof.
  intros f it s t H. unfold parseToken. destruct (b_fields 0 _ _ H) as [-> _].
  assert (Hr : oreq (let! (s1, ok) := parseTokenRecover rops cfg s in if ok then parseTokenLoop rops cfg f it s1 else Ret (upd_tok (tok_init TStart) s1) false)
                    (let! (s1, ok) := parseTokenRecover rops cfg t in if ok then parseTokenLoop rops cfg f it s1 else Ret (upd_tok (tok_init TStart) s1) false)).
  { eapply orel_bind; [apply b_recover; exact H|]. intros s1 t1 ok H1. destruct ok; [apply b_tokenLoop; exact H1|constructor; eapply b_init; exact H1]. }
  destruct (tk_id (sc_tok t)); try exact Hr; apply b_tokenLoop; [|exact H].
  destruct H. cbn [sc_src]. constructor; auto.
Qed.
Lemma b_skipToken : forall f it s t, brel s t -> oreq (skipTokenLoop rops f it s) (skipTokenLoop rops f it t).
Proof.
  induction f as [|f IH]; intros it s t H; cbn [skipTokenLoop]; [constructor|].
  eapply orel_bind; [apply b_control; exact H|]. intros s1 t1 c H1. destruct (isTokAt it c) as [b|]; [|constructor]. destruct (b || ctl_eqb c CAmp).
  - eapply orel_bind; [apply b_skip; exact H1|]. intros s2 t2 u H2. apply IH. exact H2.
  - eapply orel_bind; [apply b_control; exact H1|]. intros s2 t2 c2 H2. destruct (ctl_eqb c2 CAny); [apply IH; exact H2|constructor; exact H2].
Qed.
(** expectStr increments the position without storing characters *)
Inductive erel : scn -> scn -> Prop :=
| er_i : forall st er r ob ob' tp id cr pos base v b b', W ob ob' -> length b = 16%nat -> length b' = 16%nat ->
    erel (mkSc st er r ob tp (mkTok id cr pos base v b)) (mkSc st er r ob' tp (mkTok id cr pos base v b')).
Lemma e_src : forall {A} (m : R -> out R A) s t, erel s t -> orel erel erel (on_src m s) (on_src m t).
Proof. intros A m s t H. destruct H. unfold on_src. cbn [sc_src]. destruct (m r); cbn [omap]; constructor; constructor; auto. Qed.
Lemma e_expect : forall l s t, erel s t -> orel brel erel (expectLoop rops l s) (expectLoop rops l t).
Proof.
  induction l as [|x l IH]; intros s t H; cbn [expectLoop].
  - constructor. destruct H. constructor; auto.
  - eapply orel_bind; [apply (e_src (r_ascii rops)); exact H|]. intros s1 t1 c H1. destruct (c =? x).
    + eapply orel_bind; [apply (e_src (r_skip rops)); exact H1|]. intros s2 t2 u H2. apply IH. destruct H2. constructor; auto.
    + eapply orel_bind; [apply (e_src (r_control rops)); exact H1|]. intros s2 t2 u H2. constructor. destruct H2. constructor; auto.
Qed.
Lemma b_erel : forall s t, brel s t -> erel s t.
Proof. intros s t H. destruct H. constructor; auto. Qed.
Notation ore := (orel brel erel).
Lemma or_e : forall A (x y : out scn A), oreq x y -> ore x y.
Proof. intros A x y H. eapply orel_weaken; [exact H|auto|apply b_erel]. Qed.

Lemma b_expectStr : forall k s t, brel s t -> ore (expectStr rops k s) (expectStr rops k t).
Proof.
  intros k s t H. unfold expectStr. apply (b_id TParsingKey) in H. destruct (b_fields 0 _ _ H) as [_ [_ [-> _]]]. destruct (Nat.leb _ _); [|constructor]. apply e_expect. apply b_erel. exact H.
Qed.
Lemma b_action : forall f mask a arg s t, brel s t -> ore (doAction rops cfg f mask a arg s) (doAction rops cfg f mask a arg t).
Proof.
  intros f mask a arg s t H. unfold doAction. destruct (b_fields 0 _ _ H) as [Ei _]. rewrite Ei. destruct (tokenDef a) as [it|].
  - apply or_e.
    assert (Hn : oreq (let! (s1, ok) := (if N.testbit mask (etype_idx arg) then parseToken rops cfg f it s else skipTokenLoop rops f it s) in if ok then Ret s1 (inl arg) else Ret s1 (inr tt))
                      (let! (s1, ok) := (if N.testbit mask (etype_idx arg) then parseToken rops cfg f it t else skipTokenLoop rops f it t) in if ok then Ret s1 (inl arg) else Ret s1 (inr tt))).
    { eapply orel_bind; [destruct (N.testbit mask (etype_idx arg)); [apply b_token; exact H|apply b_skipToken; exact H]|]. intros s1 t1 ok H1. destruct ok; constructor; exact H1. }
    destruct (tk_id (sc_tok t)); try exact Hn. constructor. exact H.
  - destruct (stringDef a) as [k|].
    + assert (Hn : ore (let! (s1, ok) := expectStr rops k s in if ok then match a with ExpectIdentifierXML => Ret (push cfg 108 (push cfg 109 (push cfg 120 (push cfg 63 s1)))) (inl EHeaderStart) | _ => Ret s1 (inl ENone) end else Ret s1 (inr tt))
                       (let! (s1, ok) := expectStr rops k t in if ok then match a with ExpectIdentifierXML => Ret (push cfg 108 (push cfg 109 (push cfg 120 (push cfg 63 s1)))) (inl EHeaderStart) | _ => Ret s1 (inl ENone) end else Ret s1 (inr tt))).
      { eapply orel_bind; [apply b_expectStr; exact H|]. intros s1 t1 ok H1. destruct ok; [|constructor; exact H1]. destruct a; constructor; repeat apply b_push; exact H1. }
      destruct (tk_id (sc_tok t)); try exact Hn. constructor. exact H.
    + constructor. destruct H. constructor; auto.
Qed.
Lemma b_transition : forall e c s t, brel s t -> ore (transition rops e c s) (transition rops e c t).
Proof.
  intros e c s t H. unfold transition. destruct (nth_error (el_next e) (ctl_idx c)) as [[ns|]|]; [| |constructor].
  - eapply orel_bind; [apply or_e; apply b_skip; destruct H; constructor; auto|]. intros s1 t1 u H1. constructor. exact H1.
  - destruct (el_fallback e); [constructor; destruct H; constructor; auto|]. destruct (el_miss e); constructor; destruct H; constructor; auto.
Qed.
Lemma b_nextItem : forall f mask s t, brel s t -> ore (nextItem rops cfg f mask s) (nextItem rops cfg f mask t).
Proof.
  induction f as [|f IH]; intros mask s t H; cbn [nextItem]; [constructor|]. destruct (b_fields 0 _ _ H) as [_ [_ [_ [_ [_ [-> _]]]]]].
  destruct (stm_get (sc_state t)) as [e|]; [|constructor]. eapply orel_bind with (RR := brel).
  - destruct (el_action e) as [[a arg]|]; [|constructor; exact H]. eapply orel_bind; [apply b_action; exact H|]. intros s1 t1 r H1. destruct r as [rt|]; [|constructor; exact H1].
    destruct (Nat.eqb (el_nofnext e) 0); [|constructor; exact H1]. constructor. destruct (el_fallback e); [destruct H1; constructor; auto|exact H1].
  - intros s1 t1 r H1. destruct (snd r); [constructor; exact H1|]. eapply orel_bind; [apply or_e; apply b_control; exact H1|]. intros s2 t2 c H2.
    eapply orel_bind; [apply b_transition; apply b_id; exact H2|]. intros s3 t3 ok H3. destruct ok; [|constructor; exact H3]. destruct (isNone (fst r)); [apply IH; exact H3|constructor; exact H3].
Qed.
End Changed.

(** ** The relation of texts *)
Section ChangedFacts.
Context (P Q : list N -> Prop).
Notation W := (changed P Q).
Lemma ch_trans a b c : W a b -> W b c -> W a c.
Proof.
  intros H1 H2. revert H1. induction H2 as [b|b x p y H2 IH Hp|b x q y H2 IH Hq]; intro H1; [exact H1| |].
  - apply ch_insert; auto.
  - eapply ch_leave; eauto.
Qed.
Lemma ch_add a b u : W a b -> W (a ++ u) (b ++ u).
Proof.
  intro H. induction H as [a|a x p y H IH Hp|a x q y H IH Hq]; [constructor| |].
  - rewrite <- !app_assoc in *. apply ch_insert; assumption.
  - rewrite <- !app_assoc in *. eapply ch_leave; eassumption.
Qed.
Lemma ch_more a b p : p = [] \/ P p -> W a b -> W a (b ++ p).
Proof. intros [-> |Hp] H; [rewrite app_nil_r; exact H|]. rewrite <- (app_nil_r (b ++ p)), <- app_assoc. apply ch_insert; [rewrite app_nil_r; exact H|exact Hp]. Qed.
Lemma ch_less a b q : Q q -> W a b -> W (a ++ q) b.
Proof. intros Hq H. rewrite <- (app_nil_r b). apply (ch_leave P Q (a ++ q) b q []); [|exact Hq]. rewrite app_nil_r. apply ch_add. exact H. Qed.
Lemma ch_none a b : (forall p, ~ P p) -> (forall q, ~ Q q) -> W a b -> b = a.
Proof. intros HP HQ H. induction H as [a|a x p y H IH Hp|a x q y H IH Hq]; [reflexivity|destruct (HP _ Hp)|destruct (HQ _ Hq)]. Qed.
End ChangedFacts.

(** ** Bytes put *)
Section Put.
Context {R : Type}.
Lemma put_out : forall l (s : scanner R) a,
  (exists a1, f_put l (s, a) = Ret (set_obuf (sc_obuf s ++ l) s, a1) tt /\ (refusals a1 <= refusals a)%nat) \/
  (exists a1 p r, f_put l (s, a) = Throw (set_obuf (sc_obuf s ++ p) s, a1) /\ (refusals a1 < refusals a)%nat /\ l = p ++ r /\ r <> []).
Proof.
  assert (E0 : forall s : scanner R, set_obuf (sc_obuf s ++ []) s = s) by (intros []; cbn; rewrite app_nil_r; reflexivity).
  induction l as [|b l IH]; intros s a; cbn [f_put fst snd].
  - left. exists a. rewrite E0. split; [reflexivity|apply le_n].
  - assert (E1 : forall q, set_obuf (sc_obuf (set_obuf (sc_obuf s ++ [b]) s) ++ q) (set_obuf (sc_obuf s ++ [b]) s) = set_obuf (sc_obuf s ++ b :: q) s) by (intro q; cbn; rewrite <- app_assoc; reflexivity).
    destruct a as [|[|] a].
    + destruct (IH (set_obuf (sc_obuf s ++ [b]) s) []) as [(a1 & E & H)|(a1 & p & r & E & H & El & Hr)]; rewrite E, E1.
      * left. exists a1. split; [reflexivity|exact H].
      * right. exists a1, (b :: p), r. split; [reflexivity|]. split; [exact H|]. split; [rewrite El; reflexivity|exact Hr].
    + destruct (IH (set_obuf (sc_obuf s ++ [b]) s) a) as [(a1 & E & H)|(a1 & p & r & E & H & El & Hr)]; rewrite E, E1.
      * left. exists a1. split; [reflexivity|]. unfold refusals in *. cbn [filter negb]. exact H.
      * right. exists a1, (b :: p), r. split; [reflexivity|]. split; [unfold refusals in *; cbn [filter negb]; exact H|]. split; [rewrite El; reflexivity|exact Hr].
    + right. exists a, [], (b :: l). rewrite E0. split; [reflexivity|]. split; [unfold refusals; cbn [filter negb length]; apply le_n|]. split; [reflexivity|discriminate].
Qed.
Lemma put_app : forall l1 l2 (x : fscn (R := R)), f_put (l1 ++ l2) x = let! (x, _) := f_put l1 x in f_put l2 x.
Proof.
  induction l1 as [|b l1 IH]; intros l2 x; [reflexivity|]. cbn [app f_put]. destruct (snd x) as [|[|] a]; [apply IH|apply IH|reflexivity].
Qed.
Lemma pushes_put : forall cfg l (x : fscn (R := R)), f_pushes cfg l x = f_put (printed (cf_out cfg) l) x.
Proof. intros cfg. induction l as [|c l IH]; intro x; [reflexivity|]. cbn [f_pushes]. unfold printed. cbn [map concat]. rewrite put_app. unfold f_push. destruct (f_put (cs_print (cf_out cfg) c) x); cbn [bind]; try reflexivity. apply IH. Qed.
Lemma pushes_ob : forall cfg l (t : scanner R), pushes cfg l t = set_obuf (sc_obuf t ++ printed (cf_out cfg) l) t.
Proof.
  intros cfg. induction l as [|c l IH]; intro t; cbn [pushes].
  - destruct t. cbn. rewrite app_nil_r. reflexivity.
  - rewrite IH. unfold push, printed. cbn. rewrite <- app_assoc. reflexivity.
Qed.
(** the characters of fallbackEntity *)
Definition fbc (tk : tokstate) : list N :=
  match tk_id tk with
  | TParsingEntity => [38]
  | TParsingNumericEntity => [38; 35]
  | TParsingNumericBaseEntity => 38 :: 35 :: tokchars tk
  | TParsingNamedEntity => 38 :: tokchars tk
  | _ => []
  end.
Lemma fallback_put : forall cfg (x : fscn (R := R)), f_fallback cfg x = f_put (printed (cf_out cfg) (fbc (sc_tok (fst x)))) x.
Proof.
  intros cfg x. unfold f_fallback, fbc. destruct (tk_id (sc_tok (fst x))); try (rewrite pushes_put; reflexivity); try reflexivity.
  unfold f_push, printed. cbn [map concat]. rewrite app_nil_r. reflexivity.
Qed.
Lemma fallback_ob : forall cfg (t : scanner R), fallbackEntity cfg t = set_obuf (sc_obuf t ++ printed (cf_out cfg) (fbc (sc_tok t))) t.
Proof.
  intros cfg t. assert (E : fallbackEntity cfg t = pushes cfg (fbc (sc_tok t)) t) by (unfold fallbackEntity, fbc; destruct (tk_id (sc_tok t)); reflexivity).
  rewrite E. apply pushes_ob.
Qed.
End Put.

(** ** The scanner with refused bytes and repeated calls against the scanner without *)
Section Again.
Context {R : Type} (o1 : readerops R) (e0 : uchr) (cfg : config) (prel : N -> N -> Prop) (rel relp relj : R -> urd -> Prop).
Hypothesis Hsim : rsim prel o1 (ur_ops e0) rel relp relj.
Notation o2 := (ur_ops e0).
Notation out1 := (cf_out cfg).
Context (P Q : list N -> Prop) (G : uchr -> Prop) (AOK QOK : Prop).
Notation W := (changed P Q).
(** what can be left of [u] in the buffer can be inserted *)
Definition okp (u : list N) : Prop := forall p r, u = p ++ r -> r <> [] -> p = [] \/ P p.
Hypothesis He0 : ctl_of (u_asc e0) = CEndOfText.
Hypothesis HG1 : forall e, G e -> okp (if cf_raw cfg then u_raw e else cs_print out1 (u_val e)).
Hypothesis HG2 : forall e, G e -> ctl_of (u_asc e) = CAmp -> AOK.
Hypothesis HG3 : forall e, G e -> ctl_of (u_asc e) = CQuestm -> QOK.
Hypothesis H10 : okp (cs_print out1 10).
Hypothesis HA1 : AOK -> forall c, okp (cs_print out1 c).
Hypothesis HA2 : AOK -> forall l, (length l <= 17)%nat -> okp (printed out1 (38 :: l)).
Hypothesis HA3 : AOK -> P (cs_print out1 59).
Hypothesis HQ : QOK -> forall p q, q <> [] -> printed out1 (str "?xml") = p ++ q -> Q q.

(** *** The reader of characters *)
Definition ctlc (t : scanner urd) : ctl := ctl_of (u_asc (ucur e0 (sc_src t))).
Definition ascc (t : scanner urd) : N := asc_of (u_asc (ucur e0 (sc_src t))).
Definition nx (t : scanner urd) : scanner urd := set_src t (mkUr (tl (ur_l (sc_src t))) (ur_p (sc_src t) + u_len (ucur e0 (sc_src t)))).
Lemma src_id : forall t : scanner urd, set_src t (sc_src t) = t. Proof. intros []. reflexivity. Qed.
Lemma u_control t : sc_control o2 t = Ret t (ctlc t). Proof. unfold sc_control, on_src. cbn [r_control ur_ops omap]. rewrite src_id. reflexivity. Qed.
Lemma u_ascii t : sc_ascii o2 t = Ret t (ascc t). Proof. unfold sc_ascii, on_src. cbn [r_ascii ur_ops omap]. rewrite src_id. reflexivity. Qed.
Lemma u_chr t : sc_chr o2 t = Ret t (u_val (ucur e0 (sc_src t))). Proof. unfold sc_chr, on_src. cbn [r_chr ur_ops omap]. rewrite src_id. reflexivity. Qed.
Lemma u_rawb t : sc_raw o2 t = Ret t (u_raw (ucur e0 (sc_src t))). Proof. unfold sc_raw, on_src. cbn [r_raw ur_ops omap]. rewrite src_id. reflexivity. Qed.
Lemma u_skip t : sc_skip o2 t = Ret (nx t) tt. Proof. reflexivity. Qed.

Inductive rl (rx : R -> urd -> Prop) : scanner R -> scanner urd -> Prop :=
| rl_i st er r t ob ob' tp tp' tk : prel tp' tp -> rx r t -> W ob ob' -> length (tk_buf tk) = 16%nat -> Forall G (ur_l t) -> rl rx (mkSc st er r ob' tp' tk) (mkSc st er t ob tp tk).
Lemma rl_weak s t : rl relp s t -> rl rel s t.
Proof. intro H. destruct H. constructor; auto. apply (rs_weak _ _ _ _ _ _ Hsim). assumption. Qed.
Lemma rl_tokeq rx s t : rl rx s t -> sc_tok s = sc_tok t /\ sc_state s = sc_state t /\ length (tk_buf (sc_tok t)) = 16%nat /\ Forall G (ur_l (sc_src t)).
Proof. intro H. destruct H. cbn. auto. Qed.
Lemma rl_tok rx f s t : (forall k, length (tk_buf (f k)) = length (tk_buf k)) -> rl rx s t -> rl rx (upd_tok f s) (upd_tok f t).
Proof. intros Hf H. destruct H. constructor; auto. cbn. rewrite Hf. assumption. Qed.
Lemma rl_settok rx k s t : length (tk_buf k) = 16%nat -> rl rx s t -> rl rx (set_tok k s) (set_tok k t).
Proof. intros Hk H. destruct H. constructor; auto. Qed.
Lemma rl_err rx e s t : rl rx s t -> rl rx (set_err e s) (set_err e t). Proof. intro H. destruct H. constructor; auto. Qed.
Lemma rl_state rx e s t : rl rx s t -> rl rx (set_state e s) (set_state e t). Proof. intro H. destruct H. constructor; auto. Qed.
Lemma rl_add rx u s t : rl rx s t -> rl rx (set_obuf (sc_obuf s ++ u) s) (set_obuf (sc_obuf t ++ u) t).
Proof. intro H. destruct H. constructor; auto. cbn [sc_obuf]. apply ch_add. assumption. Qed.
Lemma rl_more rx p s t : p = [] \/ P p -> rl rx s t -> rl rx (set_obuf (sc_obuf s ++ p) s) t.
Proof. intros Hp H. destruct H. constructor; auto. cbn [sc_obuf]. apply ch_more; assumption. Qed.
Lemma rl_start s t : rl rel s t -> rl rel (set_obuf [] (set_tokpos (r_pos o1 (sc_src s)) s)) (set_obuf [] (set_tokpos (r_pos o2 (sc_src t)) t)).
Proof. intro H. destruct H as [st er r t ob ob' tp tp' tk Hp Hr]. cbn [sc_src]. constructor; auto; [|constructor]. apply (rs_pos _ _ _ _ _ _ Hsim _ _ Hr). Qed.

Ltac peek H := intro H; destruct H as [st er r t ob ob' tp tp' tk HP Hr HW Hl HF]; unfold on_src; cbn [sc_src].
Lemma p_control s t : rl rel s t -> exists s1, sc_control o1 s = Ret s1 (ctlc t) /\ rl relp s1 t.
Proof. unfold sc_control. peek H. pose proof (rs_control _ _ _ _ _ _ Hsim _ _ Hr) as K. cbn [r_control ur_ops] in K. inversion K as [r1 t1 c Hp E1 E2| | | |]; subst. eexists. split; [reflexivity|]. constructor; auto. Qed.
Lemma p_ascii s t : rl rel s t -> exists s1, sc_ascii o1 s = Ret s1 (ascc t) /\ rl relp s1 t.
Proof. unfold sc_ascii. peek H. pose proof (rs_ascii _ _ _ _ _ _ Hsim _ _ Hr) as K. cbn [r_ascii ur_ops] in K. inversion K as [r1 t1 c Hp E1 E2| | | |]; subst. eexists. split; [reflexivity|]. constructor; auto. Qed.
Lemma p_chr s t : rl rel s t -> exists s1, sc_chr o1 s = Ret s1 (u_val (ucur e0 (sc_src t))) /\ rl relp s1 t.
Proof. unfold sc_chr. peek H. pose proof (rs_chr _ _ _ _ _ _ Hsim _ _ Hr) as K. cbn [r_chr ur_ops] in K. inversion K as [r1 t1 c Hp E1 E2| | | |]; subst. eexists. split; [reflexivity|]. constructor; auto. Qed.
Lemma p_raw s t : rl relp s t -> exists s1, sc_raw o1 s = Ret s1 (u_raw (ucur e0 (sc_src t))) /\ rl relp s1 t.
Proof. unfold sc_raw. peek H. pose proof (rs_raw _ _ _ _ _ _ Hsim _ _ Hr) as K. cbn [r_raw ur_ops] in K. inversion K as [r1 t1 c Hp E1 E2| | | |]; subst. eexists. split; [reflexivity|]. constructor; auto. Qed.
Lemma p_skip s t : rl relp s t -> exists s1, sc_skip o1 s = Ret s1 tt /\ rl rel s1 (nx t).
Proof.
  unfold sc_skip. peek H. pose proof (rs_skip _ _ _ _ _ _ Hsim _ _ Hr) as K. cbn [r_skip ur_ops] in K. inversion K as [r1 t1 c Hp E1 E2| | | |]; subst. eexists. split; [reflexivity|]. constructor; auto.
  cbn [ur_l sc_src ucur]. destruct (ur_l t); [constructor|]. inversion HF. assumption.
Qed.
Lemma lift_ret {A} (m : scanner R -> out (scanner R) A) s a s1 v : m s = Ret s1 v -> f_lift m (s, a) = Ret (s1, a) v.
Proof. intro E. unfold f_lift. cbn [fst snd]. rewrite E. reflexivity. Qed.

(** *** Outcomes *)
Inductive fout {A} (RR : scanner R -> scanner urd -> Prop) (TH : scanner R -> Prop) (a : list bool) : out (fscn (R := R)) A -> out (scanner urd) A -> Prop :=
| fo_ret s a' t v : RR s t -> (refusals a' <= refusals a)%nat -> fout RR TH a (Ret (s, a') v) (Ret t v)
| fo_throw s a' y : TH s -> (refusals a' < refusals a)%nat -> fout RR TH a (Throw (s, a')) y
| fo_undef : fout RR TH a Undef Undef
| fo_fuel : fout RR TH a Fuel Fuel.
Lemma fo_bind {A B} RR RR2 (TH TH2 : scanner R -> Prop) a x y (f : fscn -> A -> out fscn B) g :
  fout RR TH a x y -> (forall s a' t v, y = Ret t v -> RR s t -> (refusals a' <= refusals a)%nat -> fout RR2 TH2 a' (f (s, a') v) (g t v)) -> (forall s, TH s -> TH2 s) -> fout RR2 TH2 a (bind x f) (bind y g).
Proof.
  intros H K T. destruct H as [s a' t v H L|s a' y H L| |]; cbn [bind].
  - specialize (K s a' t v eq_refl H L). destruct K as [s2 a2 t2 v2 H2 L2|s2 a2 y2 H2 L2| |]; [apply fo_ret; [exact H2|lia]|apply fo_throw; [exact H2|lia]|constructor|constructor].
  - apply fo_throw; auto.
  - constructor.
  - constructor.
Qed.
Lemma fo_put rx u s t a : okp u -> rl rx s t -> fout (rl rx) (fun s' => rl rx s' t) a (f_put u (s, a)) (Ret (set_obuf (sc_obuf t ++ u) t) tt).
Proof.
  intros Hu H. destruct (put_out u s a) as [(a1 & -> & L)|(a1 & p & r & -> & L & E & Hr)].
  - apply fo_ret; [apply rl_add; exact H|exact L].
  - apply fo_throw; [|exact L]. apply rl_more; [|exact H]. eapply Hu; eauto.
Qed.
(** what appends nothing *)
Lemma fo_lift {A} RR TH (m : scanner R -> out (scanner R) A) s a y : orel RR (fun _ _ => False) (m s) y -> fout RR TH a (f_lift m (s, a)) y.
Proof. intro H. unfold f_lift. cbn [fst snd]. destruct H; cbn [omap]; try contradiction; constructor; auto. Qed.

(** *** References *)
Definition ent (i : tokid) : Prop := match i with TParsingEntity | TParsingNumericEntity | TParsingNumericBaseEntity | TParsingNamedEntity => True | _ => False end.
Definition fin (m : out (scanner urd) bool) : out (scanner urd) bool := let! (s1, rt) := m in Ret (upd_tok (tok_init TParsingToken) s1) rt.
Notation brel := (brelk W 0).
Notation erl := (erel W).
Notation rcv := (parseTokenRecover o2 cfg).
Lemma W00 : W [] []. Proof. constructor. Qed.
Lemma Wa : forall a b u, W a b -> W (a ++ u) (b ++ u). Proof. intros. apply ch_add. assumption. Qed.
Lemma brefl (t : scanner urd) : length (tk_buf (sc_tok t)) = 16%nat -> brel t t.
Proof. destruct t as [? ? ? ? ? []]. cbn. intro. constructor; auto. constructor. Qed.
Lemma B_recover s t : brel s t -> orel brel brel (rcv s) (rcv t).
Proof. intro H. apply b_recover; try exact W00; try exact Wa; assumption. Qed.
(** the exception leaves a state from which the rest of the reference is parsed to the same *)
Definition th_ent (st : stm) (y : out (scanner urd) bool) (s' : scanner R) : Prop :=
  exists t', rl rel s' t' /\ sc_state t' = st /\ ent (tk_id (sc_tok t')) /\ orel brel brel (fin y) (rcv t').
Lemma th_self y s' t : rl rel s' t -> ent (tk_id (sc_tok t)) -> fin y = rcv t -> th_ent (sc_state t) y s'.
Proof. intros H E Ey. exists t. split; [exact H|]. split; [reflexivity|]. split; [exact E|]. rewrite Ey. apply B_recover, brefl. destruct (rl_tokeq _ _ _ H) as (_ & _ & L & _). exact L. Qed.
Lemma x_fallback rx (TH : scanner R -> Prop) s t a : AOK -> rl rx s t -> ent (tk_id (sc_tok t)) -> (forall s', rl rx s' t -> TH s') -> fout (rl rx) TH a (f_fallback_true cfg (s, a)) (Ret (fallbackEntity cfg t) true).
Proof.
  intros HA H E T. unfold f_fallback_true. rewrite fallback_put, fallback_ob. cbn [fst]. destruct (rl_tokeq _ _ _ H) as (-> & _ & Lb & _).
  assert (Lc : (length (tokchars (sc_tok t)) <= 16)%nat) by (unfold tokchars; rewrite map_length, firstn_length; lia).
  destruct (put_out (printed out1 (fbc (sc_tok t))) s a) as [(a1 & -> & L)|(a1 & p & r & -> & L & E1 & Hr)]; cbn [bind].
  - apply fo_ret; [apply rl_add; exact H|exact L].
  - apply fo_throw; [|exact L]. apply T. apply rl_more; [|exact H]. unfold fbc in E1. destruct (tk_id (sc_tok t)); try contradiction; (eapply (HA2 HA); [|exact E1|exact Hr]; cbn [length]; lia).
Qed.
Lemma fo_weak {A} (RR RR2 : scanner R -> scanner urd -> Prop) (TH TH2 : scanner R -> Prop) a (x : out fscn A) y : fout RR TH a x y -> (forall s t, RR s t -> RR2 s t) -> (forall s, TH s -> TH2 s) -> fout RR2 TH2 a x y.
Proof. intros H A1 A2. destruct H; constructor; auto. Qed.
Lemma self_id (t : scanner urd) i : tk_id (sc_tok t) = i -> upd_tok (tok_id i) t = t.
Proof. destruct t as [? ? ? ? ? []]. cbn. intros <-. reflexivity. Qed.
Lemma nb_recover t : tk_id (sc_tok t) = TParsingNumericBaseEntity -> rcv t = fin (numBaseLoop o2 cfg (16 - tk_pos (sc_tok t)) t).
Proof. intro E. unfold parseTokenRecover. rewrite E. unfold parseNumericBaseEntity. rewrite (self_id _ _ E). reflexivity. Qed.
Lemma nm_recover t : tk_id (sc_tok t) = TParsingNamedEntity -> rcv t = fin (parseNamedEntity o2 cfg t).
Proof. intro E. unfold parseTokenRecover. rewrite E. reflexivity. Qed.
Lemma rl_tinit rx i s t : rl rx s t -> rl rx (upd_tok (tok_init i) s) (upd_tok (tok_init i) t). Proof. apply rl_tok. reflexivity. Qed.
Lemma rl_tid rx i s t : rl rx s t -> rl rx (upd_tok (tok_id i) s) (upd_tok (tok_id i) t). Proof. apply rl_tok. reflexivity. Qed.
Lemma put16 c k k' : tok_put c k = Some k' -> length (tk_buf k) = 16%nat -> length (tk_buf k') = 16%nat /\ tk_id k' = tk_id k /\ tk_pos k' = tk_pos k /\ tk_base k' = tk_base k /\ tk_value k' = tk_value k /\ (tk_pos k < 16)%nat /\ tk_buf k' = upd (tk_pos k) c (tk_buf k).
Proof. unfold tok_put. destruct (Nat.ltb_spec (tk_pos k) 16); [|discriminate]. intros E L. injection E as <-. cbn. rewrite length_upd. auto 10. Qed.
Lemma firstn_upd (l : list N) : forall n c, (n < length l)%nat -> firstn (S n) (upd n c l) = firstn n l ++ [c].
Proof. induction l as [|x l IH]; intros [|n] c H; cbn in *; try lia; [reflexivity|]. f_equal. apply IH. lia. Qed.

Lemma x_numBase : AOK -> forall k s t a y, rl rel s t -> tk_id (sc_tok t) = TParsingNumericBaseEntity -> k = (16 - tk_pos (sc_tok t))%nat -> y = numBaseLoop o2 cfg k t ->
  fout (rl rel) (th_ent (sc_state t) y) a (f_numBaseLoop o1 cfg k (s, a)) y.
Proof.
  intro HA. induction k as [|k IH]; intros s t a y H Hi Hk Hy.
  - cbn [f_numBaseLoop]. assert (Hr : fin y = rcv t) by (rewrite (nb_recover t Hi), Hy, <- Hk; reflexivity). assert (He : ent (tk_id (sc_tok t))) by (rewrite Hi; exact I).
    cbn [numBaseLoop] in Hy. rewrite Hy at 2. apply x_fallback; auto. intros s' Hs. apply th_self; auto.
  - assert (Hr : fin y = rcv t) by (rewrite (nb_recover t Hi), Hy, <- Hk; reflexivity). assert (He : ent (tk_id (sc_tok t))) by (rewrite Hi; exact I).
    destruct (p_ascii _ _ H) as (s1 & E1 & H1). cbn [f_numBaseLoop]. rewrite (lift_ret _ _ a _ _ E1). cbn [bind fst snd].
    cbn [numBaseLoop] in Hy. rewrite u_ascii in Hy. cbn [bind] in Hy. destruct (rl_tokeq _ _ _ H1) as (Et & Es & L16 & HG). rewrite Et.
    destruct (ascc t =? 59) eqn:E59.
    + destruct (0xFFFFFFFF <? tk_value (sc_tok t)) eqn:Ev.
      * destruct (tok_put (ascc t) (sc_tok t)) as [tk|] eqn:Ep; rewrite Hy; [|constructor]. unfold f_set. cbn [fst snd].
        destruct (put16 _ _ _ Ep L16) as (Lk & Ik & Pk & Bk & Vk & Lt & Uk).
        assert (H2 : rl relp (set_tok (tok_incpos tk) s1) (set_tok (tok_incpos tk) t)) by (apply rl_settok; [exact Lk|exact H1]).
        assert (He2 : ent (tk_id (sc_tok (set_tok (tok_incpos tk) t)))) by (cbn; rewrite Ik; exact He).
        eapply fo_weak; [apply (x_fallback relp (th_ent (sc_state t) (Ret (fallbackEntity cfg (set_tok (tok_incpos tk) t)) true)) _ _ a HA H2 He2)|apply rl_weak|auto].
        intros s' Hs. exists (set_tok (tok_incpos tk) t). split; [apply rl_weak; exact Hs|]. split; [reflexivity|]. split; [exact He2|].
        assert (I2 : tk_id (sc_tok (set_tok (tok_incpos tk) t)) = TParsingNumericBaseEntity) by (cbn; congruence).
        rewrite nb_recover by exact I2. cbn [set_tok sc_tok tok_incpos tk_pos]. rewrite Pk.
        destruct (16 - S (tk_pos (sc_tok t)))%nat as [|m] eqn:Em.
        -- cbn [numBaseLoop]. unfold fin. cbn [bind]. apply orel_ret. apply brefl. rewrite fallback_ob. exact Lk.
        -- cbn [numBaseLoop]. rewrite u_ascii. cbn [bind]. change (ascc (set_tok (tok_incpos tk) t)) with (ascc t). rewrite E59. cbn [set_tok sc_tok tok_incpos tk_value]. rewrite Vk, Ev.
           unfold tok_put at 1. cbn [tok_incpos tk_pos]. destruct (Nat.ltb_spec (S (tk_pos tk)) 16) as [Lq|Lq]; [|lia]. unfold fin. cbn [bind]. apply orel_ret.
           rewrite !fallback_ob. unfold fbc. cbn [set_tok sc_tok tok_incpos tk_id]. rewrite Ik, Hi. unfold tokchars. cbn [tok_incpos tk_pos tk_buf]. rewrite firstn_upd by lia. rewrite map_app. cbn [map].
           apply N.eqb_eq in E59. rewrite E59. change (uchar_of_char 59) with 59.
           change (38 :: 35 :: map uchar_of_char (firstn (S (tk_pos tk)) (tk_buf tk)) ++ [59]) with ((38 :: 35 :: map uchar_of_char (firstn (S (tk_pos tk)) (tk_buf tk))) ++ [59]).
           generalize (38 :: 35 :: map uchar_of_char (firstn (S (tk_pos tk)) (tk_buf tk))). intro l. unfold printed. rewrite map_app, concat_app. cbn [map concat]. rewrite app_nil_r.
           unfold upd_tok, set_tok, set_obuf, tok_init, tok_incpos. cbn [sc_state sc_err sc_src sc_obuf sc_tokpos sc_tok tk_buf]. constructor; [|exact Lk|rewrite length_upd; exact Lk|reflexivity].
           rewrite app_assoc. apply ch_more; [right; apply HA3; exact HA|constructor].
      * rewrite u_skip in Hy. cbn [bind] in Hy. unfold f_push. destruct (put_out (cs_print out1 (u32 (tk_value (sc_tok t)))) s1 a) as [(a1 & -> & L)|(a1 & p & r & -> & L & Ep & Hq)]; cbn [bind].
        -- unfold f_set. cbn [fst snd]. destruct (p_skip _ _ (rl_tinit relp TParsingToken _ _ (rl_add relp (cs_print out1 (u32 (tk_value (sc_tok t)))) _ _ H1))) as (s3 & E3 & H3).
           rewrite (lift_ret _ _ a1 _ _ E3). cbn [bind]. rewrite Hy. apply fo_ret; [exact H3|exact L].
        -- apply fo_throw; [|exact L]. apply th_self; auto. apply rl_weak, rl_more; [|exact H1]. eapply (HA1 HA); eauto.
    + destruct (HEX (ascc t)) as [h|]; [|rewrite Hy; constructor]. destruct (tk_base (sc_tok t) <=? h) eqn:Eb.
      * rewrite Hy at 2. eapply fo_weak; [apply (x_fallback relp (th_ent (sc_state t) y) _ _ a HA H1 He)|apply rl_weak|auto].
        intros s' Hs. apply th_self; auto. apply rl_weak. exact Hs.
      * destruct (tok_put (ascc t) (sc_tok t)) as [tk|] eqn:Ep; [|rewrite Hy; constructor]. destruct (put16 _ _ _ Ep L16) as (Lk & Ik & Pk & Bk & Vk & Lt & Uk).
        unfold f_set. cbn [fst snd]. rewrite u_skip in Hy. cbn [bind] in Hy.
        destruct (p_skip _ _ (rl_settok relp (tok_value (u64 (tk_value tk * tk_base tk + h)) (tok_incpos tk)) s1 t Lk H1)) as (s3 & E3 & H3).
        rewrite (lift_ret _ _ a _ _ E3). cbn [bind].
        eapply (IH s3 _ a y H3); [cbn; congruence|unfold nx; cbn [set_src set_tok sc_tok tok_value tok_incpos tk_pos]; lia|exact Hy].
Qed.
Lemma x_numericBase : AOK -> forall s t a y, rl rel s t -> y = parseNumericBaseEntity o2 cfg t -> fout (rl rel) (th_ent (sc_state t) y) a (f_numericBase o1 cfg (s, a)) y.
Proof.
  intros HA s t a y H Hy. unfold f_numericBase, f_set. cbn [fst snd]. pose proof (rl_tid rel TParsingNumericBaseEntity _ _ H) as H1. destruct (rl_tokeq _ _ _ H1) as (-> & _).
  apply (x_numBase HA _ _ (upd_tok (tok_id TParsingNumericBaseEntity) t) a y H1 eq_refl eq_refl Hy).
Qed.
Lemma x_numeric : AOK -> forall s t a y, rl rel s t -> y = parseNumericEntity o2 cfg t -> fout (rl rel) (th_ent (sc_state t) y) a (f_numeric o1 cfg (s, a)) y.
Proof.
  intros HA s t a y H Hy. unfold f_numeric. unfold f_set at 1. cbn [fst snd]. unfold parseNumericEntity in Hy. rewrite u_ascii in Hy. cbn [bind] in Hy.
  destruct (p_ascii _ _ (rl_tid rel TParsingNumericEntity _ _ H)) as (s1 & E1 & H1). rewrite (lift_ret _ _ a _ _ E1). cbn [bind].
  destruct (ascc (upd_tok (tok_id TParsingNumericEntity) t) =? 120).
  - rewrite u_skip in Hy. cbn [bind] in Hy. unfold f_set. cbn [fst snd]. destruct (p_skip _ _ (rl_tok relp (tok_base 16) _ _ (fun _ => eq_refl) H1)) as (s2 & E2 & H2). rewrite (lift_ret _ _ a _ _ E2). cbn [bind].
    exact (x_numericBase HA _ _ a y H2 Hy).
  - unfold f_set. cbn [fst snd]. exact (x_numericBase HA _ _ a y (rl_tok rel (tok_base 10) _ _ (fun _ => eq_refl) (rl_weak _ _ H1)) Hy).
Qed.
Lemma q_namedLoop : forall k s t c, rl relp s t -> orel (rl relp) (fun _ _ => False) (namedLoop o1 k s c) (namedLoop o2 k t c).
Proof.
  induction k as [|k IH]; intros s t c H; cbn [namedLoop]; [constructor; exact H|]. destruct (c =? 59); [constructor; exact H|].
  destruct (p_control _ _ (rl_weak _ _ H)) as (s1 & -> & H1). rewrite u_control. cbn [bind]. destruct (ctl_eqb (ctlc t) CAny); [|constructor; exact H1].
  destruct (rl_tokeq _ _ _ H1) as (-> & _ & L16 & _). destruct (tok_put c (sc_tok t)) as [tk|] eqn:Ep; [|constructor]. destruct (put16 _ _ _ Ep L16) as (Lk & _).
  destruct (p_skip _ _ (rl_settok relp tk _ _ Lk H1)) as (s2 & -> & H2). rewrite u_skip. cbn [bind].
  destruct (p_ascii _ _ (rl_tok rel tok_incpos _ _ (fun _ => eq_refl) H2)) as (s3 & -> & H3). rewrite u_ascii. cbn [bind]. apply IH. exact H3.
Qed.
(** once the loop has ended it ends at once *)
Lemma named_end : forall k t c t2 c2, namedLoop o2 k t c = Ret t2 c2 -> k = (15 - tk_pos (sc_tok t))%nat -> c = ascc t -> length (tk_buf (sc_tok t)) = 16%nat ->
  c2 = ascc t2 /\ tk_id (sc_tok t2) = tk_id (sc_tok t) /\ sc_state t2 = sc_state t /\ namedLoop o2 (15 - tk_pos (sc_tok t2)) t2 c2 = Ret t2 c2.
Proof.
  induction k as [|k IH]; intros t c t2 c2 E Hk Hc L; cbn [namedLoop] in E.
  - injection E as <- <-. rewrite <- Hk. auto.
  - destruct (c =? 59) eqn:E59.
    + injection E as <- <-. rewrite <- Hk. cbn [namedLoop]. rewrite E59. auto.
    + rewrite u_control in E. cbn [bind] in E. destruct (ctl_eqb (ctlc t) CAny) eqn:Ec.
      * destruct (tok_put c (sc_tok t)) as [tk|] eqn:Ep; [|discriminate E]. destruct (put16 _ _ _ Ep L) as (Lk & Ik & Pk & Bk & Vk & Lt & Uk).
        rewrite u_skip in E. cbn [bind] in E. rewrite u_ascii in E. cbn [bind] in E. destruct (IH _ _ _ _ E) as (A1 & A2 & A3 & A4); [unfold nx, upd_tok; cbn [set_src set_tok sc_tok tok_value tok_incpos tk_pos]; lia|reflexivity|exact Lk|].
        split; [exact A1|]. split; [rewrite A2; exact Ik|]. split; [rewrite A3; reflexivity|exact A4].
      * injection E as <- <-. rewrite <- Hk. cbn [namedLoop]. rewrite E59, u_control. cbn [bind]. rewrite Ec. auto.
Qed.
Lemma named_59 : forall k (t : scanner urd), namedLoop o2 k t 59 = Ret t 59. Proof. intros [|k] t; reflexivity. Qed.
Lemma upd_upd {A} (x y : A) : forall l i, upd i x (upd i y l) = upd i x l. Proof. induction l as [|z l IH]; intros [|i]; cbn; [reflexivity..|]. rewrite IH. reflexivity. Qed.
Lemma x_named : AOK -> forall s t a y, rl rel s t -> y = parseNamedEntity o2 cfg t -> fout (rl rel) (th_ent (sc_state t) y) a (f_named o1 cfg (s, a)) y.
Proof.
  intros HA s t a y H Hy. unfold f_named. unfold f_set at 1. cbn [fst snd]. unfold parseNamedEntity in Hy. rewrite u_ascii in Hy. cbn [bind] in Hy.
  destruct (p_ascii _ _ (rl_tid rel TParsingNamedEntity _ _ H)) as (s1 & E1 & H1). rewrite (lift_ret _ _ a _ _ E1). cbn [bind]. set (t1 := upd_tok (tok_id TParsingNamedEntity) t) in *.
  destruct (rl_tokeq _ _ _ H1) as (Et1 & _ & L16 & _).
  pose proof (q_namedLoop (15 - tk_pos (sc_tok t1)) _ _ (ascc t1) H1) as K. unfold f_lift at 1. cbn [fst snd]. rewrite Et1.
  destruct (namedLoop o1 (15 - tk_pos (sc_tok t1)) s1 (ascc t1)) as [s2 c2|s2|s2| |], (namedLoop o2 (15 - tk_pos (sc_tok t1)) t1 (ascc t1)) as [t2 c2'|t2|t2| |] eqn:En; inversion K; subst; try contradiction; cbn [omap bind]; try constructor.
  rename c2' into c2. match goal with [ HH : rl relp s2 t2 |- _ ] => rename HH into H2 end.
  destruct (named_end _ _ _ _ _ En eq_refl eq_refl L16) as (Hc & Hi & Hs & Ha). change (tk_id (sc_tok t1)) with TParsingNamedEntity in Hi. change (sc_state t1) with (sc_state t) in Hs. rewrite <- Hs.
  destruct (rl_tokeq _ _ _ H2) as (Et2 & _ & L2 & _). cbn [fst snd]. rewrite Et2.
  assert (Hr : forall t', tk_id (sc_tok t') = TParsingNamedEntity -> rcv t' = fin (let! (s2, c2) := namedLoop o2 (15 - tk_pos (sc_tok t')) t' (ascc t') in
     if c2 =? 59 then match tok_put 0 (sc_tok s2) with
       | None => Undef
       | Some t => let (s3, ok) := pushEntity cfg (set_tok t s2) in if ok then let! (s4, u) := sc_skip o2 (upd_tok (tok_init TParsingToken) s3) in Ret s4 true else Ret s3 false
       end else Ret (fallbackEntity cfg s2) true)).
  { intros t' Ht. rewrite nm_recover by exact Ht. unfold parseNamedEntity. rewrite u_ascii, (self_id _ _ Ht). cbn [bind]. reflexivity. }
  destruct (c2 =? 59) eqn:E59.
  - destruct (tok_put 0 (sc_tok t2)) as [tk|] eqn:Ep; [|constructor]. destruct (put16 _ _ _ Ep L2) as (Lk & Ik & Pk & Bk & Vk & Lt & Uk).
    unfold f_set. cbn [fst snd]. pose proof (rl_settok relp tk _ _ Lk H2) as H3. apply N.eqb_eq in E59.
    assert (Hput : tok_put 0 tk = Some tk).
    { unfold tok_put. rewrite Pk. destruct (Nat.ltb_spec (tk_pos (sc_tok t2)) 16); [|lia]. destruct tk as [i1 c1 p1 b1 v1 l1]. cbn in *. subst p1. rewrite Uk, upd_upd. reflexivity. }
    assert (Hr2 : rcv (set_tok tk t2) = fin (let (s3, ok) := pushEntity cfg (set_tok tk t2) in if ok then let! (s4, u) := sc_skip o2 (upd_tok (tok_init TParsingToken) s3) in Ret s4 true else Ret s3 false)).
    { rewrite Hr by (cbn; congruence). change (ascc (set_tok tk t2)) with (ascc t2). rewrite <- Hc, E59, named_59. cbn [bind]. change (59 =? 59) with true. cbn [set_tok sc_tok]. rewrite Hput. reflexivity. }
    assert (Hpush : forall c Y, Y = (let! (s4, u) := sc_skip o2 (upd_tok (tok_init TParsingToken) (push cfg c (set_tok tk t2))) in Ret s4 true) -> rcv (set_tok tk t2) = fin Y ->
      fout (rl rel) (th_ent (sc_state t2) Y) a
        (let! (x, ok) := (let! (x, _) := f_push cfg c (set_tok tk s2, a) in Ret x true) in if ok then let! (x, _) := f_lift (sc_skip o1) (f_set (upd_tok (tok_init TParsingToken)) x) in Ret x true else Ret x false) Y).
    { intros c Y HY HR. rewrite u_skip in HY. cbn [bind] in HY. unfold f_push. destruct (put_out (cs_print out1 c) (set_tok tk s2) a) as [(a1 & -> & L)|(a1 & p & r & -> & L & E & Hq)]; cbn [bind].
      - unfold f_set. cbn [fst snd]. destruct (p_skip _ _ (rl_tinit relp TParsingToken _ _ (rl_add relp (cs_print out1 c) _ _ H3))) as (s4 & E4 & H4). rewrite (lift_ret _ _ a1 _ _ E4). cbn [bind]. rewrite HY. apply fo_ret; [exact H4|exact L].
      - apply fo_throw; [|exact L]. apply (th_self Y _ (set_tok tk t2)); [|cbn; rewrite Ik, Hi; exact I|auto]. apply rl_weak, rl_more; [|exact H3]. eapply (HA1 HA); eauto. }
    unfold f_pushEntity. cbn [fst set_tok sc_tok]. unfold pushEntity in *. cbn [set_tok sc_tok] in *.
    assert (Herr : fout (rl rel) (th_ent (sc_state t2) (Ret (set_err ErrUndefinedCharacterEntity (set_tok tk t2)) false)) a
       (let! (x, ok) := Ret (f_set (set_err ErrUndefinedCharacterEntity) (set_tok tk s2, a)) false in if ok then let! (x, _) := f_lift (sc_skip o1) (f_set (upd_tok (tok_init TParsingToken)) x) in Ret x true else Ret x false)
       (Ret (set_err ErrUndefinedCharacterEntity (set_tok tk t2)) false)).
    { cbn [bind]. unfold f_set. cbn [fst snd]. apply fo_ret; [|apply le_n]. apply rl_weak, rl_err. exact H3. }
    destruct (predefined (tk_buf tk)) as [c|]; [apply Hpush; [reflexivity|exact Hr2]|]. destruct (cf_map cfg) as [m|]; [|exact Herr]. destruct (map_find m (cf_bufaddr cfg)) as [c|]; [apply Hpush; [reflexivity|exact Hr2]|exact Herr].
  - eapply fo_weak; [apply (x_fallback relp (th_ent (sc_state t2) (Ret (fallbackEntity cfg t2) true)) _ _ a HA H2); [rewrite Hi; exact I|]|apply rl_weak|auto].
    intros s' Hs'. apply th_self; [apply rl_weak; exact Hs'|rewrite Hi; exact I|]. rewrite Hr by exact Hi. rewrite <- Hc, Ha. cbn [bind]. rewrite E59. reflexivity.
Qed.

Lemma x_entity : AOK -> forall s t a y, rl rel s t -> y = parseEntity o2 cfg t -> fout (rl rel) (th_ent (sc_state t) y) a (f_entity o1 cfg (s, a)) y.
Proof.
  intros HA s t a y H Hy. unfold f_entity. unfold f_set at 1. cbn [fst snd]. unfold parseEntity in Hy. rewrite u_ascii in Hy. cbn [bind] in Hy.
  destruct (p_ascii _ _ (rl_tid rel TParsingEntity _ _ H)) as (s1 & E1 & H1). rewrite (lift_ret _ _ a _ _ E1). cbn [bind].
  destruct (ascc (upd_tok (tok_id TParsingEntity) t) =? 35).
  - rewrite u_skip in Hy. cbn [bind] in Hy. destruct (p_skip _ _ H1) as (s2 & E2 & H2). rewrite (lift_ret _ _ a _ _ E2). cbn [bind]. exact (x_numeric HA _ _ a y H2 Hy).
  - exact (x_named HA _ _ a y (rl_weak _ _ H1) Hy).
Qed.
Definition th_rec (st : stm) (y : out (scanner urd) bool) (s' : scanner R) : Prop :=
  exists t', rl rel s' t' /\ sc_state t' = st /\ ent (tk_id (sc_tok t')) /\ AOK /\ orel brel brel y (rcv t').
Lemma x_recover s t a : rl rel s t -> (ent (tk_id (sc_tok t)) -> AOK) -> fout (rl rel) (th_rec (sc_state t) (rcv t)) a (f_recover o1 cfg (s, a)) (rcv t).
Proof.
  intros H HA. unfold f_recover. cbn [fst]. destruct (rl_tokeq _ _ _ H) as (Et & _). rewrite Et.
  assert (Hf : AOK -> forall m y, fout (rl rel) (th_ent (sc_state t) y) a m y -> rcv t = fin y -> fout (rl rel) (th_rec (sc_state t) (rcv t)) a (let! (x, rt) := m in Ret (f_set (upd_tok (tok_init TParsingToken)) x) rt) (rcv t)).
  { intros HK m y Hm Ey. rewrite Ey. unfold fin at 2. eapply fo_bind; [exact Hm| |].
    - intros s3 a3 t3 v Ev H3 L3. apply fo_ret; [|apply le_n]. cbn [fst]. apply rl_tinit. exact H3.
    - intros s3 (t' & A1 & A2 & A3 & A4). exists t'. auto 10. }
  assert (Hn : fout (rl rel) (th_rec (sc_state t) (Ret (set_err ErrInternal t) false)) a (Ret (f_set (set_err ErrInternal) (s, a)) false) (Ret (set_err ErrInternal t) false)).
  { apply fo_ret; [apply rl_err; exact H|apply le_n]. }
  destruct (tk_id (sc_tok t)) eqn:Ei; try (unfold parseTokenRecover; rewrite Ei; exact Hn).
  - eapply (Hf (HA I)); [apply (x_entity (HA I) s t a _ H eq_refl)|]. unfold parseTokenRecover. rewrite Ei. reflexivity.
  - eapply (Hf (HA I)); [apply (x_numeric (HA I) s t a _ H eq_refl)|]. unfold parseTokenRecover. rewrite Ei. reflexivity.
  - eapply (Hf (HA I)); [apply (x_numericBase (HA I) s t a _ H eq_refl)|]. unfold parseTokenRecover. rewrite Ei. reflexivity.
  - eapply (Hf (HA I)); [apply (x_named (HA I) s t a _ H eq_refl)|]. unfold parseTokenRecover. rewrite Ei. reflexivity.
Qed.

(** *** Tokens *)
Definition res {A} (y x : out (scanner urd) A) : Prop := y = Fuel \/ orel brel erl y x.
Lemma res_fle {A} (y x x' : out (scanner urd) A) : res y x -> fle x x' -> res y x'.
Proof.
  intros [-> |H] F; [left; reflexivity|]. destruct F as [F|F]; [|subst; right; exact H]. subst x. inversion H. left. reflexivity.
Qed.
Lemma or_be {A} (y x : out (scanner urd) A) : orel brel brel y x -> orel brel erl y x.
Proof. intro H. eapply orel_weaken; [exact H|auto|]. intros s t K. apply b_erel. exact K. Qed.
Lemma res_b {A} (y x : out (scanner urd) A) : orel brel brel y x -> res y x. Proof. intro H. right. apply or_be. exact H. Qed.
Lemma B_loop f it s t : brel s t -> orel brel brel (parseTokenLoop o2 cfg f it s) (parseTokenLoop o2 cfg f it t).
Proof. intro H. apply b_tokenLoop; try exact W00; try exact Wa; assumption. Qed.
Lemma B_token f it s t : brel s t -> orel brel brel (parseToken o2 cfg f it s) (parseToken o2 cfg f it t).
Proof. intro H. apply b_token; try exact W00; try exact Wa; assumption. Qed.
Lemma B_init i (s t : scanner urd) : brel s t -> brel (upd_tok (tok_init i) s) (upd_tok (tok_init i) t). Proof. apply b_init. Qed.

Definition cont (i : tokid) : Prop := i = TParsingToken \/ ent i.
Definition th_tok (f : nat) (it : list bool) (st : stm) (y : out (scanner urd) bool) (s' : scanner R) : Prop :=
  exists t', rl rel s' t' /\ sc_state t' = st /\ cont (tk_id (sc_tok t')) /\ (ent (tk_id (sc_tok t')) -> AOK) /\ res y (parseToken o2 cfg f it t').
Lemma G_cur (t : scanner urd) : Forall G (ur_l (sc_src t)) -> ctlc t <> CEndOfText -> G (ucur e0 (sc_src t)).
Proof. intros F N. unfold ctlc in N. unfold ucur in *. destruct (ur_l (sc_src t)); [exfalso; apply N; exact He0|]. inversion F. assumption. Qed.
Lemma tok_ent t f it : ent (tk_id (sc_tok t)) -> parseToken o2 cfg f it t = let! (s1, ok) := rcv t in if ok then parseTokenLoop o2 cfg f it s1 else Ret (upd_tok (tok_init TStart) s1) false.
Proof. intro E. unfold parseToken. destruct (tk_id (sc_tok t)); try contradiction; reflexivity. Qed.
Lemma tok_tok t f it : tk_id (sc_tok t) = TParsingToken -> parseToken o2 cfg f it t = parseTokenLoop o2 cfg f it t.
Proof. intro E. unfold parseToken. rewrite E. reflexivity. Qed.
(** output of a character *)
Lemma x_tokenChar s t a : rl relp s t -> okp (if cf_raw cfg then u_raw (ucur e0 (sc_src t)) else cs_print out1 (u_val (ucur e0 (sc_src t)))) ->
  fout (fun s' t' => rl relp s' t' /\ sc_src t' = sc_src t /\ tk_id (sc_tok t') = tk_id (sc_tok t) /\ sc_state t' = sc_state t) (fun s' => rl rel s' t) a (f_tokenChar o1 cfg (s, a)) (tokenChar o2 cfg t).
Proof.
  intros H HG. unfold f_tokenChar, tokenChar. destruct (p_ascii _ _ (rl_weak _ _ H)) as (s1 & E1 & H1). rewrite (lift_ret _ _ a _ _ E1), u_ascii. cbn [bind].
  assert (Hput : forall u cr sx ax, okp u -> rl relp sx t -> fout (fun s' t' => rl relp s' t' /\ sc_src t' = sc_src t /\ tk_id (sc_tok t') = tk_id (sc_tok t) /\ sc_state t' = sc_state t) (fun s' => rl rel s' t) ax
     (let! (x, _) := f_put u (sx, ax) in Ret (f_set (upd_tok (tok_cr cr)) x) tt) (Ret (upd_tok (tok_cr cr) (set_obuf (sc_obuf t ++ u) t)) tt)).
  { intros u cr sx ax Hu Hx. destruct (put_out u sx ax) as [(a1 & -> & L)|(a1 & p & r & -> & L & E & Hq)]; cbn [bind].
    - apply fo_ret; [|exact L]. cbn [fst]. split; [|auto]. apply rl_tok; [reflexivity|]. apply rl_add. exact Hx.
    - apply fo_throw; [|exact L]. apply rl_weak, rl_more; [|exact Hx]. eapply Hu; eauto. }
  destruct (ascc t =? 13); [apply Hput; [exact H10|exact H1]|]. destruct (ascc t =? 10).
  - cbn [fst]. destruct (rl_tokeq _ _ _ H1) as (-> & _). destruct (tk_cr (sc_tok t)); [|apply Hput; [exact H10|exact H1]].
    cbn [bind]. apply fo_ret; [|apply le_n]. cbn [fst]. split; [|auto]. apply rl_tok; [reflexivity|exact H1].
  - unfold f_copychar, copychar. destruct (cf_raw cfg).
    + destruct (p_raw _ _ H1) as (s2 & E2 & H2). rewrite (lift_ret _ _ a _ _ E2), u_rawb. cbn [bind]. apply Hput; assumption.
    + destruct (p_chr _ _ (rl_weak _ _ H1)) as (s2 & E2 & H2). rewrite (lift_ret _ _ a _ _ E2), u_chr. cbn [bind]. apply Hput; assumption.
Qed.

Lemma amp_is c : ctl_eqb c CAmp = true -> c = CAmp. Proof. destruct c; intro E; try reflexivity; discriminate E. Qed.
Lemma res_self_loop f it t : length (tk_buf (sc_tok t)) = 16%nat -> res (parseTokenLoop o2 cfg f it t) (parseTokenLoop o2 cfg f it t).
Proof. intro L. apply res_b, B_loop, brefl, L. Qed.
Lemma ent_state t t3 (ok : bool) : tk_id (sc_tok t) <> TParsingDone -> parseEntity o2 cfg t = Ret t3 ok -> sc_state t3 = sc_state t.
Proof. intros N E. pose proof (j_entity o2 cfg (sc_state t) t (conj eq_refl N)) as J. rewrite E in J. apply J. Qed.
Lemma fin_bind {A} (m : out (scanner urd) bool) (k : scanner urd -> bool -> out (scanner urd) A) : bind (fin m) k = bind m (fun s v => k (upd_tok (tok_init TParsingToken) s) v).
Proof. unfold fin. destruct m; reflexivity. Qed.
Notation tokq st := (fun (s' : scanner R) (t' : scanner urd) => rl rel s' t' /\ sc_state t' = st /\ ~ ent (tk_id (sc_tok t'))).
(** [y] and [x] go on with the loop, [x] with more fuel *)
Lemma res_loop f it (y x : out (scanner urd) bool) : orel brel brel y x -> res (let! (s1, ok) := y in if ok then parseTokenLoop o2 cfg f it s1 else Ret (upd_tok (tok_init TStart) s1) false)
                                                  (let! (s1, ok) := x in if ok then parseTokenLoop o2 cfg f it s1 else Ret (upd_tok (tok_init TStart) s1) false).
Proof. intro H. apply res_b. eapply orel_bind; [exact H|]. intros s1 t1 [|] K; [apply B_loop; exact K|constructor; apply B_init; exact K]. Qed.
Lemma x_tokenLoop it : isTokAt it CEndOfText <> Some true -> forall f s t a y, rl rel s t -> tk_id (sc_tok t) = TParsingToken -> y = parseTokenLoop o2 cfg f it t ->
  fout (tokq (sc_state t)) (th_tok f it (sc_state t) y) a (f_tokenLoop o1 cfg f it (s, a)) y.
Proof.
  intros Heot. induction f as [|f IH]; intros s t a y H Hi Hy; [rewrite Hy; constructor|].
  pose proof Hy as Hself. destruct (p_control _ _ H) as (s1 & E1 & H1). cbn [f_tokenLoop]. rewrite (lift_ret _ _ a _ _ E1). cbn [bind].
  cbn [parseTokenLoop] in Hy. rewrite u_control in Hy. cbn [bind] in Hy. destruct (rl_tokeq _ _ _ H1) as (Et & Es & L16 & HF).
  destruct (isTokAt it (ctlc t)) as [[|]|] eqn:Eit; [| |rewrite Hy; constructor].
  - assert (HGc : G (ucur e0 (sc_src t))) by (apply G_cur; [exact HF|intro Z; apply Heot; rewrite <- Z; exact Eit]).
    rewrite Hy at 2. eapply fo_bind; [apply x_tokenChar; [exact H1|apply HG1; exact HGc]| |].
    + intros s2 a2 t2 v Ev (H2 & Esrc & Ei2 & Es2) L. rewrite Ev in Hy. cbn [bind] in Hy. destruct (p_skip _ _ H2) as (s3 & E3 & H3). rewrite (lift_ret _ _ a2 _ _ E3). rewrite u_skip in *. cbn [bind] in *.
      eapply fo_weak; [apply (IH s3 (nx t2) a2 _ H3); [cbn; congruence|reflexivity]| |].
      * intros s' t' (A & B & C). split; [exact A|]. split; [rewrite B; exact Es2|exact C].
      * intros s' (t' & A & B & C & D & F). exists t'. split; [exact A|]. split; [rewrite B; exact Es2|]. split; [exact C|]. split; [exact D|]. rewrite Hy.
        eapply res_fle; [exact F|]. apply mono_parseToken. lia.
    + intros s' Hs. exists t. split; [exact Hs|]. split; [reflexivity|]. split; [left; exact Hi|]. split; [rewrite Hi; intros []|]. rewrite (tok_tok _ _ _ Hi), Hself. apply res_self_loop. exact L16.
  - destruct (ctl_eqb (ctlc t) CAmp) eqn:Ea.
    + apply amp_is in Ea. assert (HA : AOK) by (eapply HG2; [apply G_cur; [exact HF|rewrite Ea; discriminate]|exact Ea]).
      rewrite u_skip in Hy. cbn [bind] in Hy. destruct (p_skip _ _ H1) as (s2 & E2 & H2). rewrite (lift_ret _ _ a _ _ E2). cbn [bind].
      rewrite Hy at 2. eapply fo_bind; [apply (x_entity HA s2 (nx t) a _ H2 eq_refl)| |].
      * intros s3 a3 t3 ok Ev H3 L. assert (Es3 : sc_state t3 = sc_state t) by (apply (ent_state (nx t) t3 ok); [cbn; rewrite Hi; discriminate|exact Ev]).
        rewrite Ev in Hy. cbn [bind] in Hy. unfold f_set. cbn [fst snd]. destruct ok.
        -- eapply fo_weak; [apply (IH (upd_tok (tok_init TParsingToken) s3) (upd_tok (tok_init TParsingToken) t3) a3 _ (rl_tinit _ _ _ _ H3) eq_refl eq_refl)| |].
           ++ intros s' t' (A & B & C). split; [exact A|]. split; [rewrite B; exact Es3|exact C].
           ++ intros s' (t' & A & B & C & D & F). exists t'. split; [exact A|]. split; [rewrite B; exact Es3|]. split; [exact C|]. split; [exact D|]. rewrite Hy.
              eapply res_fle; [exact F|]. apply mono_parseToken. lia.
        -- apply fo_ret; [|apply le_n]. split; [apply rl_tinit; exact H3|]. split; [exact Es3|intros []].
      * intros s' (t' & A & B & C & D). exists t'. split; [exact A|]. split; [exact B|]. split; [right; exact C|]. split; [intros _; exact HA|].
        rewrite (tok_ent _ _ _ C). apply (res_fle _ (let! (s1, ok) := rcv t' in if ok then parseTokenLoop o2 cfg f it s1 else Ret (upd_tok (tok_init TStart) s1) false)).
        -- assert (Ey : y = let! (s1, ok) := fin (parseEntity o2 cfg (nx t)) in if ok then parseTokenLoop o2 cfg f it s1 else Ret (upd_tok (tok_init TStart) s1) false).
           { rewrite fin_bind, Hy. destruct (parseEntity o2 cfg (nx t)) as [? []| | | |]; reflexivity. }
           rewrite Ey. apply res_loop. exact D.
        -- apply fle_bind; [apply fle_refl|]. intros s4 [|]; [apply mono_parseTokenLoop; lia|apply fle_refl].
    + rewrite Hy. apply fo_ret; [|apply le_n]. unfold f_set. cbn [fst snd]. split; [apply rl_tinit, rl_weak; exact H1|]. split; [reflexivity|intros []].
Qed.
Lemma rec_state t t3 (ok : bool) : tk_id (sc_tok t) <> TParsingDone -> rcv t = Ret t3 ok -> sc_state t3 = sc_state t /\ (ok = true -> tk_id (sc_tok t3) = TParsingToken).
Proof.
  intros N E. unfold parseTokenRecover in E. pose proof (conj eq_refl N : JI (sc_state t) t) as J0.
  assert (Hf : forall m, jp (fun s _ => JI (sc_state t) s) (JI (sc_state t)) m -> fin m = Ret t3 ok -> sc_state t3 = sc_state t /\ (ok = true -> tk_id (sc_tok t3) = TParsingToken)).
  { intros m Hm Em. destruct m; try discriminate Em. injection Em as <- <-. split; [apply Hm|reflexivity]. }
  destruct (tk_id (sc_tok t)) eqn:Ei; try (injection E as <- <-; split; [reflexivity|discriminate]); eapply Hf; try exact E;
    first [apply j_entity|apply j_numeric|apply j_numericBase|apply j_named]; exact J0.
Qed.
Lemma x_token it f s t a y : isTokAt it CEndOfText <> Some true -> rl rel s t -> tk_id (sc_tok t) <> TParsingDone -> (ent (tk_id (sc_tok t)) -> AOK) -> y = parseToken o2 cfg f it t ->
  fout (tokq (sc_state t)) (th_tok f it (sc_state t) y) a (f_token o1 cfg f it (s, a)) y.
Proof.
  intros Heot H Hd HA Hy. unfold f_token. cbn [fst]. destruct (rl_tokeq _ _ _ H) as (Et & Es & L16 & HF). rewrite Et.
  assert (Hrec : y = (let! (s1, ok) := rcv t in if ok then parseTokenLoop o2 cfg f it s1 else Ret (upd_tok (tok_init TStart) s1) false) ->
     fout (tokq (sc_state t)) (th_tok f it (sc_state t) y) a (let! (x, ok) := f_recover o1 cfg (s, a) in if ok then f_tokenLoop o1 cfg f it x else Ret (f_set (upd_tok (tok_init TStart)) x) false) y).
  { clear Hy. intro Hy. rewrite Hy at 2. eapply fo_bind; [apply x_recover; [exact H|exact HA]| |].
    - intros s3 a3 t3 ok Ev H3 L. destruct (rec_state _ _ _ Hd Ev) as (S3 & I3). rewrite Ev in Hy. cbn [bind] in Hy. destruct ok.
      + rewrite <- S3. rewrite <- Hy. apply x_tokenLoop; auto.
      + apply fo_ret; [|apply le_n]. unfold f_set. cbn [fst snd]. split; [apply rl_tinit; exact H3|]. split; [exact S3|intros []].
    - intros s' (t' & A & B & C & X & D).
      exists t'. split; [exact A|]. split; [exact B|]. split; [right; exact C|]. split; [auto|]. rewrite (tok_ent _ _ _ C), Hy. apply res_loop. exact D. }
  unfold parseToken in Hy. destruct (tk_id (sc_tok t)) eqn:Ei; try (apply Hrec; exact Hy).
  - pose proof (rl_tid rel TParsingToken _ _ (rl_start _ _ H)) as H2. exact (x_tokenLoop it Heot f _ _ a y H2 eq_refl Hy).
  - exact (x_tokenLoop it Heot f s t a y H Ei Hy).
Qed.

(** *** What appends nothing *)
Lemma q_skipToken : forall f it s t, rl rel s t -> orel (rl rel) (fun _ _ => False) (skipTokenLoop o1 f it s) (skipTokenLoop o2 f it t).
Proof.
  induction f as [|f IH]; intros it s t H; cbn [skipTokenLoop]; [constructor|]. destruct (p_control _ _ H) as (s1 & -> & H1). rewrite u_control. cbn [bind].
  destruct (isTokAt it (ctlc t)) as [b|]; [|constructor]. destruct (b || ctl_eqb (ctlc t) CAmp).
  - destruct (p_skip _ _ H1) as (s2 & -> & H2). rewrite u_skip. cbn [bind]. apply IH. exact H2.
  - destruct (p_control _ _ (rl_weak _ _ H1)) as (s2 & -> & H2). rewrite u_control. cbn [bind]. apply rl_weak in H2. destruct (ctl_eqb (ctlc t) CAny); [apply IH; exact H2|constructor; exact H2].
Qed.
Lemma skip_same : forall f it t t1 (ok : bool), skipTokenLoop o2 f it t = Ret t1 ok -> sc_tok t1 = sc_tok t /\ sc_state t1 = sc_state t.
Proof.
  induction f as [|f IH]; intros it t t1 ok E; cbn [skipTokenLoop] in E; [discriminate E|]. rewrite u_control in E. cbn [bind] in E. destruct (isTokAt it (ctlc t)) as [b|]; [|discriminate E]. destruct (b || ctl_eqb (ctlc t) CAmp).
  - rewrite u_skip in E. cbn [bind] in E. destruct (IH _ _ _ _ E) as [A B]. rewrite A, B. auto.
  - rewrite u_control in E. cbn [bind] in E. destruct (ctl_eqb (ctlc t) CAny); [eapply IH; exact E|]. injection E as <- <-. auto.
Qed.
Lemma q_expectLoop : forall l s t, rl rel s t -> orel (rl rel) (fun _ _ => False) (expectLoop o1 l s) (expectLoop o2 l t).
Proof.
  induction l as [|x l IH]; intros s t H; cbn [expectLoop]; [constructor; apply rl_tinit; exact H|].
  destruct (p_ascii _ _ H) as (s1 & -> & H1). rewrite u_ascii. cbn [bind]. destruct (ascc t =? x).
  - destruct (p_skip _ _ H1) as (s2 & -> & H2). rewrite u_skip. cbn [bind]. apply IH. apply rl_tok; [reflexivity|exact H2].
  - destruct (p_control _ _ (rl_weak _ _ H1)) as (s2 & -> & H2). rewrite u_control. cbn [bind]. constructor. apply rl_tinit, rl_err, rl_weak. exact H2.
Qed.
Lemma expect_same : forall l t t1 (ok : bool), expectLoop o2 l t = Ret t1 ok -> tk_id (sc_tok t1) = TParsingDone /\ sc_state t1 = sc_state t.
Proof.
  induction l as [|x l IH]; intros t t1 ok E; cbn [expectLoop] in E; [injection E as <- <-; auto|]. rewrite u_ascii in E. cbn [bind] in E. destruct (ascc t =? x).
  - rewrite u_skip in E. cbn [bind] in E. destruct (IH _ _ _ E) as [A B]. rewrite A, B. auto.
  - rewrite u_control in E. cbn [bind] in E. injection E as <- <-. auto.
Qed.

(** *** Actions *)
Lemma res_bind {A B} (y x : out (scanner urd) A) (f g : scanner urd -> A -> out (scanner urd) B) : res y x -> (forall s t v, brel s t -> res (f s v) (g t v)) -> res (bind y f) (bind x g).
Proof.
  intros [-> |H] K; [left; reflexivity|]. destruct H as [s t v H|s t H|s t H| |]; cbn [bind]; [apply K; exact H|right; constructor; exact H|right; constructor; exact H|right; constructor|left; reflexivity].
Qed.
Lemma def_eot a it : tokenDef a = Some it -> isTokAt it CEndOfText <> Some true.
Proof. destruct a; intro E; try discriminate E; injection E as <-; vm_compute; discriminate. Qed.
Notation okA t := (ent (tk_id (sc_tok t)) -> AOK).
Notation actq st := (fun (s' : scanner R) (t' : scanner urd) => rl rel s' t' /\ sc_state t' = st /\ okA t').
Definition th_act (f : nat) (mask : N) (a : stmaction) (arg : etype) (st : stm) (y : out (scanner urd) (etype + unit)) (s' : scanner R) : Prop :=
  exists t', rl rel s' t' /\ sc_state t' = st /\ okA t' /\ res y (doAction o2 cfg f mask a arg t').
Lemma x_doAction f mask a arg s t an y : rl rel s t -> okA t -> (a = ExpectIdentifierXML -> QOK) -> y = doAction o2 cfg f mask a arg t ->
  fout (actq (sc_state t)) (th_act f mask a arg (sc_state t) y) an (f_doAction o1 cfg f mask a arg (s, an)) y.
Proof.
  intros H HA HX Hy. unfold f_doAction. unfold doAction in Hy. destruct (rl_tokeq _ _ _ H) as (Et & Es & L16 & HF). cbn [fst]. rewrite Et.
  assert (Hsame : forall r : etype + unit, fout (actq (sc_state t)) (th_act f mask a arg (sc_state t) y) an (Ret (s, an) r) (Ret t r)) by (intro r; apply fo_ret; [auto|apply le_n]).
  destruct (tokenDef a) as [it|] eqn:Ea.
  - assert (Hgo : tk_id (sc_tok t) <> TParsingDone ->
      y = (let! (s1, ok) := (if N.testbit mask (etype_idx arg) then parseToken o2 cfg f it t else skipTokenLoop o2 f it t) in if ok then Ret s1 (inl arg) else Ret s1 (inr tt)) ->
      fout (actq (sc_state t)) (th_act f mask a arg (sc_state t) y) an
        (let! (x, ok) := (if N.testbit mask (etype_idx arg) then f_token o1 cfg f it (s, an) else f_lift (skipTokenLoop o1 f it) (s, an)) in if ok then Ret x (inl arg) else Ret x (inr tt)) y).
    { clear Hy. intros Hd Hy. rewrite Hy at 2. destruct (N.testbit mask (etype_idx arg)) eqn:Em.
      - eapply fo_bind; [apply (x_token it f s t an _ (def_eot _ _ Ea) H Hd HA eq_refl)| |].
        + intros s2 a2 t2 ok Ev (A & B & C) L. destruct ok; (apply fo_ret; [|apply le_n]; split; [exact A|]; split; [exact B|]; intro Z; destruct (C Z)).
        + intros s' (t' & A & B & C & D & F). exists t'. split; [exact A|]. split; [exact B|]. split; [exact D|]. rewrite Hy.
          assert (Ed : doAction o2 cfg f mask a arg t' = let! (s1, ok) := parseToken o2 cfg f it t' in if ok then Ret s1 (inl arg) else Ret s1 (inr tt)).
          { unfold doAction. rewrite Ea, Em. destruct C as [-> |C]; [reflexivity|]. destruct (tk_id (sc_tok t')); try contradiction; reflexivity. }
          rewrite Ed. apply res_bind; [exact F|]. intros s1 t1 [|] K; right; constructor; exact K.
      - eapply (fo_bind (rl rel) _ (fun _ => False)); [apply fo_lift; apply q_skipToken; exact H| |intros s' []].
        intros s2 a2 t2 ok Ev H2 L. destruct (skip_same _ _ _ _ _ Ev) as [A B]. destruct ok; (apply fo_ret; [|apply le_n]; split; [exact H2|]; split; [exact B|]; rewrite A; exact HA). }
    destruct (tk_id (sc_tok t)) eqn:Ei; try (apply Hgo; [discriminate|exact Hy]). rewrite Hy at 2. apply Hsame.
  - destruct (stringDef a) as [k|] eqn:Ek.
    + assert (Hgo : y = (let! (s1, ok) := expectStr o2 k t in if ok then match a with ExpectIdentifierXML => Ret (push cfg 108 (push cfg 109 (push cfg 120 (push cfg 63 s1)))) (inl EHeaderStart) | _ => Ret s1 (inl ENone) end else Ret s1 (inr tt)) ->
        fout (actq (sc_state t)) (th_act f mask a arg (sc_state t) y) an
          (let! (x, ok) := f_lift (expectStr o1 k) (s, an) in if ok then match a with ExpectIdentifierXML => let! (x, _) := f_pushes cfg [63; 120; 109; 108] x in Ret x (inl EHeaderStart) | _ => Ret x (inl ENone) end else Ret x (inr tt)) y).
      { clear Hy. intro Hy. rewrite Hy at 2. eapply (fo_bind (rl rel) _ (fun _ => False)); [apply fo_lift| |intros s' []].
        - unfold expectStr. pose proof (rl_tid rel TParsingKey _ _ H) as H1. destruct (rl_tokeq _ _ _ H1) as (-> & _). destruct (Nat.leb _ _); [|constructor]. apply q_expectLoop. exact H1.
        - intros s2 a2 t2 ok Ev H2 L. assert (Z : tk_id (sc_tok t2) = TParsingDone /\ sc_state t2 = sc_state t).
          { unfold expectStr in Ev. destruct (Nat.leb _ _); [|discriminate Ev]. destruct (expect_same _ _ _ _ Ev) as [A B]. split; [exact A|]. rewrite B. reflexivity. }
          destruct Z as [Z1 Z2]. assert (Hret : forall r : etype + unit, fout (actq (sc_state t)) (th_act f mask a arg (sc_state t) y) a2 (Ret (s2, a2) r) (Ret t2 r)).
          { intro r. apply fo_ret; [|apply le_n]. split; [exact H2|]. split; [exact Z2|]. rewrite Z1. intros []. }
          destruct ok; [|apply Hret]. rewrite Ev in Hy. cbn [bind] in Hy. destruct a; try apply Hret.
          change (push cfg 108 (push cfg 109 (push cfg 120 (push cfg 63 t2)))) with (pushes cfg (str "?xml") t2) in *. change [63; 120; 109; 108] with (str "?xml"). rewrite pushes_put, pushes_ob in *.
          destruct (put_out (printed out1 (str "?xml")) s2 a2) as [(a1 & -> & L1)|(a1 & p & r & -> & L1 & Ep & Hq)]; cbn [bind].
          + apply fo_ret; [|exact L1]. split; [apply rl_add; exact H2|]. split; [exact Z2|]. cbn. rewrite Z1. intros [].
          + apply fo_throw; [|exact L1]. exists (set_obuf (sc_obuf t2 ++ printed out1 (str "?xml")) t2). split; [|split; [exact Z2|split; [cbn; rewrite Z1; intros []|]]].
            * rewrite Ep. clear Hret Hy Ev. destruct H2 as [st er r2 t3 ob ob' tp tp' tk HP Hr HW Hl HF2]. constructor; auto. cbn [sc_obuf]. rewrite app_assoc. apply ch_less; [eapply (HQ (HX eq_refl)); eauto|]. apply ch_add. exact HW.
            * unfold doAction. cbn [tokenDef stringDef set_obuf sc_tok]. rewrite Z1. rewrite Hy. right. constructor. apply brefl. cbn. destruct (rl_tokeq _ _ _ H2) as (_ & _ & L2 & _). exact L2. }
      destruct (tk_id (sc_tok t)) eqn:Ei; try (apply Hgo; exact Hy). rewrite Hy at 2. apply Hsame.
    + rewrite Hy at 2. apply fo_ret; [|apply le_n]. unfold f_set. cbn [fst snd]. split; [apply rl_start; exact H|]. split; [reflexivity|exact HA].
Qed.

(** *** nextItem *)
Lemma xtag_only st e arg : stm_get st = Some e -> el_action e = Some (ExpectIdentifierXML, arg) -> st = XTAG.
Proof. intros H. destruct st; vm_compute in H; injection H as <-; cbn; intro E; try reflexivity; discriminate E. Qed.
Lemma fb_not st e fs : stm_get st = Some e -> el_fallback e = Some fs -> fs <> XTAG.
Proof. intros H. destruct st; vm_compute in H; injection H as <-; cbn; intro E; try discriminate E; injection E as <-; discriminate. Qed.
Lemma next_xtag st e c : stm_get st = Some e -> nth_error (el_next e) (ctl_idx c) = Some (Some XTAG) -> c = CQuestm.
Proof. intros H. destruct st; vm_compute in H; injection H as <-; cbn [el_next]; destruct c; cbn; intro E; try reflexivity; discriminate E. Qed.
Definition okt (t : scanner urd) : Prop := (sc_state t = XTAG -> QOK) /\ okA t.
Notation itq := (fun (s' : scanner R) (t' : scanner urd) => rl rel s' t' /\ okt t').
Lemma q_transition e st c s t : stm_get st = Some e -> rl relp s t -> okt t -> tk_id (sc_tok t) = TStart -> c = ctlc t ->
  orel itq (fun _ _ => False) (transition o1 e c s) (transition o2 e c t).
Proof.
  intros He H [O1 O2] Hi Hc. destruct (rl_tokeq _ _ _ H) as (_ & _ & _ & HF). unfold transition. destruct (nth_error (el_next e) (ctl_idx c)) as [[ns|]|] eqn:En; [| |constructor].
  - destruct (p_skip _ _ (rl_state _ ns _ _ H)) as (s1 & -> & H1). rewrite u_skip. cbn [bind]. constructor. split; [exact H1|]. split; [|exact O2].
    cbn. intros ->. pose proof (next_xtag _ _ _ He En) as Q1. rewrite Hc in Q1. eapply HG3; [apply G_cur; [exact HF|rewrite Q1; discriminate]|exact Q1].
  - apply rl_weak in H. destruct (el_fallback e) as [fs|] eqn:Ef; [constructor; split; [apply rl_state; exact H|split; [|exact O2]]; cbn; intro Z; destruct (fb_not _ _ _ He Ef Z)|].
    destruct (el_miss e); constructor; (split; [apply rl_err; exact H|split; [exact O1|exact O2]]).
Qed.
Definition rest (f : nat) (mask : N) (e : XmlScanner.element) (t1 : scanner urd) (r : etype * bool) : out (scanner urd) etype :=
  if snd r then Ret t1 (fst r)
  else let! (s2, c) := sc_control o2 t1 in
       let! (s3, ok) := transition o2 e c (upd_tok (tok_id TStart) s2) in
       if ok then if isNone (fst r) then nextItem o2 cfg f mask s3 else Ret s3 (fst r) else Ret s3 EErrorOccurred.
Definition acted (e : XmlScanner.element) (s1 : scanner urd) (rs : etype + unit) : out (scanner urd) (etype * bool) :=
  match rs with
  | inr _ => Ret s1 (EErrorOccurred, true)
  | inl rt => if Nat.eqb (el_nofnext e) 0 then Ret (match el_fallback e with Some fs => set_state fs s1 | None => s1 end) (rt, true) else Ret s1 (rt, false)
  end.
Definition act (f : nat) (mask : N) (e : XmlScanner.element) (t : scanner urd) : out (scanner urd) (etype * bool) :=
  match el_action e with None => Ret t (ENone, false) | Some (a, arg) => let! (s1, rs) := doAction o2 cfg f mask a arg t in acted e s1 rs end.
Lemma next_eq f mask t : nextItem o2 cfg (S f) mask t = match stm_get (sc_state t) with None => Undef | Some e => bind (act f mask e t) (rest f mask e) end.
Proof. reflexivity. Qed.
Lemma B_next f mask s t : brel s t -> orel brel erl (nextItem o2 cfg f mask s) (nextItem o2 cfg f mask t).
Proof. intro H. apply b_nextItem; try exact W00; try exact Wa; assumption. Qed.
Lemma B_rest f mask e r s t : brel s t -> orel brel erl (rest f mask e s r) (rest f mask e t r).
Proof.
  intro H1. unfold rest. destruct (snd r); [constructor; exact H1|]. eapply orel_bind; [apply or_be; apply b_control; exact H1|]. intros s2 t2 c H2.
  eapply orel_bind; [apply b_transition; apply b_id; exact H2|]. intros s3 t3 ok H3. destruct ok; [|constructor; exact H3]. destruct (isNone (fst r)); [apply B_next; exact H3|constructor; exact H3].
Qed.
Lemma B_acted e rs s t : brel s t -> orel brel erl (acted e s rs) (acted e t rs).
Proof. intro H1. unfold acted. destruct rs as [rt|]; [|constructor; exact H1]. destruct (Nat.eqb (el_nofnext e) 0); [|constructor; exact H1]. constructor. destruct (el_fallback e); [destruct H1; constructor; auto|exact H1]. Qed.
Definition th_next (f : nat) (mask : N) (y : out (scanner urd) etype) (s' : scanner R) : Prop := exists t', rl rel s' t' /\ okt t' /\ res y (nextItem o2 cfg f mask t').
Lemma x_nextItem mask : forall f s t a y, rl rel s t -> okt t -> y = nextItem o2 cfg f mask t -> fout itq (th_next f mask y) a (f_nextItem o1 cfg f mask (s, a)) y.
Proof.
  induction f as [|f IH]; intros s t a y H [O1 O2] Hy; [rewrite Hy; constructor|]. rewrite next_eq in Hy. cbn [f_nextItem fst]. destruct (rl_tokeq _ _ _ H) as (Et & Es & L16 & HF). rewrite Es.
  destruct (stm_get (sc_state t)) as [e|] eqn:He; [|rewrite Hy; constructor]. rewrite Hy at 2. eapply (fo_bind itq _ (th_next (S f) mask y)); [| |auto].
  - unfold act in *. destruct (el_action e) as [[ac arg]|] eqn:Ea; [|apply fo_ret; [split; [exact H|split; assumption]|apply le_n]].
    eapply fo_bind; [apply (x_doAction f mask ac arg s t a _ H O2); [|reflexivity]| |].
    + intros ->. apply O1. eapply xtag_only; eauto.
    + intros s1 a1 t1 rs Ev (A & B & C) L. unfold acted. destruct rs as [rt|u]; [|apply fo_ret; [split; [exact A|split; [rewrite B; exact O1|exact C]]|apply le_n]].
      destruct (Nat.eqb (el_nofnext e) 0); [|apply fo_ret; [split; [exact A|split; [rewrite B; exact O1|exact C]]|apply le_n]].
      destruct (el_fallback e) as [fs|] eqn:Ef; (apply fo_ret; [|apply le_n]); unfold f_set; cbn [fst snd]; (split; [try apply rl_state; exact A|split; [|exact C]]).
      * cbn. intro Z. destruct (fb_not _ _ _ He Ef Z).
      * rewrite B. exact O1.
    + intros s' (t' & A & B & C & D). exists t'. split; [exact A|]. split; [split; [rewrite B; exact O1|exact C]|]. rewrite next_eq, B, He, Hy. unfold act. rewrite Ea.
      apply res_bind; [|intros s1 t1 v K; right; apply B_rest; exact K]. apply res_bind; [exact D|]. intros s1 t1 v K. right. apply B_acted. exact K.
  - intros s1 a1 t1 r Ev (H1 & O3 & O4) L. rewrite Ev in Hy. cbn [bind] in Hy. unfold rest in *. destruct (snd r); [apply fo_ret; [split; [exact H1|split; assumption]|apply le_n]|].
    destruct (p_control _ _ H1) as (s2 & E2 & H2). rewrite (lift_ret _ _ a1 _ _ E2). rewrite u_control in *. cbn [bind] in *. unfold f_set. cbn [fst snd].
    assert (H3 : rl relp (upd_tok (tok_id TStart) s2) (upd_tok (tok_id TStart) t1)) by (apply rl_tid; exact H2).
    eapply (fo_bind itq _ (fun _ => False)); [apply fo_lift; eapply (q_transition e (sc_state t)); [exact He|exact H3|split; [exact O3|intros []]|reflexivity|reflexivity]| |intros s' []].
    intros s3 a3 t3 ok Ev3 (H4 & O5) L3. rewrite Ev3 in Hy. cbn [bind] in Hy. destruct ok; [|apply fo_ret; [auto|apply le_n]]. destruct (isNone (fst r)); [|apply fo_ret; [auto|apply le_n]].
    eapply fo_weak; [apply (IH s3 t3 a3 _ H4 O5 eq_refl)|auto|]. intros s' (t' & A & B & C). exists t'. split; [exact A|]. split; [exact B|]. rewrite Hy. eapply res_fle; [exact C|]. apply mono_nextItem. lia.
Qed.

(** *** Repeated calls *)
Lemma btrans (s t u : scanner urd) : brel s t -> brel t u -> brel s u.
Proof. intros H1 H2. destruct H1. inversion H2; subst. constructor; auto; [eapply ch_trans; eauto|congruence]. Qed.
Lemma x_again fuel mask v : forall n s a t t1, rl rel s t -> okt t -> (refusals a <= n)%nat -> nextItem o2 cfg fuel mask t = Ret t1 v ->
  exists s' a' t0, f_again o1 cfg n fuel mask (s, a) = Ret (s', a') v /\ rl rel s' t0 /\ okt t0 /\ brel t1 t0.
Proof.
  induction n as [|n IH]; intros s a t t1 H O Hn E; pose proof (x_nextItem mask fuel s t a _ H O eq_refl) as K; rewrite E in K; cbn [f_again];
    inversion K as [s2 a2 t2 v2 (H2 & O2) L2 E2 E3|s2 a2 y2 (t' & A & B & C) L2 E2 E3| |].
  - subst. exists s2, a2, t1. split; [reflexivity|]. split; [exact H2|]. split; [exact O2|]. apply brefl. destruct (rl_tokeq _ _ _ H2) as (_ & _ & L & _). exact L.
  - lia.
  - subst. exists s2, a2, t1. split; [reflexivity|]. split; [exact H2|]. split; [exact O2|]. apply brefl. destruct (rl_tokeq _ _ _ H2) as (_ & _ & L & _). exact L.
  - subst. destruct C as [C|C]; [discriminate C|]. inversion C as [u1 t1' v1 C1 C2 C3| | | |]. subst. destruct (IH s2 a2 t' t1' A B ltac:(lia) (eq_sym C3)) as (s' & a' & t0 & F1 & F2 & F3 & F4).
    exists s', a', t0. split; [exact F1|]. split; [exact F2|]. split; [exact F3|]. eapply btrans; eauto.
Qed.
Lemma refusals_le l : (refusals l <= length l)%nat.
Proof. unfold refusals. induction l as [|[|] l IH]; cbn; lia. Qed.
Lemma x_scan fuel : forall masks s a t t0 ts evs, rl rel s t0 -> okt t0 -> brel t t0 -> scan o2 cfg fuel masks t = Ret ts evs ->
  exists x evs', f_scan o1 cfg fuel masks (s, a) = Ret x evs' /\ Forall2 (fun e e' => same_text W e e' /\ prel (ev_tokpos e') (ev_tokpos e) /\ prel (ev_pos e') (ev_pos e)) evs evs'.
Proof.
  induction masks as [|m masks IH]; intros s a t t0 ts evs H O Bt E; cbn [scan f_scan] in *; [injection E as <- <-; eexists; eexists; split; [reflexivity|constructor]|].
  pose proof (B_next fuel m _ _ Bt) as K. destruct (nextItem o2 cfg fuel m t) as [t1 v|t1|t1| |] eqn:E1; try discriminate E. cbn [bind] in E. inversion K as [u1 t1' v1 K1 K2 K3| | | |]. subst.
  destruct (x_again fuel m v (length a) s a t0 t1' H O (refusals_le a) (eq_sym K3)) as (s' & a' & t2 & F1 & F2 & F3 & F4). cbn [snd]. rewrite F1. cbn [bind fst].
  destruct (scan o2 cfg fuel masks t1) as [t3 evs3|t3|t3| |] eqn:E3; try discriminate E. cbn [bind] in E. injection E as <- <-.
  pose proof (btrans _ _ _ K1 F4) as K5. destruct (IH s' a' t1 t2 t3 evs3 F2 F3 K5 E3) as (x & evs' & G1 & G2). rewrite G1. cbn [bind]. eexists. eexists. split; [reflexivity|]. constructor; [|exact G2].
  unfold same_text, observe, sc_getItem, sc_getTokenPosition, sc_getPosition. cbn [ev_type ev_item ev_err ev_tokpos ev_pos].
  destruct K5 as [st er r ob ob' tp id cr pos base v0 b b' HW _ _ _]. inversion F2 as [st2 er2 r2 t4 ob2 ob2' tp2 tp2' tk2 R0 R1 R2 R3 R4]; subst. cbn [sc_obuf sc_err sc_tokpos sc_src].
  split; [split; [reflexivity|]; split; [eapply ch_trans; eauto|reflexivity]|]. split; [exact R0|]. apply (rs_pos _ _ _ _ _ _ Hsim). exact R1.
Qed.
End Again.
