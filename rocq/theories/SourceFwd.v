(** Sources that can only be read up to the end of the text: a scan that comes to an end never needs what is behind (proofs). *)
From Verif Require Import Base Iter CharMap CodePages Charset TextScanner Ideal ReaderSim ScannerSim IterSim
  ReadSpec ReadProofs XmlScanner ScanSpec Safety Term.

(** every result of the second operation is a result of the first one *)
Definition fw {S T A} (Q : S -> T -> A -> Prop) (x : out S A) (y : out T A) : Prop :=
  match y with
  | Ret t a => exists s, x = Ret s a /\ Q s t a
  | _ => True
  end.

Lemma fw_bind : forall {S T A B} (Q : S -> T -> A -> Prop) (Q2 : S -> T -> B -> Prop) (x : out S A) (y : out T A) f g,
  fw Q x y -> (forall s t a, Q s t a -> fw Q2 (f s a) (g t a)) -> fw Q2 (bind x f) (bind y g).
Proof.
  intros S T A B Q Q2 x y f g H Hf. destruct y as [t a| | | |]; cbn [bind fw] in *; try exact I.
  destruct H as [s [-> H]]. cbn [bind]. apply Hf. exact H.
Qed.
Lemma fw_ret : forall {S T A} (Q : S -> T -> A -> Prop) s t a, Q s t a -> fw Q (Ret s a) (Ret t a).
Proof. intros S T A Q s t a H. cbn. eauto. Qed.
Lemma fw_weaken : forall {S T A} (Q Q2 : S -> T -> A -> Prop) x y, fw Q x y -> (forall s t a, Q s t a -> Q2 s t a) -> fw Q2 x y.
Proof. intros S T A Q Q2 x y H H1. destruct y; cbn [fw] in *; auto. destruct H as [s1 [-> H]]. eauto. Qed.

(** [rel] holds between two calls, [relp] after looking at the character, [reln] in addition not at the end of the text. *)
Record fsim {R T : Type} (o1 : readerops R) (o2 : readerops T) (rel relp reln : R -> T -> Prop) (Z : T -> Prop) : Prop := mkFsim {
  fs_weak : forall r t, relp r t -> rel r t;
  fs_weakn : forall r t, reln r t -> relp r t;
  fs_control : forall r t, rel r t -> fw (fun r' t' c => relp r' t' /\ (c <> CEndOfText -> reln r' t') /\ (reln r t -> reln r' t')) (r_control o1 r) (r_control o2 t);
  fs_ascii : forall r t, rel r t -> fw (fun r' t' c => relp r' t' /\ (c <> 0 -> reln r' t') /\ (reln r t -> reln r' t')) (r_ascii o1 r) (r_ascii o2 t);
  fs_chr : forall r t, reln r t -> fw (fun r' t' _ => reln r' t') (r_chr o1 r) (r_chr o2 t);
  fs_raw : forall r t, reln r t -> fw (fun r' t' _ => reln r' t') (r_raw o1 r) (r_raw o2 t);
  fs_skip : forall r t, reln r t -> fw (fun r' t' _ => rel r' t') (r_skip o1 r) (r_skip o2 t);
  fs_skip_end : forall r t, relp r t -> fw (fun r' t' _ => rel r' t' \/ Z t') (r_skip o1 r) (r_skip o2 t);
  fs_cc : forall t t1 c t2 c2, r_control o2 t = Ret t1 c -> r_control o2 t1 = Ret t2 c2 -> c2 = c;
  fs_Z : forall t, Z t -> exists t1 t2, r_control o2 t = Ret t1 CEndOfText /\ r_skip o2 t1 = Ret t2 tt /\ Z t2
}.

(** the same with a property [P] of the second reader: not at the end of the text *)
Record psim {R T : Type} (o1 : readerops R) (o2 : readerops T) (rel relp : R -> T -> Prop) (P Z : T -> Prop) : Prop := mkPsim {
  ps_weak : forall r t, relp r t -> rel r t;
  ps_control : forall r t, rel r t -> fw (fun r' t' c => relp r' t' /\ (c <> CEndOfText -> P t') /\ (P t -> P t')) (r_control o1 r) (r_control o2 t);
  ps_ascii : forall r t, rel r t -> fw (fun r' t' c => relp r' t' /\ (c <> 0 -> P t') /\ (P t -> P t')) (r_ascii o1 r) (r_ascii o2 t);
  ps_chr : forall r t, relp r t -> P t -> fw (fun r' t' _ => relp r' t' /\ P t') (r_chr o1 r) (r_chr o2 t);
  ps_raw : forall r t, relp r t -> P t -> fw (fun r' t' _ => relp r' t' /\ P t') (r_raw o1 r) (r_raw o2 t);
  ps_skip : forall r t, relp r t -> P t -> fw (fun r' t' _ => rel r' t') (r_skip o1 r) (r_skip o2 t);
  ps_skip_end : forall r t, relp r t -> fw (fun r' t' _ => rel r' t' \/ Z t') (r_skip o1 r) (r_skip o2 t);
  ps_cc : forall t t1 c t2 c2, r_control o2 t = Ret t1 c -> r_control o2 t1 = Ret t2 c2 -> c2 = c;
  ps_Z : forall t, Z t -> exists t1 t2, r_control o2 t = Ret t1 CEndOfText /\ r_skip o2 t1 = Ret t2 tt /\ Z t2
}.
Lemma psim_fsim : forall {R T : Type} (o1 : readerops R) (o2 : readerops T) rel relp P Z, psim o1 o2 rel relp P Z ->
  fsim o1 o2 rel relp (fun r t => relp r t /\ P t) Z.
Proof.
  intros R T o1 o2 rel relp P Z H. constructor.
  - apply (ps_weak _ _ _ _ _ _ H).
  - intros r t [H1 _]. exact H1.
  - intros r t Hr. eapply fw_weaken; [apply (ps_control _ _ _ _ _ _ H); exact Hr|]. cbn. intros r' t' c [H1 [H2 H3]]. split; [auto|]. split; [auto|]. intros [_ H4]. auto.
  - intros r t Hr. eapply fw_weaken; [apply (ps_ascii _ _ _ _ _ _ H); exact Hr|]. cbn. intros r' t' c [H1 [H2 H3]]. split; [auto|]. split; [auto|]. intros [_ H4]. auto.
  - intros r t [H1 H2]. apply (ps_chr _ _ _ _ _ _ H); auto.
  - intros r t [H1 H2]. apply (ps_raw _ _ _ _ _ _ H); auto.
  - intros r t [H1 H2]. apply (ps_skip _ _ _ _ _ _ H); auto.
  - apply (ps_skip_end _ _ _ _ _ _ H).
  - apply (ps_cc _ _ _ _ _ _ H).
  - apply (ps_Z _ _ _ _ _ _ H).
Qed.

Section Fwd.
Context {R T : Type} (o1 : readerops R) (o2 : readerops T) (cfg : config) (rel relp reln : R -> T -> Prop) (Z : T -> Prop).
Hypothesis Hs : fsim o1 o2 rel relp reln Z.

(** scanners that differ in the reader and the token position only *)
Inductive frel (rl : R -> T -> Prop) : scanner R -> scanner T -> Prop :=
| frel_i : forall st er r t ob tp tp' tk, rl r t -> tk_base tk <= 16 -> frel rl (mkSc st er r ob tp tk) (mkSc st er t ob tp' tk).

Notation fr_ := (fun s t _ => frel rel s t).
Notation frp := (fun s t _ => frel relp s t).

Lemma frel_weak : forall s t, frel relp s t -> frel rel s t.
Proof. intros s t []. constructor; auto. eapply fs_weak; eauto. Qed.
Lemma frel_weakn : forall s t, frel reln s t -> frel relp s t.
Proof. intros s t []. constructor; auto. eapply fs_weakn; eauto. Qed.
Lemma frel_n : forall s t, frel reln s t -> frel rel s t.
Proof. intros s t H. apply frel_weak, frel_weakn, H. Qed.
Lemma frel_tok : forall rl s t, frel rl s t -> sc_tok s = sc_tok t.
Proof. intros rl s t []. reflexivity. Qed.
Lemma frel_state : forall rl s t, frel rl s t -> sc_state s = sc_state t.
Proof. intros rl s t []. reflexivity. Qed.
Lemma frel_base : forall rl s t, frel rl s t -> tk_base (sc_tok s) <= 16.
Proof. intros rl s t []. assumption. Qed.
Lemma frel_set_tok : forall rl k s t, tk_base k <= 16 -> frel rl s t -> frel rl (set_tok k s) (set_tok k t).
Proof. intros rl k s t Hk []. constructor; auto. Qed.
Lemma frel_upd_tok : forall rl f s t, (forall k, tk_base k <= 16 -> tk_base (f k) <= 16) -> frel rl s t -> frel rl (upd_tok f s) (upd_tok f t).
Proof. intros rl f s t Hk []. constructor; auto. Qed.
Lemma frel_push : forall rl c s t, frel rl s t -> frel rl (push cfg c s) (push cfg c t).
Proof. intros rl c s t []. constructor; auto. Qed.
Lemma frel_set_err : forall rl c s t, frel rl s t -> frel rl (set_err c s) (set_err c t).
Proof. intros rl c s t []. constructor; auto. Qed.
Lemma frel_set_state : forall rl c s t, frel rl s t -> frel rl (set_state c s) (set_state c t).
Proof. intros rl c s t []. constructor; auto. Qed.
Lemma frel_pushes : forall l rl s t, frel rl s t -> frel rl (pushes cfg l s) (pushes cfg l t).
Proof. induction l as [|c l IH]; intros rl s t H; cbn [pushes]; auto. apply IH, frel_push, H. Qed.
Lemma frel_fallback : forall rl s t, frel rl s t -> frel rl (fallbackEntity cfg s) (fallbackEntity cfg t).
Proof.
  intros rl s t H. unfold fallbackEntity. rewrite <- (frel_tok _ _ _ H).
  destruct (tk_id (sc_tok s)); auto using frel_push, frel_pushes.
Qed.
Lemma base_id : forall i k, tk_base k <= 16 -> tk_base (tok_id i k) <= 16.
Proof. intros i k H. exact H. Qed.
Lemma base_init : forall i k, tk_base k <= 16 -> tk_base (tok_init i k) <= 16.
Proof. intros i k H. cbn. lia. Qed.
Lemma base_cr : forall i k, tk_base k <= 16 -> tk_base (tok_cr i k) <= 16.
Proof. intros i k H. exact H. Qed.
Lemma base_incpos : forall k, tk_base k <= 16 -> tk_base (tok_incpos k) <= 16.
Proof. intros k H. exact H. Qed.
Lemma base_put : forall c k k', tok_put c k = Some k' -> tk_base k <= 16 -> tk_base k' <= 16.
Proof. intros c k k' H Hb. unfold tok_put in H. destruct (Nat.ltb (tk_pos k) 16); inversion H. exact Hb. Qed.
Hint Resolve frel_weak frel_weakn frel_n frel_set_tok frel_upd_tok frel_push frel_set_err frel_set_state frel_fallback frel_base
  base_id base_init base_cr base_incpos base_put : fdb.

Lemma fw_src : forall {A} (Q : R -> T -> A -> Prop) (m1 : R -> out R A) (m2 : T -> out T A) rl s t,
  frel rl s t -> (forall r u, rl r u -> fw Q (m1 r) (m2 u)) ->
  fw (fun s t a => exists r u, sc_src s = r /\ sc_src t = u /\ Q r u a /\ forall rl2 : R -> T -> Prop, rl2 r u -> frel rl2 s t) (on_src m1 s) (on_src m2 t).
Proof.
  intros A Q m1 m2 rl s t H Hm. destruct H as [st er r u ob tp tp' tk Hr Hb]. unfold on_src. cbn [sc_src]. specialize (Hm r u Hr).
  destruct (m2 u) as [u' a| | | |]; cbn [omap fw] in *; try exact I. destruct Hm as [r' [-> Hq]]. cbn [omap].
  eexists. split; [reflexivity|]. exists r', u'. cbn [set_src sc_src]. split; [reflexivity|]. split; [reflexivity|]. split; [exact Hq|].
  intros rl2 H2. constructor; auto.
Qed.

Lemma f_control : forall s t, frel rel s t ->
  fw (fun s' t' c => frel relp s' t' /\ (c <> CEndOfText -> frel reln s' t') /\ (frel reln s t -> frel reln s' t')) (sc_control o1 s) (sc_control o2 t).
Proof.
  intros s t H. destruct H as [st er r u ob tp tp' tk Hr Hb]. unfold sc_control, on_src. cbn [sc_src].
  pose proof (fs_control _ _ _ _ _ _ Hs r u Hr) as Hc. destruct (r_control o2 u) as [u' a| | | |]; cbn [omap fw] in *; try exact I.
  destruct Hc as [r' [-> [H1 [H2 H3]]]]. cbn [omap]. eexists. split; [reflexivity|]. cbn [set_src sc_state sc_err sc_obuf sc_tokpos sc_tok].
  split; [constructor; auto|]. split; [intros; constructor; auto|]. intros Hn. inversion Hn; subst. constructor; auto.
Qed.
Lemma f_ascii : forall s t, frel rel s t -> fw (fun s' t' c => frel relp s' t' /\ (c <> 0 -> frel reln s' t')) (sc_ascii o1 s) (sc_ascii o2 t).
Proof.
  intros s t H. eapply fw_weaken; [unfold sc_ascii; eapply fw_src with (Q := fun r' t' c => relp r' t' /\ (c <> 0 -> reln r' t')); [exact H|]|].
  - intros r u Hr. eapply fw_weaken; [apply (fs_ascii _ _ _ _ _ _ Hs); exact Hr|]. cbn. intros r' u' c [H1 [H2 _]]. auto.
  - cbn. intros s' t' c [r [u [_ [_ [[H1 H2] Hf]]]]]. split; auto.
Qed.
Lemma f_ascii_n : forall s t, frel reln s t -> fw (fun s' t' c => frel reln s' t') (sc_ascii o1 s) (sc_ascii o2 t).
Proof.
  intros s t H. eapply fw_weaken; [unfold sc_ascii; eapply fw_src with (Q := fun r u _ => reln r u); [exact H|]|].
  - intros r u Hr. eapply fw_weaken; [apply (fs_ascii _ _ _ _ _ _ Hs); eapply fs_weak, fs_weakn; eauto|]. cbn. intros r' u' c [_ [_ H2]]. auto.
  - cbn. intros s' t' c [r [u [_ [_ [H1 Hf]]]]]. auto.
Qed.
Lemma f_copychar : forall s t, frel reln s t -> fw (fun s' t' _ => frel reln s' t') (copychar o1 cfg s) (copychar o2 cfg t).
Proof.
  intros s t H. unfold copychar. destruct (cf_raw cfg).
  - eapply fw_bind; [unfold sc_raw; eapply fw_src; [exact H|apply (fs_raw _ _ _ _ _ _ Hs)]|].
    cbv beta. intros s' t' c [r [u [_ [_ [H1 Hf]]]]]. apply fw_ret. pose proof (Hf _ H1) as H2. destruct H2. constructor; auto.
  - eapply fw_bind; [unfold sc_chr; eapply fw_src; [exact H|apply (fs_chr _ _ _ _ _ _ Hs)]|].
    cbv beta. intros s' t' c [r [u [_ [_ [H1 Hf]]]]]. apply fw_ret. auto with fdb.
Qed.
Lemma f_skip : forall s t, frel reln s t -> fw fr_ (sc_skip o1 s) (sc_skip o2 t).
Proof.
  intros s t H. eapply fw_weaken; [unfold sc_skip; eapply fw_src; [exact H|apply (fs_skip _ _ _ _ _ _ Hs)]|].
  cbn. intros s' t' c [r [u [_ [_ [H1 Hf]]]]]. auto.
Qed.
Lemma f_skip_end : forall s t, frel relp s t -> fw (fun s' t' _ => frel rel s' t' \/ frel (fun _ => Z) s' t') (sc_skip o1 s) (sc_skip o2 t).
Proof.
  intros s t H. eapply fw_weaken; [unfold sc_skip; eapply fw_src; [exact H|apply (fs_skip_end _ _ _ _ _ _ Hs)]|].
  cbn. intros s' t' c [r [u [_ [_ [[H1|H1] Hf]]]]]; auto.
Qed.

Lemma hex0 : HEX 0 = Some 255.
Proof. reflexivity. Qed.

Lemma f_numBaseLoop : forall k s t, frel rel s t -> fw fr_ (numBaseLoop o1 cfg k s) (numBaseLoop o2 cfg k t).
Proof.
  induction k as [|k IH]; intros s t H; cbn [numBaseLoop].
  - apply fw_ret. auto with fdb.
  - eapply fw_bind; [apply f_ascii; auto|]. intros s1 t1 c [H1 Hn].
    rewrite <- (frel_tok _ _ _ H1). pose proof (frel_base _ _ _ H1) as Hb.
    destruct (N.eqb_spec c 59) as [->|Hc].
    + specialize (Hn ltac:(discriminate)). destruct (0xFFFFFFFF <? tk_value (sc_tok s1)).
      * destruct (tok_put 59 (sc_tok s1)) eqn:Ep; [|exact I]. apply fw_ret. apply frel_fallback, frel_set_tok; eauto with fdb.
      * eapply fw_bind; [apply f_skip; auto with fdb|]. intros s2 t2 u H2. apply fw_ret. auto.
    + destruct (HEX c) as [chval|] eqn:Eh; [|exact I].
      destruct (N.leb_spec (tk_base (sc_tok s1)) chval) as [Hl|Hl]; [apply fw_ret; auto with fdb|].
      destruct (tok_put c (sc_tok s1)) as [tk|] eqn:Ep; [|exact I].
      assert (c <> 0) by (intros ->; rewrite hex0 in Eh; injection Eh as <-; lia).
      eapply fw_bind; [apply f_skip; apply frel_set_tok; [cbn; eapply base_put; eauto|auto]|]. intros s2 t2 u H2. apply IH. auto.
Qed.

Lemma f_numericBase : forall s t, frel rel s t -> fw fr_ (parseNumericBaseEntity o1 cfg s) (parseNumericBaseEntity o2 cfg t).
Proof.
  intros s t H. unfold parseNumericBaseEntity.
  rewrite (frel_tok rel (upd_tok (tok_id TParsingNumericBaseEntity) s) (upd_tok (tok_id TParsingNumericBaseEntity) t)) by auto with fdb.
  apply f_numBaseLoop. auto with fdb.
Qed.

Lemma f_numeric : forall s t, frel rel s t -> fw fr_ (parseNumericEntity o1 cfg s) (parseNumericEntity o2 cfg t).
Proof.
  intros s t H. unfold parseNumericEntity.
  eapply fw_bind; [apply f_ascii; auto with fdb|]. intros s1 t1 c [H1 Hn].
  destruct (N.eqb_spec c 120) as [->|Hc].
  - eapply fw_bind; [apply f_skip; apply frel_upd_tok; [intros k _; cbn; lia|apply Hn; discriminate]|]. intros s2 t2 u H2. apply f_numericBase. auto.
  - apply f_numericBase. apply frel_upd_tok; [intros k _; cbn; lia|auto with fdb].
Qed.

(** [c] is the character looked at *)
Notation looked := (fun (s : scanner R) (t : scanner T) (c : N) => frel relp s t /\ (c <> 0 -> frel reln s t)).

Lemma ctl_any : forall cc, ctl_eqb cc CAny = true -> cc = CAny.
Proof. intros [] H; try discriminate H. reflexivity. Qed.

Lemma f_namedLoop : forall k s t c, looked s t c -> fw looked (namedLoop o1 k s c) (namedLoop o2 k t c).
Proof.
  induction k as [|k IH]; intros s t c [H Hn]; cbn [namedLoop]; [apply fw_ret; auto|].
  destruct (N.eqb_spec c 59) as [->|Hc]; [apply fw_ret; auto|].
  eapply fw_bind; [apply f_control; auto with fdb|]. intros s1 t1 cc [H1 [H1n H1c]].
  rewrite <- (frel_tok _ _ _ H1).
  destruct (ctl_eqb cc CAny) eqn:Ea; [|apply fw_ret; auto].
  apply ctl_any in Ea. subst cc. specialize (H1n ltac:(discriminate)).
  destruct (tok_put c (sc_tok s1)) as [tk|] eqn:Ep; [|exact I].
  eapply fw_bind; [apply f_skip; apply frel_set_tok; eauto with fdb|]. intros s2 t2 u H2.
  eapply fw_bind; [apply f_ascii; auto with fdb|]. intros s3 t3 c' H3. apply IH. auto.
Qed.

Lemma f_pushEntity : forall rl s t, frel rl s t ->
  frel rl (fst (pushEntity cfg s)) (fst (pushEntity cfg t)) /\ snd (pushEntity cfg s) = snd (pushEntity cfg t).
Proof.
  intros rl s t H. unfold pushEntity. rewrite <- (frel_tok _ _ _ H).
  destruct (predefined _); [cbn [fst snd]; split; auto with fdb|].
  destruct (cf_map cfg) as [m|]; [|cbn [fst snd]; split; auto with fdb].
  destruct (map_find m (cf_bufaddr cfg)); cbn [fst snd]; split; auto with fdb.
Qed.

Lemma f_named : forall s t, frel rel s t -> fw fr_ (parseNamedEntity o1 cfg s) (parseNamedEntity o2 cfg t).
Proof.
  intros s t H. unfold parseNamedEntity.
  eapply fw_bind; [apply f_ascii; auto with fdb|]. intros s1 t1 c H1.
  rewrite <- (frel_tok _ _ _ (proj1 H1)).
  eapply fw_bind; [apply f_namedLoop; exact H1|]. intros s2 t2 c2 [H2 H2n].
  rewrite <- (frel_tok _ _ _ H2).
  destruct (N.eqb_spec c2 59) as [->|Hc]; [|apply fw_ret; auto with fdb]. specialize (H2n ltac:(discriminate)).
  destruct (tok_put 0 (sc_tok s2)) as [tk|] eqn:Ep; [|exact I].
  destruct (f_pushEntity reln (set_tok tk s2) (set_tok tk t2)) as [Ha Hb]; [apply frel_set_tok; eauto with fdb|].
  destruct (pushEntity cfg (set_tok tk s2)) as [s3 ok], (pushEntity cfg (set_tok tk t2)) as [t3 ok2].
  cbn [fst snd] in *. subst ok2. destruct ok.
  - eapply fw_bind; [apply f_skip; auto with fdb|]. intros s4 t4 u H4. apply fw_ret. auto.
  - apply fw_ret. auto with fdb.
Qed.

Lemma f_parseEntity : forall s t, frel rel s t -> fw fr_ (parseEntity o1 cfg s) (parseEntity o2 cfg t).
Proof.
  intros s t H. unfold parseEntity.
  eapply fw_bind; [apply f_ascii; auto with fdb|]. intros s1 t1 c [H1 Hn].
  destruct (N.eqb_spec c 35) as [->|Hc].
  - eapply fw_bind; [apply f_skip; apply Hn; discriminate|]. intros s2 t2 u H2. apply f_numeric. auto.
  - apply f_named. auto with fdb.
Qed.

Lemma f_recover : forall s t, frel rel s t -> fw fr_ (parseTokenRecover o1 cfg s) (parseTokenRecover o2 cfg t).
Proof.
  intros s t H. unfold parseTokenRecover. rewrite <- (frel_tok _ _ _ H).
  destruct (tk_id (sc_tok s)); try (apply fw_ret; auto with fdb);
    (eapply fw_bind; [first [apply f_parseEntity|apply f_numeric|apply f_numericBase|apply f_named]; auto|];
     intros s1 t1 rt H1; apply fw_ret; auto with fdb).
Qed.

Lemma f_tokenChar : forall s t, frel reln s t -> fw (fun s' t' _ => frel reln s' t') (tokenChar o1 cfg s) (tokenChar o2 cfg t).
Proof.
  intros s t H. unfold tokenChar.
  eapply fw_bind; [apply f_ascii_n; auto with fdb|]. intros s1 t1 c H1.
  rewrite <- (frel_tok _ _ _ H1).
  destruct (c =? 13); [apply fw_ret; auto with fdb|].
  destruct (c =? 10); [apply fw_ret; destruct (tk_cr (sc_tok s1)); auto with fdb|].
  eapply fw_bind; [apply f_copychar; auto|]. intros s2 t2 u H2. apply fw_ret. auto with fdb.
Qed.

Lemma f_parseTokenLoop : forall f isTok s t, isTokAt isTok CEndOfText = Some false -> frel rel s t ->
  fw fr_ (parseTokenLoop o1 cfg f isTok s) (parseTokenLoop o2 cfg f isTok t).
Proof.
  induction f as [|f IH]; intros isTok s t Het H; cbn [parseTokenLoop]; [exact I|].
  eapply fw_bind; [apply f_control; auto with fdb|]. intros s1 t1 c [H1 [H1n _]].
  destruct (isTokAt isTok c) as [[|]|] eqn:Et; [| |exact I].
  - assert (Hc : c <> CEndOfText) by congruence.
    eapply fw_bind; [apply f_tokenChar; auto|]. intros s2 t2 u H2.
    eapply fw_bind; [apply f_skip; auto with fdb|]. intros s3 t3 u3 H3. apply IH; auto.
  - destruct (ctl_eqb c CAmp) eqn:Ea; [|apply fw_ret; auto with fdb].
    eapply fw_bind; [apply f_skip; apply H1n; intros ->; discriminate|]. intros s2 t2 u2 H2.
    eapply fw_bind; [apply f_parseEntity; auto with fdb|]. intros s3 t3 ok H3.
    destruct ok; [apply IH|apply fw_ret]; auto with fdb.
Qed.

Lemma f_parseToken : forall f isTok s t, isTokAt isTok CEndOfText = Some false -> frel rel s t ->
  fw fr_ (parseToken o1 cfg f isTok s) (parseToken o2 cfg f isTok t).
Proof.
  intros f isTok s t Het H. unfold parseToken. rewrite <- (frel_tok _ _ _ H).
  destruct (tk_id (sc_tok s)); try (apply f_parseTokenLoop; auto with fdb; fail);
  try (eapply fw_bind; [apply f_recover; auto|]; intros s1 t1 ok H1;
       destruct ok; [apply f_parseTokenLoop; auto|apply fw_ret; auto with fdb]; fail).
  apply f_parseTokenLoop; [exact Het|]. destruct H as [st er r t ob tp tp' tk Hr Hp].
  unfold set_obuf, upd_tok, set_tok, set_tokpos. cbn. constructor; auto.
Qed.

Lemma f_skipTokenLoop : forall f isTok s t, isTokAt isTok CEndOfText = Some false -> frel rel s t ->
  fw fr_ (skipTokenLoop o1 f isTok s) (skipTokenLoop o2 f isTok t).
Proof.
  induction f as [|f IH]; intros isTok s t Het H; cbn [skipTokenLoop]; [exact I|].
  eapply fw_bind; [apply f_control; auto with fdb|]. intros s1 t1 c [H1 [H1n _]].
  destruct (isTokAt isTok c) as [b|] eqn:Et; [|exact I].
  destruct (b || ctl_eqb c CAmp) eqn:Eb.
  - assert (Hc : c <> CEndOfText) by (intros ->; rewrite Het in Et; injection Et as <-; discriminate Eb).
    eapply fw_bind; [apply f_skip; auto|]. intros s2 t2 u2 H2. apply IH; auto.
  - eapply fw_bind; [apply f_control; auto with fdb|]. intros s2 t2 c2 [H2 _].
    destruct (ctl_eqb c2 CAny); [apply IH|apply fw_ret]; auto with fdb.
Qed.

Lemma f_expectLoop : forall k s t, Forall (fun c => c <> 0) k -> frel rel s t -> fw fr_ (expectLoop o1 k s) (expectLoop o2 k t).
Proof.
  induction k as [|x k IH]; intros s t Hk H; cbn [expectLoop]; [apply fw_ret; auto with fdb|].
  inversion Hk as [|x' k' Hx Hk']; subst.
  eapply fw_bind; [apply f_ascii; auto with fdb|]. intros s1 t1 c [H1 Hn].
  destruct (N.eqb_spec c x) as [->|Hc].
  - eapply fw_bind; [apply f_skip; auto with fdb|]. intros s2 t2 u2 H2. apply IH; auto with fdb.
  - eapply fw_bind; [apply f_control; auto with fdb|]. intros s2 t2 c2 [H2 _].
    apply fw_ret; auto with fdb.
Qed.

Lemma f_doAction : forall f mask a arg s t, frel rel s t -> fw fr_ (doAction o1 cfg f mask a arg s) (doAction o2 cfg f mask a arg t).
Proof.
  intros f mask a arg s t H. unfold doAction. rewrite <- (frel_tok _ _ _ H).
  destruct (tokenDef a) as [isTok|] eqn:Etd.
  - assert (Het : isTokAt isTok CEndOfText = Some false) by (destruct a; inversion Etd; reflexivity).
    assert (Hp : fw fr_
       (if N.testbit mask (etype_idx arg) then parseToken o1 cfg f isTok s else skipTokenLoop o1 f isTok s)
       (if N.testbit mask (etype_idx arg) then parseToken o2 cfg f isTok t else skipTokenLoop o2 f isTok t)).
    { destruct (N.testbit mask (etype_idx arg)); [apply f_parseToken|apply f_skipTokenLoop]; auto. }
    destruct (tk_id (sc_tok s)); try (apply fw_ret; auto; fail);
     (eapply fw_bind; [exact Hp|]; intros s1 t1 ok H1; destruct ok; apply fw_ret; auto).
  - destruct (stringDef a) as [k|] eqn:Esd.
    + assert (Hp : fw fr_
         (let! (s1, ok) := expectStr o1 k s in
              if ok
              then match a with
                   | ExpectIdentifierXML =>
                       Ret (push cfg 108 (push cfg 109 (push cfg 120 (push cfg 63 s1)))) (inl EHeaderStart)
                   | _ => Ret s1 (inl ENone)
                   end
              else Ret s1 (inr tt))
         (let! (s1, ok) := expectStr o2 k t in
              if ok
              then match a with
                   | ExpectIdentifierXML =>
                       Ret (push cfg 108 (push cfg 109 (push cfg 120 (push cfg 63 s1)))) (inl EHeaderStart)
                   | _ => Ret s1 (inl ENone)
                   end
              else Ret s1 (inr tt))).
      { eapply fw_bind.
        - unfold expectStr.
          rewrite (frel_tok rel (upd_tok (tok_id TParsingKey) s) (upd_tok (tok_id TParsingKey) t)) by auto with fdb.
          destruct (Nat.leb _ _); [|constructor]. apply f_expectLoop; [|auto with fdb].
          assert (Hk : Forall (fun c => c <> 0) k).
          { destruct a; inversion Esd; subst; repeat constructor; discriminate. }
          revert Hk. generalize (tk_pos (sc_tok (upd_tok (tok_id TParsingKey) t))). intros n Hk.
          rewrite <- (firstn_skipn n k) in Hk. apply Forall_app in Hk. apply Hk.
        - intros s1 t1 ok H1. destruct ok; [|apply fw_ret; auto].
          destruct a; apply fw_ret; auto with fdb. }
      destruct (tk_id (sc_tok s)); try exact Hp. apply fw_ret. auto.
    + destruct H as [st er r t ob tp tp' tk Hr Hp]. apply fw_ret. constructor; auto.
Qed.

(** behind the end of the text *)
Inductive fdead : scanner R -> scanner T -> Prop :=
| fdead_i : forall s t, frel (fun _ => Z) s t -> sc_state s = EXIT \/ endless (sc_state s) = true -> fdead s t.
Definition fany (s : scanner R) (t : scanner T) : Prop := frel rel s t \/ fdead s t.

Lemma end_next2 : forall s e ns, stm_get s = Some e -> nth_error (el_next e) (ctl_idx CEndOfText) = Some (Some ns) -> ns = EXIT \/ endless ns = true.
Proof.
  intros s e ns H. destruct s; vm_compute in H; injection H as <-; cbn; intros E; inversion E; subst; cbn; auto.
Qed.

Lemma f_transition : forall s0 e c s t, stm_get s0 = Some e -> frel relp s t -> (c <> CEndOfText -> frel reln s t) ->
  fw (fun s' t' _ => fany s' t') (transition o1 e c s) (transition o2 e c t).
Proof.
  intros s0 e c s t He H Hn. unfold transition.
  destruct (nth_error (el_next e) (ctl_idx c)) as [[ns|]|] eqn:En; [| |exact I].
  - destruct (ctl_eqb c CEndOfText) eqn:Ec.
    + assert (c = CEndOfText) by (destruct c; try discriminate Ec; reflexivity). subst c.
      pose proof (end_next2 _ _ _ He En) as Hns.
      pose proof (f_skip_end (set_state ns s) (set_state ns t) ltac:(auto with fdb)) as Hk.
      assert (Hst : forall s1 u, sc_skip o1 (set_state ns s) = Ret s1 u -> sc_state s1 = ns).
      { intros s1 u E. unfold sc_skip, on_src in E. destruct (r_skip o1 _); inversion E. reflexivity. }
      destruct (sc_skip o2 (set_state ns t)) as [t1 u| | | |]; cbn [bind fw] in *; try exact I.
      destruct Hk as [s1 [E Hk]]. rewrite E. cbn [bind]. eexists. split; [reflexivity|].
      destruct Hk as [Hk|Hk]; [left; exact Hk|]. right. constructor; [exact Hk|]. rewrite (Hst _ _ E). exact Hns.
    + assert (c <> CEndOfText) by (intros ->; discriminate Ec).
      eapply fw_bind; [apply f_skip; auto with fdb|]. intros s2 t2 u2 H2. apply fw_ret. left. auto.
  - destruct (el_fallback e); [apply fw_ret; left; auto with fdb|].
    destruct (el_miss e); apply fw_ret; left; auto with fdb.
Qed.

Lemma dead_nextItem : forall f mask s t, fdead s t -> fw (fun s' t' _ => fany s' t') (nextItem o1 cfg f mask s) (nextItem o2 cfg f mask t).
Proof.
  intros f mask s t [s' t' H [E|E]].
  - destruct f as [|f]; [exact I|]. cbn [nextItem]. rewrite <- (frel_state _ _ _ H), E. cbv [stm_get].
    destruct (stm_get_some EXIT) as [e He]. unfold stm_get in *. rewrite He. vm_compute in He. injection He as <-. cbn [el_action el_nofnext el_fallback].
    cbn. eexists. split; [reflexivity|]. right. destruct H as [st er r u ob tp tp' tk Hz Hb]. cbn in E. subst st.
    constructor; [|left; reflexivity]. cbn. constructor; auto.
  - assert (Hf : nextItem o2 cfg f mask t' = Fuel).
    { apply (endless_fuel o2 cfg Z (fs_Z _ _ _ _ _ _ Hs)); [rewrite <- (frel_state _ _ _ H); exact E|]. destruct H. assumption. }
    rewrite Hf. exact I.
Qed.

Theorem f_nextItem : forall f mask s t, fany s t -> fw (fun s' t' _ => fany s' t') (nextItem o1 cfg f mask s) (nextItem o2 cfg f mask t).
Proof.
  induction f as [|f IH]; intros mask s t [H|H]; try (apply dead_nextItem; exact H); [exact I|]. cbn [nextItem].
  rewrite <- (frel_state _ _ _ H).
  destruct (stm_get (sc_state s)) as [e|] eqn:He; [|exact I].
  eapply fw_bind with (Q := fr_).
  - destruct (el_action e) as [[a arg]|]; [|apply fw_ret; auto].
    eapply fw_bind; [apply f_doAction; eauto|]. intros s1 t1 res H1.
    destruct res as [rt|]; [|apply fw_ret; auto].
    destruct (Nat.eqb (el_nofnext e) 0); [|apply fw_ret; auto].
    apply fw_ret. destruct (el_fallback e); auto with fdb.
  - intros s1 t1 [rt b] H1. cbn [fst snd]. destruct b; [apply fw_ret; left; auto|].
    eapply fw_bind; [apply f_control; auto|]. intros s2 t2 c [H2 [H2n _]].
    eapply fw_bind; [eapply f_transition; eauto with fdb|]. intros s3 t3 ok H3.
    destruct ok; [|apply fw_ret; auto].
    destruct (isNone rt); [apply IH; auto|apply fw_ret; auto].
Qed.

Lemma fany_element : forall s t ty, fany s t -> element (observe o1 ty s) = element (observe o2 ty t).
Proof. intros s t ty [[]|[? ? [] _]]; reflexivity. Qed.

Theorem f_scan : forall masks f s t t' evs, fany s t -> scan o2 cfg f masks t = Ret t' evs ->
  exists s' evs', scan o1 cfg f masks s = Ret s' evs' /\ fany s' t' /\ map element evs' = map element evs.
Proof.
  induction masks as [|m masks IH]; intros f s t t' evs H E; cbn [scan] in *.
  - injection E as <- <-. eauto.
  - pose proof (f_nextItem f m s t H) as Hn. destruct (nextItem o2 cfg f m t) as [t1 ty| | | |]; cbn [bind] in E; try discriminate.
    destruct Hn as [s1 [En H1]]. rewrite En. cbn [bind].
    destruct (scan o2 cfg f masks t1) as [t2 evs1| | | |] eqn:E2; cbn [bind] in E; try discriminate. injection E as <- <-.
    destruct (IH f s1 t1 t2 evs1 H1 E2) as [s2 [evs2 [-> [H2 Hm]]]]. cbn [bind]. eexists _, _. split; [reflexivity|]. split; [exact H2|].
    cbn [map]. rewrite Hm. f_equal. apply fany_element. exact H1.
Qed.
End Fwd.
