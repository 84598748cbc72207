(** The scanner has no undefined behaviour (proofs). *)
From Verif Require Import Base Iter CharMap CodePages Charset TextScanner Ideal ReaderSim ScannerSim IterSim
  ReadSpec ReadProofs XmlScanner ScanSpec ScanProofs.

(** outcome without undefined behaviour or exception, with postconditions *)
Definition safe {S A} (Q : S -> A -> Prop) (J : S -> Prop) (x : out S A) : Prop :=
  match x with
  | Ret s a => Q s a
  | Jump s => J s
  | Throw _ => False
  | Undef => False
  | Fuel => True
  end.

Lemma safe_bind : forall {S A B} (Q : S -> A -> Prop) (Q2 : S -> B -> Prop) J (x : out S A) f,
  safe Q J x -> (forall s a, Q s a -> safe Q2 J (f s a)) -> safe Q2 J (bind x f).
Proof. intros S A B Q Q2 J x f H Hf. destruct x; cbn [bind safe] in *; auto. Qed.

Lemma safe_weaken : forall {S A} (Q Q2 : S -> A -> Prop) (J J2 : S -> Prop) (x : out S A),
  safe Q J x -> (forall s a, Q s a -> Q2 s a) -> (forall s, J s -> J2 s) -> safe Q2 J2 x.
Proof. intros S A Q Q2 J J2 x H H1 H2. destruct x; cbn [safe] in *; auto. Qed.

Lemma isTokAt_some : forall a isTok c, tokenDef a = Some isTok -> exists b, isTokAt isTok c = Some b.
Proof. intros a isTok c H. destruct a; inversion H; subst; destruct c; eexists; reflexivity. Qed.

Lemma HEX_some : forall c, c < 128 -> exists v, HEX c = Some v.
Proof.
  intros c Hc. assert (H : forallb (fun c => match HEX c with Some _ => true | None => false end) (map N.of_nat (seq 0 128)) = true)
    by (vm_compute; reflexivity).
  rewrite forallb_forall in H. specialize (H c). rewrite in_map_iff in H.
  destruct (HEX c); [eauto|]. discriminate H. exists (N.to_nat c). split; [lia|]. apply in_seq. lia.
Qed.

Lemma length_upd : forall {A} i (x : A) l, length (upd i x l) = length l.
Proof. induction i as [|i IH]; intros x l; destruct l; cbn [upd length]; auto. Qed.

Lemma stm_get_some : forall s, exists e, stm_get s = Some e.
Proof. intros s. destruct s; eexists; reflexivity. Qed.

Lemma stm_next_length : forall s e, stm_get s = Some e -> length (el_next e) = NofControlCharacter.
Proof. intros s e H. destruct s; vm_compute in H; injection H as <-; reflexivity. Qed.

Lemma next_some : forall s e c, stm_get s = Some e -> exists o, nth_error (el_next e) (ctl_idx c) = Some o.
Proof.
  intros s e c H. pose proof (stm_next_length s e H) as Hl.
  destruct (nth_error (el_next e) (ctl_idx c)) eqn:E; [eauto|].
  apply nth_error_None in E. rewrite Hl in E. unfold NofControlCharacter in E. destruct c; cbn in E; lia.
Qed.

(** what holds of the state after a return and after an interrupt *)
Section Interrupts.
Context {R : Type} (rops : readerops R) (cfg : config) (st : stm).
Notation scn := (scanner R).
Definition jp {A} (Q : scn -> A -> Prop) (J : scn -> Prop) (x : out scn A) : Prop := match x with Ret s a => Q s a | Jump s => J s | _ => True end.
Definition JI (s : scn) : Prop := sc_state s = st /\ tk_id (sc_tok s) <> TParsingDone.
Definition Z0 {A} (s : scn) (a : A) : Prop := sc_state s = st /\ tk_pos (sc_tok s) = 0%nat.
Notation jq := (jp (fun s _ => JI s) JI).
Lemma jp_bind : forall {A B} (Q : scn -> A -> Prop) (Q2 : scn -> B -> Prop) J (x : out scn A) f, jp Q J x -> (forall s a, Q s a -> jp Q2 J (f s a)) -> jp Q2 J (bind x f).
Proof. intros A B Q Q2 J x f H Hf. destruct x; cbn [bind jp] in *; auto. Qed.
Lemma jp_weaken : forall {A} (Q Q2 : scn -> A -> Prop) (J J2 : scn -> Prop) x, jp Q J x -> (forall s a, Q s a -> Q2 s a) -> (forall s, J s -> J2 s) -> jp Q2 J2 x.
Proof. intros A Q Q2 J J2 x H H1 H2. destruct x; cbn [jp] in *; auto. Qed.
Lemma j_src : forall {A} (m : R -> out R A) s, JI s -> jq (on_src m s).
Proof. intros A m s H. unfold on_src. destruct (m (sc_src s)); cbn [omap jp]; auto. Qed.
Lemma j_id : forall i s, JI s -> i <> TParsingDone -> JI (upd_tok (tok_id i) s).
Proof. intros i s [H _] Hi. split; assumption. Qed.
Lemma j_init : forall i s, JI s -> i <> TParsingDone -> JI (upd_tok (tok_init i) s).
Proof. intros i s [H _] Hi. split; assumption. Qed.
Lemma j_pushes : forall l s, JI s -> JI (pushes cfg l s).
Proof. induction l as [|c l IH]; intros s H; cbn [pushes]; [exact H|]. apply IH. exact H. Qed.
Lemma j_fallback : forall s, JI s -> JI (fallbackEntity cfg s).
Proof. intros s H. unfold fallbackEntity. destruct (tk_id (sc_tok s)); try exact H; apply j_pushes; exact H. Qed.
Lemma j_put : forall c s t, JI s -> tok_put c (sc_tok s) = Some t -> forall v, JI (set_tok t s) /\ JI (set_tok (tok_incpos t) s) /\ JI (set_tok (tok_value v (tok_incpos t)) s).
Proof. intros c s t [H1 H2] H v. unfold tok_put in H. destruct (Nat.ltb _ _); [|discriminate]. injection H as <-. repeat split; cbn; assumption. Qed.
Lemma j_numBaseLoop : forall k s, JI s -> jq (numBaseLoop rops cfg k s).
Proof.
  induction k as [|k IH]; intros s H; cbn [numBaseLoop]; [apply j_fallback; exact H|].
  eapply jp_bind; [apply j_src; exact H|]. intros s1 c H1. cbn beta in H1. destruct (c =? 59).
  - destruct (0xFFFFFFFF <? _).
    + destruct (tok_put c (sc_tok s1)) as [t|] eqn:E; [|exact I]. destruct (j_put c s1 t H1 E 0) as [_ [G _]]. apply j_fallback. exact G.
    + eapply jp_bind; [apply j_src; apply j_init; [exact H1|discriminate]|]. intros s3 u H3. exact H3.
  - destruct (HEX c) as [v|]; [|exact I]. destruct (_ <=? v); [apply j_fallback; exact H1|].
    destruct (tok_put c (sc_tok s1)) as [t|] eqn:E; [|exact I]. cbv zeta. eapply jp_bind; [apply j_src; apply (j_put c s1 t H1 E)|]. intros s2 u H2. apply IH. exact H2.
Qed.
Lemma j_numericBase : forall s, JI s -> jq (parseNumericBaseEntity rops cfg s).
Proof. intros s H. apply j_numBaseLoop. apply j_id; [exact H|discriminate]. Qed.
Lemma j_numeric : forall s, JI s -> jq (parseNumericEntity rops cfg s).
Proof.
  intros s H. unfold parseNumericEntity. eapply jp_bind; [apply j_src; apply j_id; [exact H|discriminate]|]. intros s1 c H1. cbn beta in H1. destruct (c =? 120).
  - eapply jp_bind; [apply j_src; exact H1|]. intros s2 u H2. apply j_numericBase. exact H2.
  - apply j_numericBase. exact H1.
Qed.
Lemma j_namedLoop : forall k s c, JI s -> jq (namedLoop rops k s c).
Proof.
  induction k as [|k IH]; intros s c H; cbn [namedLoop]; [exact H|]. destruct (c =? 59); [exact H|].
  eapply jp_bind; [apply j_src; exact H|]. intros s1 cc H1. cbn beta in H1. destruct (ctl_eqb cc CAny); [|exact H1].
  destruct (tok_put c (sc_tok s1)) as [t|] eqn:E; [|exact I]. eapply jp_bind; [apply j_src; apply (j_put c s1 t H1 E 0)|]. intros s2 u H2.
  eapply jp_bind; [apply j_src; exact H2|]. intros s3 c' H3. apply IH. exact H3.
Qed.
Lemma j_pushEntity : forall s, JI s -> JI (fst (pushEntity cfg s)).
Proof. intros s H. unfold pushEntity. destruct (predefined _); [exact H|]. destruct (cf_map cfg) as [m|]; [|exact H]. destruct (map_find _ _); exact H. Qed.
Lemma j_named : forall s, JI s -> jq (parseNamedEntity rops cfg s).
Proof.
  intros s H. unfold parseNamedEntity. eapply jp_bind; [apply j_src; apply j_id; [exact H|discriminate]|]. intros s1 c H1. cbn beta in H1.
  eapply jp_bind; [apply j_namedLoop; exact H1|]. intros s2 c2 H2. cbn beta in H2. destruct (c2 =? 59); [|apply j_fallback; exact H2].
  destruct (tok_put 0 (sc_tok s2)) as [t|] eqn:E; [|exact I]. destruct (j_put 0 s2 t H2 E 0) as [G _]. apply j_pushEntity in G. destruct (pushEntity cfg _) as [s3 ok]. cbn [fst] in G. destruct ok; [|exact G].
  eapply jp_bind; [apply j_src; apply j_init; [exact G|discriminate]|]. intros s4 u H4. exact H4.
Qed.
Lemma j_entity : forall s, JI s -> jq (parseEntity rops cfg s).
Proof.
  intros s H. unfold parseEntity. eapply jp_bind; [apply j_src; apply j_id; [exact H|discriminate]|]. intros s1 c H1. cbn beta in H1. destruct (c =? 35).
  - eapply jp_bind; [apply j_src; exact H1|]. intros s2 u H2. apply j_numeric. exact H2.
  - apply j_named. exact H1.
Qed.
Lemma j_tokenChar : forall s, JI s -> jq (tokenChar rops cfg s).
Proof.
  intros s H. unfold tokenChar. eapply jp_bind; [apply j_src; exact H|]. intros s1 c H1. cbn beta in H1. destruct (c =? 13); [exact H1|]. destruct (c =? 10); [destruct (tk_cr (sc_tok s1)); exact H1|].
  eapply jp_bind with (Q := fun s _ => JI s); [|intros s2 u H2; exact H2]. unfold copychar. destruct (cf_raw cfg); (eapply jp_bind; [apply j_src; exact H1|]; intros s2 u H2; exact H2).
Qed.
Lemma j_tokenLoop : forall isTok f s, JI s -> jp Z0 JI (parseTokenLoop rops cfg f isTok s).
Proof.
  intros isTok. induction f as [|f IH]; intros s H; cbn [parseTokenLoop]; [exact I|]. eapply jp_bind; [apply j_src; exact H|]. intros s1 c H1. cbn beta in H1.
  destruct (isTokAt isTok c) as [[|]|]; [| |exact I].
  - eapply jp_bind; [apply j_tokenChar; exact H1|]. intros s2 u H2. eapply jp_bind; [apply j_src; exact H2|]. intros s3 u3 H3. apply IH. exact H3.
  - destruct (ctl_eqb c CAmp); [|destruct H1; split; [assumption|reflexivity]]. eapply jp_bind; [apply j_src; exact H1|]. intros s2 u H2. eapply jp_bind; [apply j_entity; exact H2|]. intros s3 ok H3. cbn beta in H3.
    destruct ok; [apply IH; apply j_init; [exact H3|discriminate]|destruct H3; split; [assumption|reflexivity]].
Qed.
Lemma j_token : forall isTok f s, JI s -> jp Z0 JI (parseToken rops cfg f isTok s).
Proof.
  intros isTok f s H. unfold parseToken.
  assert (Hrec : jp Z0 JI (let! (s1, ok) := parseTokenRecover rops cfg s in if ok then parseTokenLoop rops cfg f isTok s1 else Ret (upd_tok (tok_init TStart) s1) false)).
  { eapply jp_bind with (Q := fun s ok => sc_state s = st /\ (ok = true -> JI s)); [|intros s1 ok [H1 H2]; destruct ok; [apply j_tokenLoop; auto|split; [exact H1|reflexivity]]].
    unfold parseTokenRecover.
    assert (Hf : forall m : out scn bool, jq m -> jp (fun s ok => sc_state s = st /\ (ok = true -> JI s)) JI (let! (s1, rt) := m in Ret (upd_tok (tok_init TParsingToken) s1) rt)).
    { intros m Hm. eapply jp_bind; [exact Hm|]. intros s1 a H1. cbn beta in H1. split; [apply H1|]. intros _. apply j_init; [exact H1|discriminate]. }
    assert (Hn : jp (fun s ok => sc_state s = st /\ (ok = true -> JI s)) JI (Ret (set_err ErrInternal s) false)) by (split; [apply H|discriminate]).
    destruct (tk_id (sc_tok s)); try exact Hn; apply Hf; first [apply j_entity|apply j_numeric|apply j_numericBase|apply j_named]; exact H. }
  destruct (tk_id (sc_tok s)) eqn:E; try exact Hrec; apply j_tokenLoop; [|exact H]. destruct H. split; [assumption|discriminate].
Qed.
Lemma j_expectLoop : forall n k s, sc_state s = st -> tk_id (sc_tok s) = TParsingKey -> (tk_pos (sc_tok s) + length k <= n)%nat ->
  jp Z0 (fun s => JI s /\ (tk_pos (sc_tok s) <= n)%nat) (expectLoop rops k s).
Proof.
  intros n. induction k as [|x k IH]; intros s H1 H2 H3; cbn [expectLoop]; [split; [exact H1|reflexivity]|]. cbn [length] in H3.
  assert (S1 : forall A (m : R -> out R A) (s : scn), sc_state s = st -> tk_id (sc_tok s) = TParsingKey -> (tk_pos (sc_tok s) <= n)%nat ->
    jp (fun s' _ => sc_state s' = st /\ sc_tok s' = sc_tok s) (fun s => JI s /\ (tk_pos (sc_tok s) <= n)%nat) (on_src m s)).
  { intros A m s0 G1 G2 G3. unfold on_src. destruct (m (sc_src s0)); cbn [omap jp]; auto. repeat split; cbn; auto. rewrite G2. discriminate. }
  eapply jp_bind; [apply S1; [exact H1|exact H2|lia]|]. intros s1 c [G1 G2]. cbn beta in G1, G2. destruct (c =? x).
  - eapply jp_bind; [apply S1; rewrite ?G2; [exact G1|exact H2|lia]|]. intros s2 u [F1 F2]. cbn beta in F1, F2. apply IH; cbn; rewrite ?F2, ?G2; [exact F1|exact H2|lia].
  - eapply jp_bind; [apply S1; rewrite ?G2; [exact G1|exact H2|lia]|]. intros s2 u [F1 F2]. split; [exact F1|reflexivity].
Qed.
Lemma j_skipToken : forall isTok f s, sc_state s = st -> tk_pos (sc_tok s) = 0%nat -> jp Z0 (fun s => sc_state s = st /\ tk_pos (sc_tok s) = 0%nat) (skipTokenLoop rops f isTok s).
Proof.
  intros isTok. assert (S1 : forall A (m : R -> out R A) (s : scn), sc_state s = st -> tk_pos (sc_tok s) = 0%nat -> jp Z0 (fun s => sc_state s = st /\ tk_pos (sc_tok s) = 0%nat) (on_src m s)).
  { intros A m s G1 G2. unfold on_src. destruct (m (sc_src s)); cbn [omap jp]; auto; split; assumption. }
  induction f as [|f IH]; intros s H1 H2; cbn [skipTokenLoop]; [exact I|]. eapply jp_bind; [apply S1; assumption|]. intros s1 c [G1 G2].
  destruct (isTokAt isTok c) as [b|]; [|exact I]. destruct (b || ctl_eqb c CAmp).
  - eapply jp_bind; [apply S1; assumption|]. intros s2 u [F1 F2]. apply IH; assumption.
  - eapply jp_bind; [apply S1; assumption|]. intros s2 u [F1 F2]. destruct (ctl_eqb u CAny); [apply IH; assumption|split; assumption].
Qed.
End Interrupts.

(** The place in the buffer for references is not 0 only while a reference or a keyword is read: a call repeated with the same mask
    goes on reading it. *)
Definition pz (mask : N) (st : stm) (tk : tokstate) : Prop :=
  tk_pos tk = 0%nat \/ (tk_id tk <> TParsingDone /\ exists e a arg, stm_get st = Some e /\ el_action e = Some (a, arg) /\
    match tokenDef a, stringDef a with
    | Some _, _ => N.testbit mask (etype_idx arg) = true
    | None, Some k => (tk_pos tk <= length k)%nat
    | None, None => False
    end).

Section Safe.
Context {R : Type} (rops : readerops R) (cfg : config) (Ir : R -> Prop).
Hypothesis Hcontrol : forall r, Ir r -> safe (fun r' _ => Ir r') Ir (r_control rops r).
(** [Ip] holds after ascii(), then skip() is not interrupted *)
Context (Ip : R -> Prop).
Hypothesis Hascii : forall r, Ir r -> safe (fun r' c => Ir r' /\ c < 128 /\ Ip r') Ir (r_ascii rops r).
Hypothesis HskipP : forall r, Ir r -> Ip r -> safe (fun r' _ => Ir r') (fun _ => False) (r_skip rops r).
Hypothesis Hchr : forall r, Ir r -> safe (fun r' _ => Ir r') Ir (r_chr rops r).
Hypothesis Hraw : forall r, Ir r -> safe (fun r' _ => Ir r') Ir (r_raw rops r).
Hypothesis Hskip : forall r, Ir r -> safe (fun r' _ => Ir r') Ir (r_skip rops r).

Notation scn := (scanner R).
(** reader invariant and the size of the token buffer *)
Definition SI0 (s : scn) : Prop := Ir (sc_src s) /\ length (tk_buf (sc_tok s)) = 16%nat.
Definition SI (s : scn) : Prop := SI0 s /\ (tk_pos (sc_tok s) <= 15)%nat.
(** between calls and after an interrupt of a call with a mask *)
Definition SZ (s : scn) : Prop := SI s /\ tk_pos (sc_tok s) = 0%nat.
Definition SE (mask : N) (s : scn) : Prop := SI s /\ pz mask (sc_state s) (sc_tok s).

Notation same s s' := (sc_tok s' = sc_tok s /\ sc_state s' = sc_state s).

Lemma safe_on_src : forall {A} (m : R -> out R A) (Q : A -> Prop) (s : scn), SI0 s ->
  safe (fun r a => Ir r /\ Q a) Ir (m (sc_src s)) ->
  safe (fun s' a => SI0 s' /\ same s s' /\ Q a) (fun s' => SI0 s' /\ same s s') (on_src m s).
Proof.
  intros A m Q s [H1 H2] H. unfold on_src. destruct (m (sc_src s)); cbn [omap safe] in *; auto.
  - destruct H. repeat split; auto.
  - repeat split; auto.
Qed.
Ltac fr := cbn [sc_tok sc_src sc_state set_src set_state set_err set_obuf set_tokpos set_tok upd_tok push
  tok_id tok_init tok_cr tok_base tok_incpos tok_value tk_pos tk_buf tk_id tk_cr tk_base tk_value] in *.

Lemma safe_control : forall s, SI0 s -> safe (fun s' a => SI0 s' /\ same s s' /\ True) (fun s' => SI0 s' /\ same s s') (sc_control rops s).
Proof.
  intros s H. apply safe_on_src; auto. eapply safe_weaken; [apply Hcontrol; apply H| |]; cbn; auto.
Qed.
Lemma safe_asciiP : forall s, SI0 s -> safe (fun s' a => SI0 s' /\ same s s' /\ a < 128 /\ Ip (sc_src s')) (fun s' => SI0 s' /\ same s s') (sc_ascii rops s).
Proof.
  intros s [H1 H2]. unfold sc_ascii, on_src. pose proof (Hascii _ H1) as H.
  destruct (r_ascii rops (sc_src s)); cbn [omap safe] in *; auto.
  - destruct H as [Ha [Hb Hc]]. repeat split; auto.
  - repeat split; auto.
Qed.
Lemma safe_ascii : forall s, SI0 s -> safe (fun s' a => SI0 s' /\ same s s' /\ a < 128) (fun s' => SI0 s' /\ same s s') (sc_ascii rops s).
Proof.
  intros s H. eapply safe_weaken; [apply safe_asciiP; exact H| |]; cbn; tauto.
Qed.
Lemma safe_skipP : forall s, SI0 s -> Ip (sc_src s) ->
  safe (fun s' a => SI0 s' /\ same s s' /\ True) (fun s' => False) (sc_skip rops s).
Proof.
  intros s [H1 H2] H3. unfold sc_skip, on_src. pose proof (HskipP _ H1 H3) as H.
  destruct (r_skip rops (sc_src s)); cbn [omap safe] in *; auto. repeat split; auto.
Qed.
Lemma safe_chr : forall s, SI0 s -> safe (fun s' a => SI0 s' /\ same s s' /\ True) (fun s' => SI0 s' /\ same s s') (sc_chr rops s).
Proof.
  intros s H. apply safe_on_src; auto. eapply safe_weaken; [apply Hchr; apply H| |]; cbn; auto.
Qed.
Lemma safe_raw : forall s, SI0 s -> safe (fun s' a => SI0 s' /\ same s s' /\ True) (fun s' => SI0 s' /\ same s s') (sc_raw rops s).
Proof.
  intros s H. apply safe_on_src; auto. eapply safe_weaken; [apply Hraw; apply H| |]; cbn; auto.
Qed.
Lemma safe_skip : forall s, SI0 s -> safe (fun s' a => SI0 s' /\ same s s' /\ True) (fun s' => SI0 s' /\ same s s') (sc_skip rops s).
Proof.
  intros s H. apply safe_on_src; auto. eapply safe_weaken; [apply Hskip; apply H| |]; cbn; auto.
Qed.

Lemma SI0_pushes : forall l s, SI0 s -> SI0 (pushes cfg l s) /\ same s (pushes cfg l s).
Proof.
  induction l as [|c l IH]; intros s H; cbn [pushes]; [auto|]. apply (IH (push cfg c s)). exact H.
Qed.
Lemma SI0_fallback : forall s, SI0 s -> SI0 (fallbackEntity cfg s) /\ same s (fallbackEntity cfg s).
Proof.
  intros s H. unfold fallbackEntity. destruct (tk_id (sc_tok s)); auto.
  - apply (SI0_pushes _ (push cfg 35 (push cfg 38 s))). exact H.
  - apply (SI0_pushes _ (push cfg 38 s)). exact H.
Qed.

(** apply a safety lemma to the first operation of a sequence *)
Ltac step L := eapply safe_bind; [eapply safe_weaken; [apply L; fr; auto| | ]|];
  [intros ? ? Hq; exact Hq| |].

Ltac sat := unfold SI, SI0 in *; fr; try (repeat match goal with
   | H : _ /\ _ |- _ => destruct H
   end); fr;
   repeat match goal with H : sc_tok ?x = _ |- _ => rewrite H in * end; fr;
   repeat split; fr; auto; try lia.

Lemma safe_numBaseLoop : forall k s, SI0 s -> (k + tk_pos (sc_tok s) <= 16)%nat ->
  safe (fun s' _ => SI0 s') SI (numBaseLoop rops cfg k s).
Proof.
  induction k as [|k IH]; intros s H Hk; cbn [numBaseLoop].
  - cbn [safe]. apply SI0_fallback. auto.
  - eapply safe_bind; [eapply safe_weaken; [apply safe_asciiP; exact H|intros s1 c H1; exact H1|]|].
    { intros s1 [H1 [H2 _]]. split; auto. rewrite H2. lia. }
    intros s1 c [H1 [[H2 H2'] [Hc Hpk]]].
    destruct (c =? 59).
    + destruct (0xFFFFFFFF <? tk_value (sc_tok s1)).
      * unfold tok_put. rewrite H2. destruct (Nat.ltb_spec (tk_pos (sc_tok s)) 16); [|lia]. cbn [safe].
        apply SI0_fallback. destruct H1 as [Hr Hb]. rewrite H2 in Hb. unfold SI0. fr. rewrite length_upd. auto.
      * eapply safe_bind; [eapply safe_weaken; [apply safe_skip| intros s2 u Hq; exact Hq |]|].
        { destruct H1. split; fr; auto. }
        { intros s2 [Ha [Hb _]]. split; auto. rewrite Hb. fr. lia. }
        intros s2 u [Ha _]. exact Ha.
    + destruct (HEX_some c Hc) as [v Hv]. rewrite Hv.
      destruct (tk_base (sc_tok s1) <=? v); [cbn [safe]; apply SI0_fallback; auto|].
      unfold tok_put. rewrite H2. destruct (Nat.ltb_spec (tk_pos (sc_tok s)) 16); [|lia].
      eapply safe_bind; [eapply safe_weaken; [apply safe_skipP| intros s2 u Hq; exact Hq |]|].
      { destruct H1 as [Hr Hb]. rewrite H2 in Hb. split; fr; rewrite ?length_upd; auto. }
      { exact Hpk. }
      { intros s2 []. }
      intros s2 u [Ha [[Hb _] _]]. apply IH; auto. rewrite Hb. fr. lia.
Qed.

Lemma safe_numericBase : forall s, SI s -> safe (fun s' _ => SI0 s') SI (parseNumericBaseEntity rops cfg s).
Proof.
  intros s [H Hp]. unfold parseNumericBaseEntity. apply safe_numBaseLoop; [exact H|fr; lia].
Qed.

Lemma safe_numeric : forall s, SI s -> safe (fun s' _ => SI0 s') SI (parseNumericEntity rops cfg s).
Proof.
  intros s [H Hp]. unfold parseNumericEntity.
  eapply safe_bind; [eapply safe_weaken; [apply safe_ascii; exact H|intros s1 c H1; exact H1|]|].
  { intros s1 [H1 [H2 _]]. split; auto. rewrite H2. fr. lia. }
  intros s1 c [H1 [[H2 _] Hc]]. destruct (c =? 120).
  - eapply safe_bind; [eapply safe_weaken; [apply safe_skip| intros s2 u Hq; exact Hq |]|].
    { exact H1. }
    { intros s2 [Ha [Hb _]]. split; auto. rewrite Hb. fr. rewrite H2. fr. lia. }
    intros s2 u [Ha [[Hb _] _]]. apply safe_numericBase. split; auto. rewrite Hb. fr. rewrite H2. fr. lia.
  - apply safe_numericBase. split; [exact H1|]. fr. rewrite H2. fr. lia.
Qed.

Lemma safe_namedLoop : forall k s c, SI s -> c < 128 -> (k + tk_pos (sc_tok s) <= 15)%nat ->
  safe (fun s' _ => SI s') SI (namedLoop rops k s c).
Proof.
  induction k as [|k IH]; intros s c [H Hp] Hc Hk; cbn [namedLoop]; [split; auto|].
  destruct (c =? 59); [split; auto|].
  eapply safe_bind; [eapply safe_weaken; [apply safe_control; exact H|intros s1 cc H1; exact H1|]|].
  { intros s1 [H1 [H2 _]]. split; auto. rewrite H2. lia. }
  intros s1 cc [H1 [[H2 _] _]]. destruct (ctl_eqb cc CAny); [|split; auto; rewrite H2; lia].
  unfold tok_put. rewrite H2. destruct (Nat.ltb_spec (tk_pos (sc_tok s)) 16); [|lia].
  eapply safe_bind; [eapply safe_weaken; [apply safe_skip| intros s2 u Hq; exact Hq |]|].
  { destruct H1 as [Hr Hb]. rewrite H2 in Hb. split; fr; rewrite ?length_upd; auto. }
  { intros s2 [Ha [Hb _]]. split; auto. rewrite Hb. fr. lia. }
  intros s2 u [Ha [[Hb _] _]].
  eapply safe_bind; [eapply safe_weaken; [apply safe_ascii; exact Ha|intros s3 c' H3; exact H3|]|].
  { intros s3 [H3 [H4 _]]. split; auto. rewrite H4. fr. rewrite Hb. fr. lia. }
  intros s3 c' [H3 [[H4 _] Hc']]. apply IH; auto.
  - split; auto. rewrite H4. fr. rewrite Hb. fr. lia.
  - rewrite H4. fr. rewrite Hb. fr. lia.
Qed.

Lemma SI0_pushEntity : forall s, SI0 s -> SI0 (fst (pushEntity cfg s)).
Proof.
  intros s H. unfold pushEntity. destruct (predefined _); [exact H|]. destruct (cf_map cfg) as [m|]; [|exact H].
  destruct (map_find _ _); exact H.
Qed.

Lemma safe_named : forall s, SI s -> safe (fun s' _ => SI0 s') SI (parseNamedEntity rops cfg s).
Proof.
  intros s [H Hp]. unfold parseNamedEntity.
  eapply safe_bind; [eapply safe_weaken; [apply safe_ascii; exact H|intros s1 c H1; exact H1|]|].
  { intros s1 [H1 [H2 _]]. split; auto. rewrite H2. fr. lia. }
  intros s1 c [H1 [[H2 _] Hc]].
  eapply safe_bind; [eapply safe_weaken; [apply safe_namedLoop|intros s2 c2 Hq; exact Hq|auto]|].
  { split; auto. rewrite H2. fr. lia. }
  { auto. }
  { rewrite H2. fr. lia. }
  intros s2 c2 [Ha Hb]. destruct (c2 =? 59); [|cbn [safe]; apply SI0_fallback; auto].
  unfold tok_put. destruct (Nat.ltb_spec (tk_pos (sc_tok s2)) 16); [|lia].
  match goal with |- context [pushEntity cfg ?x] => assert (Hx : SI0 x); [|pose proof (SI0_pushEntity x Hx) as Hy] end.
  { destruct Ha as [Hr Hb']. split; fr; rewrite ?length_upd; auto. }
  destruct (pushEntity cfg _) as [s3 ok]. cbn [fst] in Hy. destruct ok; [|exact Hy].
  eapply safe_bind; [eapply safe_weaken; [apply safe_skip| intros s4 u Hq; exact Hq |]|].
  { exact Hy. }
  { intros s4 [Hc4 [Hd _]]. split; auto. rewrite Hd. fr. lia. }
  intros s4 u [Hd _]. exact Hd.
Qed.

Lemma safe_parseEntity : forall s, SI s -> safe (fun s' _ => SI0 s') SI (parseEntity rops cfg s).
Proof.
  intros s [H Hp]. unfold parseEntity.
  eapply safe_bind; [eapply safe_weaken; [apply safe_ascii; exact H|intros s1 c H1; exact H1|]|].
  { intros s1 [H1 [H2 _]]. split; auto. rewrite H2. fr. lia. }
  intros s1 c [H1 [[H2 _] Hc]]. destruct (c =? 35).
  - eapply safe_bind; [eapply safe_weaken; [apply safe_skip| intros s2 u Hq; exact Hq |]|].
    { exact H1. }
    { intros s2 [Ha [Hb _]]. split; auto. rewrite Hb, H2. fr. lia. }
    intros s2 u [Ha [[Hb _] _]]. apply safe_numeric. split; auto. rewrite Hb, H2. fr. lia.
  - apply safe_named. split; [exact H1|]. rewrite H2. fr. lia.
Qed.

Lemma safe_recover : forall s, SI s -> safe (fun s' _ => SI s') SI (parseTokenRecover rops cfg s).
Proof.
  intros s H. unfold parseTokenRecover.
  assert (Hf : forall m, safe (fun s' _ => SI0 s') SI m ->
     safe (fun s' _ => SI s') SI (let! (s1, rt) := m in Ret (upd_tok (tok_init TParsingToken) s1) rt : out scn bool)).
  { intros m Hm. eapply safe_bind; [exact Hm|]. intros s1 a H1. split; [exact H1|fr; lia]. }
  destruct (tk_id (sc_tok s)); try (exact H);
   apply Hf; first [apply safe_parseEntity|apply safe_numeric|apply safe_numericBase|apply safe_named]; exact H.
Qed.

Lemma safe_copychar : forall s, SI s -> safe (fun s' _ => SI s') SI (copychar rops cfg s).
Proof.
  intros s [H Hp]. unfold copychar. destruct (cf_raw cfg).
  - eapply safe_bind; [eapply safe_weaken; [apply safe_raw; exact H|intros s1 c H1; exact H1|]|].
    { intros s1 [H1 [H2 _]]. split; auto. rewrite H2. lia. }
    intros s1 c [H1 [[H2 _] _]]. split; [exact H1|]. fr. rewrite H2. lia.
  - eapply safe_bind; [eapply safe_weaken; [apply safe_chr; exact H|intros s1 c H1; exact H1|]|].
    { intros s1 [H1 [H2 _]]. split; auto. rewrite H2. lia. }
    intros s1 c [H1 [[H2 _] _]]. split; [exact H1|]. fr. rewrite H2. lia.
Qed.

Lemma safe_tokenChar : forall s, SI s -> safe (fun s' _ => SI s') SI (tokenChar rops cfg s).
Proof.
  intros s [H Hp]. unfold tokenChar.
  eapply safe_bind; [eapply safe_weaken; [apply safe_ascii; exact H|intros s1 c H1; exact H1|]|].
  { intros s1 [H1 [H2 _]]. split; auto. rewrite H2. lia. }
  intros s1 c [H1 [[H2 _] _]].
  assert (Hs1 : SI s1) by (split; [exact H1|rewrite H2; lia]).
  destruct (c =? 13); [exact Hs1|]. destruct (c =? 10); [destruct (tk_cr (sc_tok s1)); exact Hs1|].
  eapply safe_bind; [apply safe_copychar; exact Hs1|]. intros s2 u H3. exact H3.
Qed.

Lemma safe_control1 : forall s, SI s -> safe (fun s' _ => SI s') SI (sc_control rops s).
Proof.
  intros s [H Hp]. eapply safe_weaken; [apply safe_control; exact H| |].
  - intros s1 c [H1 [[H2 _] _]]. split; auto. rewrite H2. lia.
  - intros s1 [H1 [H2 _]]. split; auto. rewrite H2. lia.
Qed.
Lemma safe_ascii1 : forall s, SI s -> safe (fun s' c => SI s' /\ c < 128) SI (sc_ascii rops s).
Proof.
  intros s [H Hp]. eapply safe_weaken; [apply safe_ascii; exact H| |].
  - intros s1 c [H1 [[H2 _] Hc]]. split; auto. split; auto. rewrite H2. lia.
  - intros s1 [H1 [H2 _]]. split; auto. rewrite H2. lia.
Qed.
Lemma safe_skip1 : forall s, SI s -> safe (fun s' _ => SI s') SI (sc_skip rops s).
Proof.
  intros s [H Hp]. eapply safe_weaken; [apply safe_skip; exact H| |].
  - intros s1 c [H1 [[H2 _] _]]. split; auto. rewrite H2. lia.
  - intros s1 [H1 [H2 _]]. split; auto. rewrite H2. lia.
Qed.

Lemma safe_parseTokenLoop : forall a isTok, tokenDef a = Some isTok -> forall f s, SI s ->
  safe (fun s' _ => SI s') SI (parseTokenLoop rops cfg f isTok s).
Proof.
  intros a isTok Ha. induction f as [|f IH]; intros s H; cbn [parseTokenLoop]; [exact I|].
  eapply safe_bind; [apply safe_control1; exact H|]. intros s1 c H1.
  destruct (isTokAt_some a isTok c Ha) as [b ->]. destruct b.
  - eapply safe_bind; [apply safe_tokenChar; exact H1|]. intros s2 u H2.
    eapply safe_bind; [apply safe_skip1; exact H2|]. intros s3 u3 H3. apply IH. exact H3.
  - destruct (ctl_eqb c CAmp).
    + eapply safe_bind; [apply safe_skip1; exact H1|]. intros s2 u H2.
      eapply safe_bind; [apply safe_parseEntity; exact H2|]. intros s3 ok H3.
      destruct ok; [apply IH|]; (split; [exact H3|fr; lia]).
    + destruct H1 as [H1 _]. split; [exact H1|fr; lia].
Qed.

Lemma safe_parseToken : forall a isTok, tokenDef a = Some isTok -> forall f s, SI s ->
  safe (fun s' _ => SI s') SI (parseToken rops cfg f isTok s).
Proof.
  intros a isTok Ha f s H. unfold parseToken.
  assert (Hrec : safe (fun s' _ => SI s') SI
     (let! (s1, ok) := parseTokenRecover rops cfg s in
      if ok then parseTokenLoop rops cfg f isTok s1 else Ret (upd_tok (tok_init TStart) s1) false)).
  { eapply safe_bind; [apply safe_recover; exact H|]. intros s1 ok H1.
    destruct ok; [eapply safe_parseTokenLoop; eauto|]. destruct H1. split; [assumption|fr; lia]. }
  destruct (tk_id (sc_tok s)); try exact Hrec; eapply safe_parseTokenLoop; eauto.
Qed.

Lemma safe_skipTokenLoop : forall a isTok, tokenDef a = Some isTok -> forall f s, SI s ->
  safe (fun s' _ => SI s') SI (skipTokenLoop rops f isTok s).
Proof.
  intros a isTok Ha. induction f as [|f IH]; intros s H; cbn [skipTokenLoop]; [exact I|].
  eapply safe_bind; [apply safe_control1; exact H|]. intros s1 c H1.
  destruct (isTokAt_some a isTok c Ha) as [b ->]. destruct (b || ctl_eqb c CAmp).
  - eapply safe_bind; [apply safe_skip1; exact H1|]. intros s2 u H2. apply IH. exact H2.
  - eapply safe_bind; [apply safe_control1; exact H1|]. intros s2 c2 H2.
    destruct (ctl_eqb c2 CAny); [apply IH|]; exact H2.
Qed.

Lemma safe_expectLoop : forall k s, SI s -> (length k + tk_pos (sc_tok s) <= 15)%nat ->
  safe (fun s' _ => SI s') SI (expectLoop rops k s).
Proof.
  induction k as [|x k IH]; intros s H Hk; cbn [expectLoop].
  - destruct H. split; [assumption|fr; lia].
  - cbn [length] in Hk. destruct H as [H Hp].
    eapply safe_bind; [eapply safe_weaken; [apply safe_ascii; exact H|intros s1 c H1; exact H1|]|].
    { intros s1 [H1 [H2 _]]. split; auto. rewrite H2. lia. }
    intros s1 c [H1 [[H2 _] _]]. destruct (c =? x).
    + eapply safe_bind; [eapply safe_weaken; [apply safe_skip; exact H1| intros s2 u Hq; exact Hq |]|].
      { intros s2 [Ha [Hb _]]. split; auto. rewrite Hb, H2. lia. }
      intros s2 u [Ha [[Hb _] _]]. apply IH; [split; [exact Ha|]|]; fr; rewrite Hb, H2; lia.
    + eapply safe_bind; [eapply safe_weaken; [apply safe_control; exact H1| intros s2 u Hq; exact Hq |]|].
      { intros s2 [Ha [Hb _]]. split; auto. rewrite Hb, H2. lia. }
      intros s2 u [Ha _]. split; [exact Ha|fr; lia].
Qed.

Lemma safe_jp : forall {A} (Q1 Q2 : scn -> A -> Prop) (J1 J2 : scn -> Prop) x, safe Q1 J1 x -> jp Q2 J2 x -> safe (fun s a => Q1 s a /\ Q2 s a) (fun s => J1 s /\ J2 s) x.
Proof. intros A Q1 Q2 J1 J2 x H1 H2. destruct x; cbn [safe jp] in *; auto. Qed.
Lemma safe_doAction : forall f mask e a arg s, stm_get (sc_state s) = Some e -> el_action e = Some (a, arg) -> SE mask s ->
  safe (fun s' _ => SZ s' /\ sc_state s' = sc_state s) (SE mask) (doAction rops cfg f mask a arg s).
Proof.
  intros f mask e a arg s He Ea [H Hz].
  assert (Hd : tk_id (sc_tok s) = TParsingDone -> tk_pos (sc_tok s) = 0%nat) by (intros E; destruct Hz as [Hz|[Hz _]]; [exact Hz|congruence]).
  assert (Hz' : tk_pos (sc_tok s) = 0%nat \/ (tk_id (sc_tok s) <> TParsingDone /\ match tokenDef a, stringDef a with
    | Some _, _ => N.testbit mask (etype_idx arg) = true | None, Some k => (tk_pos (sc_tok s) <= length k)%nat | None, None => False end)).
  { destruct Hz as [Hz|[Hz1 [e' [a' [arg' [G1 [G2 G3]]]]]]]; [left; exact Hz|right; split; [exact Hz1|]]. rewrite He in G1. injection G1 as <-. rewrite Ea in G2. injection G2 as <- <-. exact G3. }
  clear Hz. unfold doAction. destruct (tokenDef a) as [isTok|] eqn:Et.
  - assert (Hp : tk_id (sc_tok s) <> TParsingDone -> safe (fun s' _ => SZ s' /\ sc_state s' = sc_state s) (SE mask)
       (let! (s1, ok) := (if N.testbit mask (etype_idx arg) then parseToken rops cfg f isTok s
                            else skipTokenLoop rops f isTok s) in
          if ok then Ret s1 (inl arg) else Ret s1 (inr tt : etype + unit))).
    { intros Hn. eapply safe_bind with (Q := fun s' _ => SZ s' /\ sc_state s' = sc_state s); [|intros s1 ok H1; destruct ok; exact H1].
      destruct (N.testbit mask (etype_idx arg)) eqn:Eb.
      - eapply safe_weaken; [apply safe_jp; [eapply safe_parseToken; eauto|apply (j_token rops cfg (sc_state s)); split; [reflexivity|exact Hn]]| |].
        + intros s1 ok [G1 [G2 G3]]. split; [split; assumption|exact G2].
        + intros s1 [G1 [G2 G3]]. split; [exact G1|]. right. split; [exact G3|]. exists e, a, arg. rewrite G2, Et. auto.
      - assert (H0 : tk_pos (sc_tok s) = 0%nat) by (destruct Hz' as [G|[_ G]]; [exact G|congruence]).
        eapply safe_weaken; [apply safe_jp; [eapply safe_skipTokenLoop; eauto|apply (j_skipToken rops (sc_state s)); [reflexivity|exact H0]]| |].
        + intros s1 ok [G1 [G2 G3]]. split; [split; assumption|exact G2].
        + intros s1 [G1 [G2 G3]]. split; [exact G1|left; exact G3]. }
    destruct (tk_id (sc_tok s)) eqn:Ei; try (apply Hp; discriminate). split; [split; [exact H|apply Hd; reflexivity]|reflexivity].
  - destruct (stringDef a) as [k|] eqn:Ek.
    + assert (Hp : safe (fun s' _ => SZ s' /\ sc_state s' = sc_state s) (SE mask)
          (let! (s1, ok) := expectStr rops k s in
              if ok
              then match a with
                   | ExpectIdentifierXML =>
                       Ret (push cfg 108 (push cfg 109 (push cfg 120 (push cfg 63 s1)))) (inl EHeaderStart)
                   | _ => Ret s1 (inl ENone)
                   end
              else Ret s1 (inr tt : etype + unit))).
      { eapply safe_bind with (Q := fun s' _ => SZ s' /\ sc_state s' = sc_state s); [|intros s1 ok H1; destruct ok; [destruct a; exact H1|exact H1]].
        assert (Hl : (tk_pos (sc_tok s) <= length k)%nat) by (destruct Hz' as [G|[_ G]]; [lia|exact G]).
        unfold expectStr. fr. rewrite (proj2 (Nat.leb_le _ _) Hl).
        eapply safe_weaken; [apply safe_jp; [apply safe_expectLoop; [exact H|]|apply (j_expectLoop rops (sc_state s) (length k)); [reflexivity|reflexivity|fr; rewrite skipn_length; lia]]| |].
        - rewrite skipn_length. destruct H as [_ H]. fr. assert (length k <= 5)%nat by (destruct a; inversion Ek; cbn; lia). lia.
        - intros s1 ok [G1 [G2 G3]]. split; [split; assumption|exact G2].
        - intros s1 [G1 [[G2 G3] G4]]. split; [exact G1|]. right. split; [exact G3|]. exists e, a, arg. rewrite G2, Et, Ek. auto. }
      destruct (tk_id (sc_tok s)) eqn:Ei; try exact Hp. split; [split; [exact H|apply Hd; reflexivity]|reflexivity].
    + destruct Hz' as [Hz'|[_ []]]. split; [split; [exact H|exact Hz']|reflexivity].
Qed.
Lemma SZ_SE : forall mask s, SZ s -> SE mask s.
Proof. intros mask s [H1 H2]. split; [exact H1|left; exact H2]. Qed.
Lemma safe_src0 : forall {A} (m : R -> out R A) mask s, SZ s -> safe (fun s' _ => SI s') SI (on_src m s) -> safe (fun s' _ => SZ s' /\ sc_state s' = sc_state s) (SE mask) (on_src m s).
Proof.
  intros A m mask s [_ H] G. unfold on_src in *. destruct (m (sc_src s)); cbn [omap safe] in *; auto.
  - split; [split; assumption|reflexivity].
  - split; [exact G|left; exact H].
Qed.

Theorem safe_nextItem : forall f mask s, SE mask s -> safe (fun s' _ => SZ s') (SE mask) (nextItem rops cfg f mask s).
Proof.
  induction f as [|f IH]; intros mask s H; cbn [nextItem]; [exact I|].
  destruct (stm_get_some (sc_state s)) as [e He]. rewrite He.
  eapply safe_bind with (Q := fun s' _ => SZ s').
  - destruct (el_action e) as [[a arg]|] eqn:Ea.
    + eapply safe_bind; [eapply safe_doAction; eauto|]. intros s1 res [H1 _].
      destruct res as [rt|]; [|exact H1]. destruct (Nat.eqb (el_nofnext e) 0); [|exact H1].
      destruct (el_fallback e); exact H1.
    + destruct H as [H [Hz|[_ [e' [a [arg [G1 [G2 _]]]]]]]]; [split; assumption|]. congruence.
  - intros s1 [rt b] H1. cbn [fst snd]. destruct b; [exact H1|].
    eapply safe_bind; [apply safe_src0; [exact H1|apply safe_control1; apply H1]|]. intros s2 c [H2 _].
    eapply safe_bind with (Q := fun s' _ => SZ s').
    + unfold transition. destruct (next_some (sc_state s) e c He) as [o ->]. destruct o as [ns|].
      * assert (H2' : SZ (set_state ns (upd_tok (tok_id TStart) s2))) by exact H2.
        eapply safe_bind; [apply safe_src0; [exact H2'|apply safe_skip1; apply H2']|]. intros s3 u [H3 _]. exact H3.
      * destruct (el_fallback e); [exact H2|]. destruct (el_miss e); exact H2.
    + intros s3 ok H3. destruct ok; [|exact H3]. destruct (isNone rt); [apply IH; apply SZ_SE; exact H3|exact H3].
Qed.
End Safe.

(** ** The ideal byte reader *)
Definition irOk (r : ird) : Prop := ir_m r <> EndUndef.

Lemma need_safe : forall {A} (Q : A -> Prop) n r (a : A), irOk r -> Q a ->
  safe (fun r' a => irOk r' /\ Q a) irOk (need n r a).
Proof.
  intros A Q n r a H Ha. unfold need. destruct (Nat.leb n (length (ir_l r))); [cbn; auto|].
  unfold irOk in *. destruct (ir_m r) eqn:E; cbn; auto; try congruence; split; auto; congruence.
Qed.

Lemma ir_safe : forall cs cfg f mask s, SE irOk mask s -> safe (fun s' _ => SZ irOk s') (SE irOk mask) (nextItem (ir_ops cs) cfg f mask s).
Proof.
  intros cs cfg f mask s H.
  apply (safe_nextItem _ _ irOk) with (Ip := fun r => (alen cs (ir_l r) <= length (ir_l r))%nat \/ ir_m r = EndZero); auto; cbn [ir_ops r_control r_ascii r_chr r_raw r_skip].
  - intros r Hr. eapply safe_weaken; [apply (need_safe (fun _ => True)); auto| |]; cbn; tauto.
  - intros r Hr. assert (Hc : asc_of (casc cs (ir_l r)) < 128).
    { unfold asc_of. destruct (N.ltb_spec (casc cs (ir_l r)) 128); lia. }
    unfold need. destruct (Nat.leb_spec (alen cs (ir_l r)) (length (ir_l r))); cbn [safe]; auto.
    unfold irOk in *. destruct (ir_m r) eqn:E; cbn [safe]; auto; try congruence. repeat split; auto; congruence.
  - intros r Hr Hp. unfold need. destruct (Nat.leb_spec (alen cs (ir_l r)) (length (ir_l r))); cbn [safe bind]; [exact Hr|].
    destruct Hp as [Hp|Hp]; [lia|]. rewrite Hp. exact Hr.
  - intros r Hr. eapply safe_weaken; [apply (need_safe (fun _ => True)); auto| |]; cbn; tauto.
  - intros r Hr. eapply safe_weaken; [apply (need_safe (fun _ => True)); auto| |]; cbn; tauto.
  - intros r Hr. eapply safe_bind; [apply (need_safe (fun _ => True)); auto|]. intros r1 u [H1 _]. exact H1.
Qed.
