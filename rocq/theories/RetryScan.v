(** The simulation of ScannerSim for a reader that throws where the other one jumps (proofs). *)
From Verif Require Import Base Iter CharMap Charset TextScanner Ideal XmlScanner ScannerSim.

Inductive wrel {S T A : Type} (RR RJ : S -> T -> Prop) : out S A -> out T A -> Prop :=
| wrel_ret : forall s t a, RR s t -> wrel RR RJ (Ret s a) (Ret t a)
| wrel_throw : forall s t, RJ s t -> wrel RR RJ (Throw s) (Jump t)
| wrel_undef : wrel RR RJ Undef Undef
| wrel_fuel : wrel RR RJ Fuel Fuel.
Record wsim {R T : Type} (prel : N -> N -> Prop) (o1 : readerops R) (o2 : readerops T) (rel relp relj : R -> T -> Prop) : Prop := mkWsim {
  ws_weak : forall r t, relp r t -> rel r t;
  ws_control : forall r t, rel r t -> wrel relp relj (r_control o1 r) (r_control o2 t);
  ws_ascii : forall r t, rel r t -> wrel relp relj (r_ascii o1 r) (r_ascii o2 t);
  ws_chr : forall r t, relp r t -> wrel relp relj (r_chr o1 r) (r_chr o2 t);
  ws_raw : forall r t, relp r t -> wrel relp relj (r_raw o1 r) (r_raw o2 t);
  ws_skip : forall r t, relp r t -> wrel rel relj (r_skip o1 r) (r_skip o2 t);
  ws_pos : forall r t, rel r t -> prel (r_pos o1 r) (r_pos o2 t)
}.
Record wsimc {R T : Type} (prel : N -> N -> Prop) (o1 : readerops R) (o2 : readerops T) (rel relp relj : R -> T -> Prop) : Prop := mkWsimc {
  wc_weak : forall r t, relp r t -> rel r t;
  wc_control : forall r t, rel r t -> wrel relp relj (r_control o1 r) (r_control o2 t);
  wc_ascii : forall r t, rel r t -> wrel relp relj (r_ascii o1 r) (r_ascii o2 t);
  wc_skip : forall r t, relp r t -> wrel rel relj (r_skip o1 r) (r_skip o2 t);
  wc_pos : forall r t, rel r t -> prel (r_pos o1 r) (r_pos o2 t)
}.

Section OrelFacts.
Context {S T : Type}.
Implicit Types RR RJ : S -> T -> Prop.

Lemma wrel_bind : forall {A B} RR RJ RR2 (x : out S A) (y : out T A)
    (f : S -> A -> out S B) (g : T -> A -> out T B),
  wrel RR RJ x y -> (forall s t a, RR s t -> wrel RR2 RJ (f s a) (g t a)) ->
  wrel RR2 RJ (bind x f) (bind y g).
Proof.
  intros A B RR RJ RR2 x y f g H Hf. destruct H; cbn [bind]; try constructor; auto.
Qed.

Lemma wrel_weaken : forall {A} RR RJ RR2 RJ2 (x : out S A) (y : out T A),
  wrel RR RJ x y -> (forall s t, RR s t -> RR2 s t) -> (forall s t, RJ s t -> RJ2 s t) ->
  wrel RR2 RJ2 x y.
Proof. intros A RR RJ RR2 RJ2 x y H H1 H2. destruct H; constructor; auto. Qed.
End OrelFacts.

Lemma wrel_omap : forall {S T S2 T2 A} (RR RJ : S -> T -> Prop) (RR2 RJ2 : S2 -> T2 -> Prop)
   (f : S -> S2) (g : T -> T2) (x : out S A) (y : out T A),
  wrel RR RJ x y -> (forall s t, RR s t -> RR2 (f s) (g t)) -> (forall s t, RJ s t -> RJ2 (f s) (g t)) ->
  wrel RR2 RJ2 (omap f x) (omap g y).
Proof. intros S T S2 T2 A RR RJ RR2 RJ2 f g x y H H1 H2. destruct H; cbn [omap]; constructor; auto. Qed.

Section Sim.
Context {R T : Type} (o1 : readerops R) (o2 : readerops T) (cfg : config).
(** the configurations may differ in the way characters are copied *)
Context (raw2 : bool).
Notation cfg2 := (with_raw raw2 cfg).
Context (prel : N -> N -> Prop) (rel relp relj : R -> T -> Prop).
Hypothesis Hsim : wsimc prel o1 o2 rel relp relj.

Notation sr := (srel prel rel).
Notation srp := (srel prel relp).
Notation sj := (srel prel relj).

Lemma sr_weak : forall s t, srp s t -> sr s t.
Proof. intros s t H. destruct H. constructor; auto. apply (wc_weak _ _ _ _ _ _ Hsim). auto. Qed.

Lemma wrel_pw : forall {A} (x : out (scanner R) A) (y : out (scanner T) A), wrel srp sj x y -> wrel sr sj x y.
Proof. intros A x y H. eapply wrel_weaken; eauto. apply sr_weak. Qed.

Ltac onsrc := unfold on_src; cbn [sc_src]; eapply wrel_omap;
  [ | intros ? ? ?; constructor; [eassumption|assumption] | intros ? ? ?; constructor; [eassumption|assumption]].

Lemma sim_control : forall s t, sr s t -> wrel srp sj (sc_control o1 s) (sc_control o2 t).
Proof. intros s t H. destruct H. unfold sc_control. onsrc. apply (wc_control _ _ _ _ _ _ Hsim). auto. Qed.
Lemma sim_ascii : forall s t, sr s t -> wrel srp sj (sc_ascii o1 s) (sc_ascii o2 t).
Proof. intros s t H. destruct H. unfold sc_ascii. onsrc. apply (wc_ascii _ _ _ _ _ _ Hsim). auto. Qed.
Lemma sim_skip : forall s t, srp s t -> wrel sr sj (sc_skip o1 s) (sc_skip o2 t).
Proof. intros s t H. destruct H. unfold sc_skip. onsrc. apply (wc_skip _ _ _ _ _ _ Hsim). auto. Qed.

Lemma sim_pushes : forall l s t rl, srel prel rl s t -> srel (R:=R) (T:=T) prel rl (pushes cfg l s) (pushes cfg2 l t).
Proof.
  induction l as [|c l IH]; intros s t rl H; cbn [pushes]; auto. apply IH.
  destruct H. constructor; auto.
Qed.

Lemma sim_fallback : forall s t rl, srel prel rl s t -> srel (R:=R) (T:=T) prel rl (fallbackEntity cfg s) (fallbackEntity cfg2 t).
Proof.
  intros s t rl H. destruct H. unfold fallbackEntity. cbn [sc_tok].
  destruct (tk_id tk); try (constructor; assumption); apply sim_pushes; constructor; assumption.
Qed.

(** [tr] holds after control() has delivered something different from the end of text *)
Context (tr : R -> Prop).
Hypothesis Htr1 : forall r r' c, r_control o1 r = Ret r' c -> c <> CEndOfText -> tr r'.
Hypothesis Htr2 : forall r r' a, tr r -> r_ascii o1 r = Ret r' a -> tr r'.
Hypothesis Hcopy : forall s t, tr (sc_src s) -> srp s t -> wrel srp sj (copychar o1 cfg s) (copychar o2 cfg2 t).
Lemma tr_control : forall s s' c, sc_control o1 s = Ret s' c -> c <> CEndOfText -> tr (sc_src s').
Proof.
  intros s s' c H Hc. unfold sc_control, on_src in H. destruct (r_control o1 (sc_src s)) eqn:E; cbn [omap] in H; try discriminate.
  injection H as <- <-. cbn [set_src sc_src]. eapply Htr1; eauto.
Qed.
Lemma tr_ascii : forall s s' c, sc_ascii o1 s = Ret s' c -> tr (sc_src s) -> tr (sc_src s').
Proof.
  intros s s' c H Hc. unfold sc_ascii, on_src in H. destruct (r_ascii o1 (sc_src s)) eqn:E; cbn [omap] in H; try discriminate.
  injection H as <- <-. cbn [set_src sc_src]. eapply Htr2; eauto.
Qed.
Lemma wrel_bind2 : forall {A B} RR RJ RR2 (x : out (scanner R) A) (y : out (scanner T) A)
    (f : scanner R -> A -> out (scanner R) B) (g : scanner T -> A -> out (scanner T) B),
  wrel RR RJ x y -> (forall s t a, x = Ret s a -> RR s t -> wrel RR2 RJ (f s a) (g t a)) ->
  wrel RR2 RJ (bind x f) (bind y g).
Proof.
  intros A B RR RJ RR2 x y f g H Hf. destruct H; cbn [bind]; try constructor; auto.
Qed.

(** lemmas about state updates *)
Lemma sr_upd_tok : forall f s t rl, srel prel rl s t -> srel (R:=R) (T:=T) prel rl (upd_tok f s) (upd_tok f t).
Proof. intros f s t rl H. destruct H. constructor; auto. Qed.
Lemma sr_set_tok : forall f s t rl, srel prel rl s t -> srel (R:=R) (T:=T) prel rl (set_tok f s) (set_tok f t).
Proof. intros f s t rl H. destruct H. constructor; auto. Qed.
Lemma sr_push : forall c s t rl, srel prel rl s t -> srel (R:=R) (T:=T) prel rl (push cfg c s) (push cfg2 c t).
Proof. intros f s t rl H. destruct H. constructor; auto. Qed.
Lemma sr_set_err : forall c s t rl, srel prel rl s t -> srel (R:=R) (T:=T) prel rl (set_err c s) (set_err c t).
Proof. intros f s t rl H. destruct H. constructor; auto. Qed.
Lemma sr_set_state : forall c s t rl, srel prel rl s t -> srel (R:=R) (T:=T) prel rl (set_state c s) (set_state c t).
Proof. intros f s t rl H. destruct H. constructor; auto. Qed.
Lemma sr_tok : forall s t rl, srel prel rl s t -> sc_tok (R:=R) s = sc_tok (R:=T) t.
Proof. intros s t rl H. destruct H. reflexivity. Qed.
Lemma sr_state : forall s t rl, srel prel rl s t -> sc_state (R:=R) s = sc_state (R:=T) t.
Proof. intros s t rl H. destruct H. reflexivity. Qed.
Lemma sr_obuf : forall s t rl, srel prel rl s t -> sc_obuf (R:=R) s = sc_obuf (R:=T) t.
Proof. intros s t rl H. destruct H. reflexivity. Qed.
Lemma sr_err : forall s t rl, srel prel rl s t -> sc_err (R:=R) s = sc_err (R:=T) t.
Proof. intros s t rl H. destruct H. reflexivity. Qed.
Lemma sr_tokpos : forall s t rl, srel prel rl s t -> prel (sc_tokpos (R:=R) s) (sc_tokpos (R:=T) t).
Proof. intros s t rl H. destruct H. assumption. Qed.

Hint Resolve sr_weak sr_upd_tok sr_set_tok sr_push sr_set_err sr_set_state sim_fallback : sim.

Lemma sim_numBaseLoop : forall k s t, sr s t -> wrel sr sj (numBaseLoop o1 cfg k s) (numBaseLoop o2 cfg2 k t).
Proof.
  induction k as [|k IH]; intros s t H; cbn [numBaseLoop].
  - constructor. auto with sim.
  - eapply wrel_bind; [apply sim_ascii; auto|]. intros s1 t1 c H1.
    rewrite <- (sr_tok _ _ _ H1).
    destruct (c =? 59).
    + destruct (0xFFFFFFFF <? tk_value (sc_tok s1)).
      * destruct (tok_put c (sc_tok s1)); constructor. auto with sim.
      * eapply wrel_bind; [apply sim_skip; auto with sim|]. intros s2 t2 u H2. constructor. auto.
    + destruct (HEX c) as [chval|]; [|constructor].
      destruct (tk_base (sc_tok s1) <=? chval); [constructor; auto with sim|].
      destruct (tok_put c (sc_tok s1)) as [tk|]; [|constructor].
      eapply wrel_bind; [apply sim_skip; auto with sim|]. intros s2 t2 u H2. apply IH. auto.
Qed.

Lemma sim_numericBase : forall s t, sr s t ->
  wrel sr sj (parseNumericBaseEntity o1 cfg s) (parseNumericBaseEntity o2 cfg2 t).
Proof.
  intros s t H. unfold parseNumericBaseEntity.
  rewrite (sr_tok _ _ _ (sr_upd_tok (tok_id TParsingNumericBaseEntity) _ _ _ H)).
  apply sim_numBaseLoop. auto with sim.
Qed.

Lemma sim_numeric : forall s t, sr s t ->
  wrel sr sj (parseNumericEntity o1 cfg s) (parseNumericEntity o2 cfg2 t).
Proof.
  intros s t H. unfold parseNumericEntity.
  eapply wrel_bind; [apply sim_ascii; auto with sim|]. intros s1 t1 c H1.
  destruct (c =? 120).
  - eapply wrel_bind; [apply sim_skip; auto with sim|]. intros s2 t2 u H2. apply sim_numericBase. auto.
  - apply sim_numericBase. auto with sim.
Qed.

Lemma sim_namedLoop : forall k s t c, srp s t -> wrel srp sj (namedLoop o1 k s c) (namedLoop o2 k t c).
Proof.
  induction k as [|k IH]; intros s t c H; cbn [namedLoop].
  - constructor. auto.
  - destruct (c =? 59); [constructor; auto|].
    eapply wrel_bind; [apply sim_control; auto with sim|]. intros s1 t1 cc H1.
    rewrite <- (sr_tok _ _ _ H1).
    destruct (ctl_eqb cc CAny); [|constructor; auto].
    destruct (tok_put c (sc_tok s1)) as [tk|]; [|constructor].
    eapply wrel_bind; [apply sim_skip; auto with sim|]. intros s2 t2 u H2.
    eapply wrel_bind; [apply sim_ascii; auto with sim|]. intros s3 t3 c' H3. apply IH. auto.
Qed.

Lemma sim_pushEntity : forall s t rl, srel prel rl s t ->
  srel (R:=R) (T:=T) prel rl (fst (pushEntity cfg s)) (fst (pushEntity cfg2 t)) /\ 
  snd (pushEntity cfg s) = snd (pushEntity cfg2 t).
Proof.
  intros s t rl H. unfold pushEntity. rewrite <- (sr_tok _ _ _ H).
  cbn [with_raw cf_map cf_bufaddr].
  destruct (predefined _); [cbn [fst snd]; split; auto with sim|].
  destruct (cf_map cfg) as [m|]; [|cbn [fst snd]; split; auto with sim].
  destruct (map_find m (cf_bufaddr cfg)); cbn [fst snd]; split; auto with sim.
Qed.

Lemma sim_named : forall s t, sr s t -> wrel sr sj (parseNamedEntity o1 cfg s) (parseNamedEntity o2 cfg2 t).
Proof.
  intros s t H. unfold parseNamedEntity.
  eapply wrel_bind; [apply sim_ascii; auto with sim|]. intros s1 t1 c H1.
  rewrite <- (sr_tok _ _ _ H1).
  eapply wrel_bind; [apply sim_namedLoop; auto with sim|]. intros s2 t2 c2 H2.
  rewrite <- (sr_tok _ _ _ H2).
  destruct (c2 =? 59); [|constructor; auto with sim].
  destruct (tok_put 0 (sc_tok s2)) as [tk|]; [|constructor].
  destruct (sim_pushEntity (set_tok tk s2) (set_tok tk t2) relp) as [Ha Hb]; [auto with sim|].
  destruct (pushEntity cfg (set_tok tk s2)) as [s3 ok], (pushEntity cfg2 (set_tok tk t2)) as [t3 ok2].
  cbn [fst snd] in *. subst ok2. destruct ok.
  - eapply wrel_bind; [apply sim_skip; auto with sim|]. intros s4 t4 u H4. constructor. auto.
  - constructor. auto with sim.
Qed.

Lemma sim_parseEntity : forall s t, sr s t -> wrel sr sj (parseEntity o1 cfg s) (parseEntity o2 cfg2 t).
Proof.
  intros s t H. unfold parseEntity.
  eapply wrel_bind; [apply sim_ascii; auto with sim|]. intros s1 t1 c H1.
  destruct (c =? 35).
  - eapply wrel_bind; [apply sim_skip; auto with sim|]. intros s2 t2 u H2. apply sim_numeric. auto.
  - apply sim_named. auto with sim.
Qed.

Lemma sim_recover : forall s t, sr s t -> wrel sr sj (parseTokenRecover o1 cfg s) (parseTokenRecover o2 cfg2 t).
Proof.
  intros s t H. unfold parseTokenRecover. rewrite <- (sr_tok _ _ _ H).
  destruct (tk_id (sc_tok s)); try (constructor; auto with sim);
    (eapply wrel_bind; [first [apply sim_parseEntity|apply sim_numeric|apply sim_numericBase|apply sim_named]; auto|];
     intros s1 t1 rt H1; constructor; auto with sim).
Qed.

Lemma sim_tokenChar : forall s t, tr (sc_src s) -> sr s t -> wrel srp sj (tokenChar o1 cfg s) (tokenChar o2 cfg2 t).
Proof.
  intros s t Htr H. unfold tokenChar.
  eapply wrel_bind2; [apply sim_ascii; auto with sim|]. intros s1 t1 c E1 H1.
  rewrite <- (sr_tok _ _ _ H1).
  destruct (c =? 13); [constructor; auto with sim|].
  destruct (c =? 10); [constructor; destruct (tk_cr (sc_tok s1)); auto with sim|].
  eapply wrel_bind; [apply Hcopy; eauto using tr_ascii|]. intros s2 t2 u H2. constructor. auto with sim.
Qed.

Lemma sim_parseTokenLoop : forall f isTok s t, isTokAt isTok CEndOfText = Some false -> sr s t ->
  wrel sr sj (parseTokenLoop o1 cfg f isTok s) (parseTokenLoop o2 cfg2 f isTok t).
Proof.
  induction f as [|f IH]; intros isTok s t Het H; cbn [parseTokenLoop]; [constructor|].
  eapply wrel_bind2; [apply sim_control; auto with sim|]. intros s1 t1 c E1 H1.
  destruct (isTokAt isTok c) as [[|]|] eqn:Et; [| |constructor].
  - assert (Hc : c <> CEndOfText) by congruence.
    eapply wrel_bind; [apply sim_tokenChar; eauto using tr_control with sim|]. intros s2 t2 u H2.
    eapply wrel_bind; [apply sim_skip; auto with sim|]. intros s3 t3 u3 H3. apply IH; auto.
  - destruct (ctl_eqb c CAmp); [|constructor; auto with sim].
    eapply wrel_bind; [apply sim_skip; auto with sim|]. intros s2 t2 u2 H2.
    eapply wrel_bind; [apply sim_parseEntity; auto with sim|]. intros s3 t3 ok H3.
    destruct ok; [apply IH|constructor]; auto with sim.
Qed.

Lemma sim_parseToken : forall f isTok s t, isTokAt isTok CEndOfText = Some false -> sr s t ->
  wrel sr sj (parseToken o1 cfg f isTok s) (parseToken o2 cfg2 f isTok t).
Proof.
  intros f isTok s t Het H. unfold parseToken. rewrite <- (sr_tok _ _ _ H).
  destruct (tk_id (sc_tok s)); try (apply sim_parseTokenLoop; auto with sim; fail);
  try (eapply wrel_bind; [apply sim_recover; auto|]; intros s1 t1 ok H1;
       destruct ok; [apply sim_parseTokenLoop; auto|constructor; auto with sim]; fail).
  apply sim_parseTokenLoop; [exact Het|]. destruct H as [st er r t ob tp tp' tk Hr Hp].
  unfold set_obuf, upd_tok, set_tok, set_tokpos. cbn.
  constructor; auto. apply (wc_pos _ _ _ _ _ _ Hsim _ _ Hr).
Qed.

Lemma sim_skipTokenLoop : forall f isTok s t, sr s t ->
  wrel sr sj (skipTokenLoop o1 f isTok s) (skipTokenLoop o2 f isTok t).
Proof.
  induction f as [|f IH]; intros isTok s t H; cbn [skipTokenLoop]; [constructor|].
  eapply wrel_bind; [apply sim_control; auto with sim|]. intros s1 t1 c H1.
  destruct (isTokAt isTok c) as [b|]; [|constructor].
  destruct (b || ctl_eqb c CAmp).
  - eapply wrel_bind; [apply sim_skip; auto with sim|]. intros s2 t2 u2 H2. apply IH; auto.
  - eapply wrel_bind; [apply sim_control; auto with sim|]. intros s2 t2 c2 H2.
    destruct (ctl_eqb c2 CAny); [apply IH|constructor]; auto with sim.
Qed.

Lemma sim_expectLoop : forall k s t, sr s t -> wrel sr sj (expectLoop o1 k s) (expectLoop o2 k t).
Proof.
  induction k as [|x k IH]; intros s t H; cbn [expectLoop]; [constructor; auto with sim|].
  eapply wrel_bind; [apply sim_ascii; auto with sim|]. intros s1 t1 c H1.
  destruct (c =? x).
  - eapply wrel_bind; [apply sim_skip; auto with sim|]. intros s2 t2 u2 H2. apply IH; auto with sim.
  - eapply wrel_bind; [apply sim_control; auto with sim|]. intros s2 t2 c2 H2.
    constructor; auto with sim.
Qed.

Lemma sim_doAction : forall f mask a arg s t, sr s t ->
  wrel sr sj (doAction o1 cfg f mask a arg s) (doAction o2 cfg2 f mask a arg t).
Proof.
  intros f mask a arg s t H. unfold doAction. rewrite <- (sr_tok _ _ _ H).
  destruct (tokenDef a) as [isTok|] eqn:Etd.
  - assert (Het : isTokAt isTok CEndOfText = Some false) by (destruct a; inversion Etd; reflexivity).
    assert (Hp : wrel sr sj
       (if N.testbit mask (etype_idx arg) then parseToken o1 cfg f isTok s else skipTokenLoop o1 f isTok s)
       (if N.testbit mask (etype_idx arg) then parseToken o2 cfg2 f isTok t else skipTokenLoop o2 f isTok t)).
    { destruct (N.testbit mask (etype_idx arg)); [apply sim_parseToken|apply sim_skipTokenLoop]; auto. }
    destruct (tk_id (sc_tok s)); try (constructor; auto; fail);
     (eapply wrel_bind; [exact Hp|]; intros s1 t1 ok H1; destruct ok; constructor; auto).
  - destruct (stringDef a) as [k|].
    + assert (Hp : wrel sr sj
         (let! (s1, ok) := expectStr o1 k s in
              if ok
              then match a with
                   | ExpectIdentifierXML =>
                       Ret (push cfg 108 (push cfg 109 (push cfg 120 (push cfg 63 s1)))) (inl EHeaderStart)
                   | _ => Ret s1 (inl ENone)
                   end
              else Ret s1 (inr tt))
         (let! (s1, ok) := expectStr o2 k t in
              if ok
              then match a with
                   | ExpectIdentifierXML =>
                       Ret (push cfg2 108 (push cfg2 109 (push cfg2 120 (push cfg2 63 s1)))) (inl EHeaderStart)
                   | _ => Ret s1 (inl ENone)
                   end
              else Ret s1 (inr tt))).
      { eapply wrel_bind.
        - unfold expectStr.
          rewrite (sr_tok _ _ _ (sr_upd_tok (tok_id TParsingKey) _ _ _ H)).
          destruct (Nat.leb _ _); [|constructor]. apply sim_expectLoop. auto with sim.
        - intros s1 t1 ok H1. destruct ok; [|constructor; auto].
          destruct a; constructor; auto with sim. }
      destruct (tk_id (sc_tok s)); try exact Hp. constructor. auto.
    + destruct H as [st er r t ob tp tp' tk Hr Hp]. cbn.
      constructor. constructor; auto. apply (wc_pos _ _ _ _ _ _ Hsim _ _ Hr).
Qed.

Lemma sim_transition : forall e c s t, srp s t -> wrel sr sj (transition o1 e c s) (transition o2 e c t).
Proof.
  intros e c s t H. unfold transition.
  destruct (nth_error (el_next e) (ctl_idx c)) as [[ns|]|]; [| |constructor].
  - eapply wrel_bind; [apply sim_skip; auto with sim|]. intros s2 t2 u2 H2. constructor; auto.
  - destruct (el_fallback e); [constructor; auto with sim|].
    destruct (el_miss e); constructor; auto with sim.
Qed.

Theorem sim_nextItem_raw : forall f mask s t, sr s t ->
  wrel sr sj (nextItem o1 cfg f mask s) (nextItem o2 cfg2 f mask t).
Proof.
  induction f as [|f IH]; intros mask s t H; cbn [nextItem]; [constructor|].
  rewrite <- (sr_state _ _ _ H).
  destruct (stm_get (sc_state s)) as [e|]; [|constructor].
  eapply wrel_bind with (RR := sr).
  - destruct (el_action e) as [[a arg]|]; [|constructor; auto].
    eapply wrel_bind; [apply sim_doAction; eauto|]. intros s1 t1 res H1.
    destruct res as [rt|]; [|constructor; auto].
    destruct (Nat.eqb (el_nofnext e) 0); [|constructor; auto].
    constructor. destruct (el_fallback e); auto with sim.
  - intros s1 t1 [rt b] H1. cbn [fst snd]. destruct b; [constructor; auto|].
    eapply wrel_bind; [apply sim_control; auto|]. intros s2 t2 c H2.
    eapply wrel_bind; [apply sim_transition; auto with sim|]. intros s3 t3 ok H3.
    destruct ok; [|constructor; auto].
    destruct (isNone rt); [apply IH; auto|constructor; auto].
Qed.
End Sim.

Lemma wsim_c : forall {R T} prel (o1 : readerops R) (o2 : readerops T) rel relp relj,
  wsim prel o1 o2 rel relp relj -> wsimc prel o1 o2 rel relp relj.
Proof. intros R T prel o1 o2 rel relp relj []. constructor; auto. Qed.

Lemma sim_chr : forall {R T} (o1 : readerops R) (o2 : readerops T) prel rel relp relj,
  wsim prel o1 o2 rel relp relj -> forall s t, srel prel relp s t ->
  wrel (srel prel relp) (srel prel relj) (sc_chr o1 s) (sc_chr o2 t).
Proof.
  intros R T o1 o2 prel rel relp relj Hsim s t H. destruct H. unfold sc_chr, on_src. cbn [sc_src].
  eapply wrel_omap; [apply (ws_chr _ _ _ _ _ _ Hsim); auto| |]; intros; constructor; assumption.
Qed.
Lemma sim_raw : forall {R T} (o1 : readerops R) (o2 : readerops T) prel rel relp relj,
  wsim prel o1 o2 rel relp relj -> forall s t, srel prel relp s t ->
  wrel (srel prel relp) (srel prel relj) (sc_raw o1 s) (sc_raw o2 t).
Proof.
  intros R T o1 o2 prel rel relp relj Hsim s t H. destruct H. unfold sc_raw, on_src. cbn [sc_src].
  eapply wrel_omap; [apply (ws_raw _ _ _ _ _ _ Hsim); auto| |]; intros; constructor; assumption.
Qed.

(** same configuration *)
Lemma copychar_sim : forall {R T} (o1 : readerops R) (o2 : readerops T) cfg prel rel relp relj,
  wsim prel o1 o2 rel relp relj -> forall s t, srel prel relp s t ->
  wrel (srel prel relp) (srel prel relj) (copychar o1 cfg s) (copychar o2 (with_raw (cf_raw cfg) cfg) t).
Proof.
  intros R T o1 o2 cfg prel rel relp relj Hsim s t H. unfold copychar. cbn [with_raw cf_raw]. destruct (cf_raw cfg).
  - eapply wrel_bind; [eapply sim_raw; eauto|]. intros s1 t1 a H1. destruct H1.
    constructor. constructor; auto.
  - eapply wrel_bind; [eapply sim_chr; eauto|]. intros s1 t1 a H1. destruct H1.
    constructor. constructor; auto.
Qed.
Theorem sim_nextItem : forall {R T} (o1 : readerops R) (o2 : readerops T) cfg prel rel relp relj,
  wsim prel o1 o2 rel relp relj -> forall f mask s t, srel prel rel s t ->
  wrel (srel prel rel) (srel prel relj) (nextItem o1 cfg f mask s) (nextItem o2 cfg f mask t).
Proof.
  intros R T o1 o2 cfg prel rel relp relj Hsim f mask s t H.
  replace (nextItem o2 cfg f mask t) with (nextItem o2 (with_raw (cf_raw cfg) cfg) f mask t) by (destruct cfg; reflexivity).
  eapply (sim_nextItem_raw o1 o2 cfg (cf_raw cfg) prel rel relp relj (wsim_c _ _ _ _ _ _ Hsim) (fun _ => True)); auto.
  intros s0 t0 _. eapply copychar_sim; eauto.
Qed.
