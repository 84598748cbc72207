(** Termination of the scanner (proofs). *)
From Verif Require Import Base Iter CharMap CodePages Charset TextScanner Ideal ReaderSim ScannerSim IterSim
  ReadSpec ReadProofs XmlScanner ScanSpec ScanProofs Safety FuelMono.

(** outcome that is not out of fuel, with a postcondition of the result *)
Definition tm {S A} (Q : S -> A -> Prop) (x : out S A) : Prop :=
  match x with
  | Ret s a => Q s a
  | Fuel => False
  | _ => True
  end.

Lemma tm_bind : forall {S A B} (Q : S -> A -> Prop) (Q2 : S -> B -> Prop) (x : out S A) f,
  tm Q x -> (forall s a, Q s a -> tm Q2 (f s a)) -> tm Q2 (bind x f).
Proof. intros S A B Q Q2 x f H Hf. destruct x; cbn [bind tm] in *; auto. Qed.
Lemma tm_weaken : forall {S A} (Q Q2 : S -> A -> Prop) (x : out S A),
  tm Q x -> (forall s a, Q s a -> Q2 s a) -> tm Q2 x.
Proof. intros S A Q Q2 x H H1. destruct x; cbn [tm] in *; auto. Qed.

(** number of fallback steps possible without reading a character *)
Definition rank (s : stm) : nat :=
  match s with
  | ENTITYSL => 2
  | XTAG | PITAGEND | XTAGEND | XTAGDONE | XTAGANAM | XTAGAESK | XTAGAVID | XTAGAVSQ | XTAGAVDQ | XTAGAVQE
  | TOKEN | OPENTAG | CLOSETAG | TAGCLSK | TAGANAM | TAGAESK | TAGAVID | TAGAVSQ | TAGAVDQ | TAGAVQE | TAGCLIM
  | ENTITYE | ENTITYID | ENTITYSQ | ENTITYDQ | COMDASH2 | CDATA | EXIT
  | PITAG | ENTITYLC | COMSEEKE | COMENDD2 | COMENDCL | CDATA1 | CDATA2 | CDATA3 => 0
  | _ => 1
  end.

(** the states that do not stop at the end of the text *)
Definition endless (s : stm) : bool :=
  match s with
  | PITAG | ENTITYLC | COMSEEKE | COMENDD2 | COMENDCL | CDATA1 | CDATA2 | CDATA3 => true
  | _ => false
  end.

Lemma rank_le : forall s, (rank s <= 2)%nat.
Proof. intros s. destruct s; cbn; lia. Qed.

(** the action delivers an element *)
Definition delivers (e : XmlScanner.element) : bool :=
  match el_action e with
  | None => false
  | Some (ExpectIdentifierCDATA, _) => false
  | Some _ => true
  end.

Lemma rank_fallback : forall s e fs, stm_get s = Some e -> el_fallback e = Some fs -> delivers e = false -> (rank fs < rank s)%nat.
Proof. intros s e fs H. destruct s; vm_compute in H; injection H as <-; cbn; intros E; inversion E; subst; cbn; intros; try discriminate; lia. Qed.

Lemma end_next : forall s e ns, stm_get s = Some e -> nth_error (el_next e) (ctl_idx CEndOfText) = Some (Some ns) ->
  (endless s = true /\ endless ns = true /\ el_action e = None) \/ (rank ns < rank s)%nat \/ delivers e = true.
Proof.
  intros s e ns H. destruct s; vm_compute in H; injection H as <-; cbn; intros E; inversion E; subst; cbn; auto; right; left; lia.
Qed.

Lemma delivers_rt : forall s e a arg, stm_get s = Some e -> el_action e = Some (a, arg) -> delivers e = true ->
  match a with ExpectIdentifierXML => True | _ => isNone arg = false end.
Proof. intros s e a arg H. destruct s; vm_compute in H; injection H as <-; cbn; intros E; inversion E; subst; cbn; auto. Qed.

Section Term.
Context {R : Type} (rops : readerops R) (cfg : config) (rem : R -> nat) (Z : R -> Prop).
Hypothesis Hcontrol : forall r, tm (fun r' c => (rem r' <= rem r)%nat /\ (rem r' = 0%nat -> c = CEndOfText /\ Z r)) (r_control rops r).
Hypothesis Hascii : forall r, tm (fun r' c => (rem r' <= rem r)%nat /\ (rem r' = 0%nat -> c = 0)) (r_ascii rops r).
Hypothesis Hchr : forall r, tm (fun r' _ => (rem r' <= rem r)%nat) (r_chr rops r).
Hypothesis Hraw : forall r, tm (fun r' _ => (rem r' <= rem r)%nat) (r_raw rops r).
Hypothesis Hskip : forall r, tm (fun r' _ => (rem r' <= rem r)%nat /\ (0 < rem r -> rem r' < rem r)%nat) (r_skip rops r).
Hypothesis Hcc : forall r r1 c r2 c2, r_control rops r = Ret r1 c -> r_control rops r1 = Ret r2 c2 -> c2 = c.
Hypothesis HZ : forall r, Z r -> exists r1 r2, r_control rops r = Ret r1 CEndOfText /\ r_skip rops r1 = Ret r2 tt /\ Z r2.

Notation scn := (scanner R).
Notation sr s := (rem (sc_src s)).
Definition le0 (s0 : scn) {A} (s : scn) (_ : A) : Prop := (sr s <= sr s0)%nat.

Lemma t_control : forall s, tm (fun s' c => (sr s' <= sr s)%nat /\ (sr s' = 0%nat -> c = CEndOfText /\ Z (sc_src s))) (sc_control rops s).
Proof. intros s. unfold sc_control, on_src. pose proof (Hcontrol (sc_src s)). destruct (r_control rops (sc_src s)); cbn in *; auto. Qed.
Lemma t_ascii : forall s, tm (fun s' c => (sr s' <= sr s)%nat /\ (sr s' = 0%nat -> c = 0)) (sc_ascii rops s).
Proof. intros s. unfold sc_ascii, on_src. pose proof (Hascii (sc_src s)). destruct (r_ascii rops (sc_src s)); cbn in *; auto. Qed.
Lemma t_chr : forall s, tm (le0 s) (sc_chr rops s).
Proof. intros s. unfold sc_chr, on_src, le0. pose proof (Hchr (sc_src s)). destruct (r_chr rops (sc_src s)); cbn in *; auto. Qed.
Lemma t_raw : forall s, tm (le0 s) (sc_raw rops s).
Proof. intros s. unfold sc_raw, on_src, le0. pose proof (Hraw (sc_src s)). destruct (r_raw rops (sc_src s)); cbn in *; auto. Qed.
Lemma t_skip : forall s, tm (fun s' (_ : unit) => (sr s' <= sr s)%nat /\ (0 < sr s -> sr s' < sr s)%nat) (sc_skip rops s).
Proof. intros s. unfold sc_skip, on_src. pose proof (Hskip (sc_src s)). destruct (r_skip rops (sc_src s)); cbn in *; auto. Qed.

Lemma sr_pushes : forall l (s : scn), sc_src (pushes cfg l s) = sc_src s.
Proof. induction l as [|c l IH]; intros s; cbn [pushes]; [reflexivity|]. rewrite IH. reflexivity. Qed.
Lemma sr_fallback : forall (s : scn), sc_src (fallbackEntity cfg s) = sc_src s.
Proof. intros s. unfold fallbackEntity. destruct (tk_id (sc_tok s)); rewrite ?sr_pushes; reflexivity. Qed.
Ltac fr := cbn [sc_tok sc_src sc_state set_src set_state set_err set_obuf set_tokpos set_tok upd_tok push] in *.

Lemma t_numBaseLoop : forall k s, tm (le0 s) (numBaseLoop rops cfg k s).
Proof.
  induction k as [|k IH]; intros s; cbn [numBaseLoop].
  - cbn [tm]. unfold le0. rewrite sr_fallback. lia.
  - eapply tm_bind; [apply t_ascii|]. intros s1 c [H1 _]. cbn beta in H1. destruct (c =? 59).
    + destruct (0xFFFFFFFF <? tk_value (sc_tok s1)).
      * destruct (tok_put c (sc_tok s1)); [|exact I]. cbn [tm]. unfold le0. rewrite sr_fallback. fr. exact H1.
      * eapply tm_bind; [apply t_skip|]. intros s2 u [H2 _]. fr. unfold le0. cbn [tm]. lia.
    + destruct (HEX c); [|exact I]. destruct (tk_base (sc_tok s1) <=? n); [cbn [tm]; unfold le0; rewrite sr_fallback; exact H1|].
      destruct (tok_put c (sc_tok s1)); [|exact I].
      eapply tm_bind; [apply t_skip|]. intros s2 u [H2 _]. fr. eapply tm_weaken; [apply IH|]. unfold le0. intros s3 b H3. lia.
Qed.

Lemma t_numericBase : forall s, tm (le0 s) (parseNumericBaseEntity rops cfg s).
Proof. intros s. unfold parseNumericBaseEntity. eapply tm_weaken; [apply t_numBaseLoop|]. unfold le0. auto. Qed.

Lemma t_numeric : forall s, tm (le0 s) (parseNumericEntity rops cfg s).
Proof.
  intros s. unfold parseNumericEntity. eapply tm_bind; [apply t_ascii|]. intros s1 c [H1 _]. fr. destruct (c =? 120).
  - eapply tm_bind; [apply t_skip|]. intros s2 u [H2 _]. fr. eapply tm_weaken; [apply t_numericBase|]. unfold le0. intros s3 b H3. lia.
  - eapply tm_weaken; [apply t_numericBase|]. unfold le0. fr. intros s3 b H3. lia.
Qed.

Lemma t_namedLoop : forall k s c, tm (le0 s) (namedLoop rops k s c).
Proof.
  induction k as [|k IH]; intros s c; cbn [namedLoop]; [cbn; unfold le0; lia|].
  destruct (c =? 59); [cbn; unfold le0; lia|].
  eapply tm_bind; [apply t_control|]. intros s1 cc [H1 _]. destruct (ctl_eqb cc CAny); [|exact H1].
  destruct (tok_put c (sc_tok s1)); [|exact I].
  eapply tm_bind; [apply t_skip|]. intros s2 u [H2 _]. fr. eapply tm_bind; [apply t_ascii|]. intros s3 c3 [H3 _]. fr.
  eapply tm_weaken; [apply IH|]. unfold le0. intros s4 b H4. lia.
Qed.

Lemma sr_pushEntity : forall (s : scn), sc_src (fst (pushEntity cfg s)) = sc_src s.
Proof.
  intros s. unfold pushEntity. destruct (predefined _); [reflexivity|]. destruct (cf_map cfg) as [m|]; [|reflexivity].
  destruct (map_find _ _); reflexivity.
Qed.

Lemma t_named : forall s, tm (le0 s) (parseNamedEntity rops cfg s).
Proof.
  intros s. unfold parseNamedEntity. eapply tm_bind; [apply t_ascii|]. intros s1 c [H1 _]. fr.
  eapply tm_bind; [apply t_namedLoop|]. intros s2 c2 H2. unfold le0 in H2. destruct (c2 =? 59).
  - destruct (tok_put 0 (sc_tok s2)) as [t|]; [|exact I].
    pose proof (sr_pushEntity (set_tok t s2)) as Hp. destruct (pushEntity cfg (set_tok t s2)) as [s3 ok]. fr. cbn [fst] in Hp.
    destruct ok.
    + eapply tm_bind; [apply t_skip|]. intros s4 u [H4 _]. fr. cbn [tm]. unfold le0. rewrite Hp in H4. lia.
    + cbn [tm]. unfold le0. rewrite Hp. lia.
  - cbn [tm]. unfold le0. rewrite sr_fallback. lia.
Qed.

Lemma t_parseEntity : forall s, tm (le0 s) (parseEntity rops cfg s).
Proof.
  intros s. unfold parseEntity. eapply tm_bind; [apply t_ascii|]. intros s1 c [H1 _]. fr. destruct (c =? 35).
  - eapply tm_bind; [apply t_skip|]. intros s2 u [H2 _]. eapply tm_weaken; [apply t_numeric|]. unfold le0. intros s3 b H3. lia.
  - eapply tm_weaken; [apply t_named|]. unfold le0. intros s3 b H3. lia.
Qed.

Lemma t_recover : forall s, tm (le0 s) (parseTokenRecover rops cfg s).
Proof.
  intros s. unfold parseTokenRecover.
  destruct (tk_id (sc_tok s)); try (cbn [tm]; unfold le0; fr; lia);
   (eapply tm_bind; [first [apply t_parseEntity|apply t_numeric|apply t_numericBase|apply t_named]|]; intros s1 b H1; exact H1).
Qed.

Lemma t_tokenChar : forall s, tm (le0 s) (tokenChar rops cfg s).
Proof.
  intros s. unfold tokenChar. eapply tm_bind; [apply t_ascii|]. intros s1 c [H1 _]. fr.
  destruct (c =? 13); [exact H1|]. destruct (c =? 10).
  - destruct (tk_cr (sc_tok s1)); exact H1.
  - assert (Hc : tm (le0 s1) (copychar rops cfg s1)).
    { unfold copychar. destruct (cf_raw cfg).
      - eapply tm_bind; [apply t_raw|]. intros s2 x H2. exact H2.
      - eapply tm_bind; [apply t_chr|]. intros s2 x H2. exact H2. }
    eapply tm_bind; [exact Hc|]. unfold le0. intros s2 u H2. cbn [tm]. fr. lia.
Qed.

Lemma tok_notEnd : forall a isTok, tokenDef a = Some isTok -> isTokAt isTok CEndOfText = Some false.
Proof. intros a isTok H. destruct a; inversion H; reflexivity. Qed.
Lemma tok_any : forall a isTok, tokenDef a = Some isTok -> isTokAt isTok CAny = Some true.
Proof. intros a isTok H. destruct a; inversion H; reflexivity. Qed.

Lemma t_parseTokenLoop : forall a isTok, tokenDef a = Some isTok -> forall f s, (sr s < f)%nat ->
  tm (le0 s) (parseTokenLoop rops cfg f isTok s).
Proof.
  intros a isTok Ha. induction f as [|f IH]; intros s Hf; [lia|]. cbn [parseTokenLoop].
  eapply tm_bind; [apply t_control|]. intros s1 c [H1 E1]. destruct (isTokAt isTok c) as [b|] eqn:Eb; [|exact I].
  assert (Hne : b = true -> (0 < sr s1)%nat).
  { intros ->. destruct (Nat.eq_dec (sr s1) 0) as [E|]; [|lia]. destruct (E1 E) as [-> _]. rewrite (tok_notEnd a isTok Ha) in Eb. discriminate. }
  destruct b.
  - specialize (Hne eq_refl). eapply tm_bind; [apply t_tokenChar|]. unfold le0. intros s2 u H2.
    eapply tm_bind; [apply t_skip|]. intros s3 u3 [H3 E3]. eapply tm_weaken; [apply IH|unfold le0; intros s4 b H4]; lia.
  - destruct (ctl_eqb c CAmp) eqn:Ec; [|exact H1].
    assert (Hne2 : (0 < sr s1)%nat).
    { destruct (Nat.eq_dec (sr s1) 0) as [E|]; [|lia]. destruct (E1 E) as [-> _]. discriminate. }
    eapply tm_bind; [apply t_skip|]. intros s2 u [H2 E2]. eapply tm_bind; [apply t_parseEntity|]. unfold le0. intros s3 ok H3.
    destruct ok; [|cbn [tm]; fr; lia]. eapply tm_weaken; [apply IH|unfold le0; intros s4 b H4]; fr; lia.
Qed.

Lemma t_parseToken : forall a isTok, tokenDef a = Some isTok -> forall f s, (sr s < f)%nat ->
  tm (le0 s) (parseToken rops cfg f isTok s).
Proof.
  intros a isTok Ha f s Hf. unfold parseToken.
  assert (Hrec : tm (le0 s)
     (let! (s1, ok) := parseTokenRecover rops cfg s in
      if ok then parseTokenLoop rops cfg f isTok s1 else Ret (upd_tok (tok_init TStart) s1) false)).
  { eapply tm_bind; [apply t_recover|]. unfold le0. intros s1 ok H1.
    destruct ok; [|exact H1]. eapply tm_weaken; [eapply t_parseTokenLoop; eauto; lia|]. unfold le0. intros s2 b H2. lia. }
  destruct (tk_id (sc_tok s)); try exact Hrec;
   (eapply tm_weaken; [eapply t_parseTokenLoop; eauto|]; unfold le0; fr; auto).
Qed.

Lemma t_skipTokenLoop : forall a isTok, tokenDef a = Some isTok -> forall f s, (sr s < f)%nat ->
  tm (le0 s) (skipTokenLoop rops f isTok s).
Proof.
  intros a isTok Ha. induction f as [|f IH]; intros s Hf; [lia|]. cbn [skipTokenLoop].
  pose proof (t_control s) as Hs. destruct (sc_control rops s) as [s1 c| | | |] eqn:Es; cbn [bind tm] in *; auto. destruct Hs as [H1 E1].
  destruct (isTokAt isTok c) as [b|] eqn:Eb; [|exact I].
  destruct (b || ctl_eqb c CAmp) eqn:E.
  - assert (Hne : (0 < sr s1)%nat).
    { destruct (Nat.eq_dec (sr s1) 0) as [E0|]; [|lia]. destruct (E1 E0) as [-> _]. rewrite (tok_notEnd a isTok Ha) in Eb. injection Eb as <-. discriminate. }
    eapply tm_bind; [apply t_skip|]. intros s2 u [H2 E2]. eapply tm_weaken; [apply IH; lia|unfold le0; intros s4 b4 H4]; lia.
  - pose proof (t_control s1) as Hs1. destruct (sc_control rops s1) as [s2 c2| | | |] eqn:Es1; cbn [bind tm] in *; auto. destruct Hs1 as [H2 E2].
    assert (c2 = c).
    { unfold sc_control, on_src in Es, Es1. destruct (r_control rops (sc_src s)) as [r1 c1| | | |] eqn:Er; cbn [omap] in Es; inversion Es; subst.
      fr. destruct (r_control rops r1) as [r2 c3| | | |] eqn:Er1; cbn [omap] in Es1; inversion Es1; subst. eapply Hcc; eauto. }
    subst c2. destruct (ctl_eqb c CAny) eqn:Ea; [|cbn [tm]; unfold le0; lia].
    assert (c = CAny) by (destruct c; cbn in Ea; try discriminate; reflexivity). subst c.
    rewrite (tok_any a isTok Ha) in Eb. injection Eb as <-. discriminate.
Qed.

Lemma t_expectLoop : forall k s, tm (le0 s) (expectLoop rops k s).
Proof.
  induction k as [|x k IH]; intros s; cbn [expectLoop]; [cbn [tm]; unfold le0; fr; lia|].
  eapply tm_bind; [apply t_ascii|]. intros s1 c [H1 _]. destruct (c =? x).
  - eapply tm_bind; [apply t_skip|]. intros s2 u [H2 _]. eapply tm_weaken; [apply IH|]. unfold le0. fr. intros s3 b H3. lia.
  - eapply tm_bind; [apply t_control|]. intros s2 cc [H2 _]. cbn [tm]. unfold le0. fr. lia.
Qed.

Lemma t_doAction : forall f mask a arg s, (sr s < f)%nat -> tm (le0 s) (doAction rops cfg f mask a arg s).
Proof.
  intros f mask a arg s Hf. unfold doAction. destruct (tokenDef a) as [isTok|] eqn:Ea.
  - assert (Hp : tm (le0 s)
       (let! (s1, ok) := (if N.testbit mask (etype_idx arg) then parseToken rops cfg f isTok s
                            else skipTokenLoop rops f isTok s) in
          if ok then Ret s1 (inl arg) else Ret s1 (inr tt : etype + unit))).
    { eapply tm_bind with (Q := le0 s); [|intros s1 ok H1; destruct ok; exact H1].
      destruct (N.testbit mask (etype_idx arg)); [eapply t_parseToken|eapply t_skipTokenLoop]; eauto. }
    destruct (tk_id (sc_tok s)); try exact Hp. cbn. unfold le0. lia.
  - destruct (stringDef a) as [k|] eqn:Ek; [|cbn [tm]; unfold le0; fr; lia].
    assert (Hp : tm (le0 s)
          (let! (s1, ok) := expectStr rops k s in
              if ok
              then match a with
                   | ExpectIdentifierXML =>
                       Ret (push cfg 108 (push cfg 109 (push cfg 120 (push cfg 63 s1)))) (inl EHeaderStart)
                   | _ => Ret s1 (inl ENone)
                   end
              else Ret s1 (inr tt : etype + unit))).
    { eapply tm_bind with (Q := le0 s); [|intros s1 ok H1; destruct ok; [destruct a; exact H1|exact H1]].
      unfold expectStr. destruct (Nat.leb _ _); [|exact I]. eapply tm_weaken; [apply t_expectLoop|]. unfold le0. fr. auto. }
    destruct (tk_id (sc_tok s)); try exact Hp. cbn. unfold le0. lia.
Qed.

(** the result of an action that delivers an element is not None *)
Lemma doAction_rt : forall f mask a arg s s' rt, doAction rops cfg f mask a arg s = Ret s' (inl rt) ->
  match a with
  | ExpectIdentifierXML => rt = EHeaderStart
  | ExpectIdentifierCDATA => rt = ENone
  | _ => rt = arg
  end.
Proof.
  intros f mask a arg s s' rt. unfold doAction. destruct (tokenDef a) as [isTok|] eqn:Ea.
  - assert (Hp : forall x : out scn bool,
       (let! (s1, ok) := x in if ok then Ret s1 (inl arg) else Ret s1 (inr tt : etype + unit)) = Ret s' (inl rt) -> rt = arg).
    { intros x. destruct x as [s1 ok| | | |]; cbn [bind]; try discriminate. destruct ok; congruence. }
    destruct a; try discriminate; destruct (tk_id (sc_tok s)); eauto; congruence.
  - destruct a; try discriminate; cbn [stringDef]; try (intros E; injection E as _ <-; reflexivity);
    (destruct (tk_id (sc_tok s)); try (intros E; injection E as _ <-; reflexivity);
     (destruct (expectStr rops _ s) as [s1 ok| | | |]; cbn [bind]; try discriminate; destruct ok; congruence)).
Qed.

Lemma endless_fuel : forall mask f s, endless (sc_state s) = true -> Z (sc_src s) -> nextItem rops cfg f mask s = Fuel.
Proof.
  intros mask. induction f as [|f IH]; intros s Hs Hz; [reflexivity|]. cbn [nextItem].
  destruct (stm_get_some (sc_state s)) as [e He]. rewrite He.
  assert (Ha : el_action e = None).
  { destruct (sc_state s); try discriminate Hs; vm_compute in He; injection He as <-; reflexivity. }
  rewrite Ha. cbn [bind fst snd]. destruct (HZ _ Hz) as [r1 [r2 [E1 [E2 Hz2]]]].
  unfold sc_control, on_src. rewrite E1. cbn [omap bind].
  assert (Hn : exists ns, nth_error (el_next e) (ctl_idx CEndOfText) = Some (Some ns) /\ endless ns = true).
  { destruct (sc_state s); try discriminate Hs; vm_compute in He; injection He as <-; cbn; eexists; split; reflexivity. }
  destruct Hn as [ns [Hn Hns]]. unfold transition. rewrite Hn. unfold sc_skip, on_src. fr. rewrite E2. cbn [omap bind isNone].
  apply IH; assumption.
Qed.

(** one round of the loop of nextItem; [None]: the loop goes on *)
Definition nstep (f : nat) (mask : N) (s : scn) : out scn (option etype) :=
  match stm_get (sc_state s) with
  | None => Undef
  | Some e =>
      let! (s1, r) :=
        (match el_action e with
         | None => Ret s (ENone, false)
         | Some (a, arg) =>
             let! (s1, res) := doAction rops cfg f mask a arg s in
             match res with
             | inr _ => Ret s1 (EErrorOccurred, true)
             | inl rt =>
                 if Nat.eqb (el_nofnext e) 0
                 then Ret (match el_fallback e with Some fs => set_state fs s1 | None => s1 end) (rt, true)
                 else Ret s1 (rt, false)
             end
         end) in
      if snd r then Ret s1 (Some (fst r))
      else
        let! (s2, c) := sc_control rops s1 in
        let! (s3, ok) := transition rops e c (upd_tok (tok_id TStart) s2) in
        if ok
        then if isNone (fst r) then Ret s3 None else Ret s3 (Some (fst r))
        else Ret s3 (Some EErrorOccurred)
  end.

Lemma nextItem_step : forall f mask s, nextItem rops cfg (S f) mask s =
  let! (s3, o) := nstep f mask s in match o with Some t => Ret s3 t | None => nextItem rops cfg f mask s3 end.
Proof.
  intros f mask s. cbn [nextItem]. unfold nstep. destruct (stm_get (sc_state s)) as [e|]; [|reflexivity].
  destruct (match el_action e with None => _ | Some _ => _ end) as [s1 [rt b]| | | |]; cbn [bind fst snd]; try reflexivity.
  destruct b; [reflexivity|]. destruct (sc_control rops s1) as [s2 c| | | |]; cbn [bind]; try reflexivity.
  destruct (transition rops e c _) as [s3 ok| | | |]; cbn [bind]; try reflexivity.
  destruct ok; [|reflexivity]. destruct (isNone rt); reflexivity.
Qed.

Lemma mono_nstep : forall f g mask s, (f <= g)%nat -> fle (nstep f mask s) (nstep g mask s).
Proof.
  intros f g mask s H. unfold nstep. destruct (stm_get (sc_state s)) as [e|]; [|apply fle_refl].
  apply fle_bind; [|intros; apply fle_refl]. destruct (el_action e) as [[a arg]|]; [|apply fle_refl].
  apply fle_bind; [apply mono_doAction; exact H|intros; apply fle_refl].
Qed.

Lemma t_nstep : forall f mask s, (sr s < f)%nat ->
  tm (fun s' o => (sr s' <= sr s)%nat /\ (o = None ->
        (3 * sr s' + rank (sc_state s') < 3 * sr s + rank (sc_state s))%nat \/ (endless (sc_state s) = true /\ Z (sc_src s)))) (nstep f mask s).
Proof.
  intros f mask s Hf. unfold nstep. destruct (stm_get_some (sc_state s)) as [e He]. rewrite He.
  eapply tm_bind with (Q := fun s1 r => (sr s1 <= sr s)%nat /\ (snd r = false -> isNone (fst r) = true ->
     delivers e = false /\ (el_action e = None -> s1 = s))).
  - destruct (el_action e) as [[a arg]|] eqn:Ea.
    + pose proof (t_doAction f mask a arg s Hf) as Ht. destruct (doAction rops cfg f mask a arg s) as [s1 res| | | |] eqn:Ed; cbn [bind tm] in *; auto.
      unfold le0 in Ht. destruct res as [rt|]; [|cbn; split; [exact Ht|discriminate]].
      destruct (Nat.eqb (el_nofnext e) 0).
      * cbn [tm snd]. split; [destruct (el_fallback e); exact Ht|discriminate].
      * cbn [tm snd fst]. split; [exact Ht|]. intros _ Hn. split; [|discriminate].
        destruct (delivers e) eqn:Edel; [|reflexivity]. pose proof (delivers_rt _ _ _ _ He Ea Edel) as H1.
        pose proof (doAction_rt _ _ _ _ _ _ _ Ed) as H2. unfold delivers in Edel. rewrite Ea in Edel.
        destruct a; subst; try congruence; discriminate.
    + cbn. split; [lia|]. intros _ _. unfold delivers. rewrite Ea. auto.
  - intros s1 [rt b] [H1 H1']. cbn [fst snd] in *. destruct b; [cbn; split; [exact H1|discriminate]|]. specialize (H1' eq_refl).
    pose proof (t_control s1) as Hc. destruct (sc_control rops s1) as [s2 c| | | |] eqn:Ec; cbn [bind tm] in *; auto. destruct Hc as [H2 E2].
    assert (Hst : sc_state s2 = sc_state s1) by (unfold sc_control, on_src in Ec; destruct (r_control rops (sc_src s1)); inversion Ec; reflexivity).
    unfold transition. destruct (next_some (sc_state s) e c He) as [o Ho]. rewrite Ho. destruct o as [ns|].
    + pose proof (t_skip (set_state ns (upd_tok (tok_id TStart) s2))) as Hs.
      destruct (sc_skip rops _) as [s3 u| | | |] eqn:Es; cbn [bind tm] in *; auto. destruct Hs as [H3 E3].
      assert (Hst3 : sc_state s3 = ns) by (unfold sc_skip, on_src in Es; destruct (r_skip rops _); inversion Es; reflexivity).
      assert (Hle : (sr s3 <= sr s)%nat) by (fr; lia).
      destruct (isNone rt) eqn:En; cbn [tm]; [|split; [exact Hle|discriminate]].
      split; [exact Hle|]. intros _. destruct (H1' eq_refl) as [Hdel Hs1]. rewrite Hst3. fr. pose proof (rank_le ns).
      destruct (Nat.eq_dec (sr s2) 0) as [E0|E0]; [|left; lia]. destruct (E2 E0) as [-> Hz].
      destruct (end_next _ _ _ He Ho) as [[Ha [Hb Hcc']]|[Hr|Hd]]; [|left; lia|congruence].
      right. split; auto. rewrite <- (Hs1 Hcc'). exact Hz.
    + destruct (el_fallback e) as [fs|] eqn:Ef.
      * cbn [bind]. destruct (isNone rt) eqn:En; cbn [tm]; fr; (split; [lia|try discriminate]).
        intros _. destruct (H1' eq_refl) as [Hdel _]. pose proof (rank_fallback _ _ _ He Ef Hdel). left. lia.
      * destruct (el_miss e); cbn [bind tm]; fr; (split; [lia|discriminate]).
Qed.

Theorem t_nextItem : forall mask f s, (3 * sr s + rank (sc_state s) + 1 < f)%nat ->
  tm (le0 s) (nextItem rops cfg f mask s) \/ ((exists r, Z r) /\ forall f', nextItem rops cfg f' mask s = Fuel).
Proof.
  intros mask. induction f as [|f IH]; intros s Hf; [lia|]. rewrite nextItem_step.
  pose proof (t_nstep f mask s ltac:(lia)) as Hs. destruct (nstep f mask s) as [s3 o| | | |] eqn:E; cbn [bind tm] in *; auto.
  destruct Hs as [H1 H2]. destruct o as [t|]; [left; exact H1|].
  destruct (H2 eq_refl) as [Hr|[He Hz]]; [|right; split; [eauto|]; intros f'; apply endless_fuel; assumption].
  destruct (IH s3 ltac:(lia)) as [H3|[H0 H3]].
  - left. eapply tm_weaken; [exact H3|]. unfold le0. intros s4 t H4. lia.
  - right. split; [exact H0|]. intros f'.
    assert (Hg : nextItem rops cfg (S (Nat.max f f')) mask s = Fuel).
    { rewrite nextItem_step. pose proof (mono_nstep f (Nat.max f f') mask s ltac:(lia)) as Hm. rewrite E in Hm.
      destruct Hm as [Hm|Hm]; [discriminate|]. rewrite <- Hm. cbn [bind]. apply H3. }
    destruct (mono_nextItem rops cfg f' (S (Nat.max f f')) mask s ltac:(lia)) as [Hm|Hm]; congruence.
Qed.

(** calls in a row *)
Lemma mono_scan : forall f g masks s, (f <= g)%nat -> fle (scan rops cfg f masks s) (scan rops cfg g masks s).
Proof.
  intros f g. induction masks as [|m masks IH]; intros s H; cbn [scan]; [apply fle_refl|].
  apply fle_bind; [apply mono_nextItem; exact H|]. intros s1 t. apply fle_bind; [apply IH; exact H|]. intros; apply fle_refl.
Qed.

Theorem t_scan : forall masks f s, (3 * sr s + 3 < f)%nat ->
  scan rops cfg f masks s = Fuel -> forall f', scan rops cfg f' masks s = Fuel.
Proof.
  induction masks as [|m masks IH]; intros f s Hf H f'; [discriminate H|].
  assert (Hall : forall g, (f <= g)%nat -> scan rops cfg g (m :: masks) s = Fuel).
  { intros g Hg. cbn [scan] in *. pose proof (rank_le (sc_state s)).
    destruct (t_nextItem m f s ltac:(lia)) as [Ht|[_ Ht]]; [|rewrite Ht; reflexivity].
    pose proof (mono_nextItem rops cfg f g m s Hg) as Hm.
    destruct (nextItem rops cfg f m s) as [s1 t| | | |] eqn:E; cbn [bind tm] in *; try discriminate; try contradiction.
    destruct Hm as [Hm|Hm]; [discriminate|]. rewrite <- Hm. cbn [bind]. unfold le0 in Ht.
    destruct (scan rops cfg f masks s1) eqn:E1; cbn [bind] in H; try discriminate.
    rewrite (IH f s1 ltac:(lia) E1 g). reflexivity. }
  destruct (mono_scan f' (Nat.max f f') (m :: masks) s ltac:(lia)) as [Hm|Hm]; [exact Hm|]. rewrite Hm. apply Hall. lia.
Qed.
End Term.

(** ** The ideal byte reader *)
Definition irEnd (r : ird) : Prop := ir_l r = [] /\ ir_m r = EndZero.
Definition irem (r : ird) : nat := length (ir_l r).

Section IrTerm.
Context (cs : charset) (cfg : config).

Lemma casc_nil : cs_constructible cs = true -> casc cs [] = 0.
Proof. clear cfg. destruct cs as [|[]|[]|[]|p]; intros Hcs; vm_compute; reflexivity. Qed.

Lemma need_tm : forall {A} (Q : ird -> A -> Prop) n r (a : A),
  ((length (ir_l r) = 0)%nat -> (1 <= n)%nat) -> (irem r <> 0%nat \/ irEnd r -> Q r a) -> tm Q (need n r a).
Proof.
  intros A Q n r a Hn H. unfold need. destruct (Nat.leb_spec n (length (ir_l r))).
  - apply H. left. unfold irem. intros E. specialize (Hn E). lia.
  - destruct (ir_m r) eqn:E; try exact I. apply H. destruct (ir_l r) eqn:El; [right; split; auto|left; unfold irem; rewrite El; discriminate].
Qed.

Lemma alen_pos : forall l, (1 <= alen cs l)%nat.
Proof. intros l. pose proof (clen_bounds cs l). unfold alen. destruct cs; lia. Qed.

Lemma need_inv : forall {A} n r (a : A) r' b, need n r a = Ret r' b -> r' = r /\ b = a.
Proof. intros A n r a r' b. unfold need. destruct (Nat.leb n (length (ir_l r))); [|destruct (ir_m r)]; intros E; inversion E; auto. Qed.

Hypothesis Hcs : cs_constructible cs = true.

Lemma it_control : forall r, tm (fun r' c => (irem r' <= irem r)%nat /\ (irem r' = 0%nat -> c = CEndOfText /\ irEnd r)) (r_control (ir_ops cs) r).
Proof.
  intros r. cbn [ir_ops r_control]. apply need_tm; [intros _; apply alen_pos|]. intros H. split; [lia|]. intros E. destruct H as [H|H]; [contradiction|].
  split; auto. destruct H as [-> _]. rewrite casc_nil by exact Hcs. reflexivity.
Qed.
Lemma it_ascii : forall r, tm (fun r' c => (irem r' <= irem r)%nat /\ (irem r' = 0%nat -> c = 0)) (r_ascii (ir_ops cs) r).
Proof.
  intros r. cbn [ir_ops r_ascii]. apply need_tm; [intros _; apply alen_pos|]. intros H. split; [lia|]. intros E. destruct H as [H|H]; [contradiction|].
  destruct H as [-> _]. rewrite casc_nil by exact Hcs. reflexivity.
Qed.
Lemma it_chr : forall r, tm (fun r' _ => (irem r' <= irem r)%nat) (r_chr (ir_ops cs) r).
Proof. intros r. cbn [ir_ops r_chr]. apply need_tm; [intros _; apply clen_bounds|]. intros _. lia. Qed.
Lemma it_raw : forall r, tm (fun r' _ => (irem r' <= irem r)%nat) (r_raw (ir_ops cs) r).
Proof. intros r. cbn [ir_ops r_raw]. apply need_tm; [intros _; apply clen_bounds|]. intros _. lia. Qed.
Lemma it_skip' : forall r, tm (fun r' _ => (irem r' <= irem r)%nat /\ (0 < irem r -> irem r' < irem r)%nat) (r_skip (ir_ops cs) r).
Proof.
  intros r. cbn [ir_ops r_skip]. destruct (need _ r tt) as [r1 []| | | |] eqn:E; cbn [bind tm]; auto.
  - apply need_inv in E. destruct E as [-> _]. unfold irem, ir_skipto. cbn [ir_l]. rewrite skipn_length.
    pose proof (clen_bounds cs (ir_l r)). lia.
  - pose proof (need_tm (fun _ _ => True) (alen cs (ir_l r)) r tt (fun _ => alen_pos _) (fun _ => I)) as H. rewrite E in H. exact H.
Qed.
Lemma it_cc : forall r r1 c r2 c2, r_control (ir_ops cs) r = Ret r1 c -> r_control (ir_ops cs) r1 = Ret r2 c2 -> c2 = c.
Proof. intros r r1 c r2 c2 E1 E2. apply need_inv in E1, E2. destruct E1 as [-> ->]. apply E2. Qed.
Lemma it_end : forall r, irEnd r -> exists r1 r2, r_control (ir_ops cs) r = Ret r1 CEndOfText /\ r_skip (ir_ops cs) r1 = Ret r2 tt /\ irEnd r2.
Proof.
  intros [l m p] [El Em]. cbn [ir_l ir_m] in El, Em. subst. exists (mkIr [] EndZero p). eexists. cbn [ir_ops r_control r_skip]. unfold need. cbn [ir_l ir_m].
  rewrite casc_nil by exact Hcs.
  destruct (Nat.leb (alen cs []) (length [])); cbn [bind]; (repeat split); cbn [ir_skipto ir_l ir_m]; rewrite ?skipn_nil; reflexivity.
Qed.

Theorem ir_t_nextItem : forall mask f s, (3 * irem (sc_src s) + rank (sc_state s) + 1 < f)%nat ->
  tm (le0 irem s) (nextItem (ir_ops cs) cfg f mask s) \/ (forall f', nextItem (ir_ops cs) cfg f' mask s = Fuel).
Proof.
  intros mask f s Hf. destruct (t_nextItem (ir_ops cs) cfg irem irEnd it_control it_ascii it_chr it_raw it_skip' it_cc it_end mask f s Hf) as [H|[_ H]]; auto.
Qed.
Theorem ir_t_scan : forall masks f s, (3 * irem (sc_src s) + 3 < f)%nat ->
  scan (ir_ops cs) cfg f masks s = Fuel -> forall f', scan (ir_ops cs) cfg f' masks s = Fuel.
Proof.
  apply (t_scan (ir_ops cs) cfg irem irEnd); [apply it_control|apply it_ascii|apply it_chr|apply it_raw|apply it_skip'|apply it_cc|apply it_end].
Qed.
End IrTerm.

(** ** Input that is not complete or not to be read behind its end: every call ends *)
Section Jump.
Context (cs : charset) (cfg : config) (md : endmode).
Hypothesis Hmd : md <> EndZero.
Hypothesis Hcs : cs_constructible cs = true.
Definition jr (r : ird) : ird := mkIr (ir_l r) md (ir_p r).
Definition jr_ops : readerops ird :=
  mkReaderops (fun r => r_control (ir_ops cs) (jr r)) (fun r => r_ascii (ir_ops cs) (jr r)) (fun r => r_chr (ir_ops cs) (jr r))
    (fun r => r_raw (ir_ops cs) (jr r)) (fun r => r_skip (ir_ops cs) (jr r)) (fun r => r_pos (ir_ops cs) r).
Definition jrel (r t : ird) : Prop := t = r /\ ir_m r = md.

Lemma jr_id : forall r, ir_m r = md -> jr r = r.
Proof. intros [l m p] H. cbn in *. subst. reflexivity. Qed.
Lemma orel_need : forall {A} n r (a : A), ir_m r = md -> orel jrel jrel (need n r a) (need n r a).
Proof.
  intros A n r a H. unfold need. destruct (Nat.leb n (length (ir_l r))); [constructor; split; auto|]. rewrite H. destruct md eqn:E; [congruence| |]; constructor; split; congruence.
Qed.
Lemma jr_rsim : rsim eq (ir_ops cs) jr_ops jrel jrel jrel.
Proof.
  constructor; cbn [jr_ops r_control r_ascii r_chr r_raw r_skip r_pos]; auto; intros r t [-> H]; rewrite ?(jr_id r H);
   try (cbn [ir_ops r_control r_ascii r_chr r_raw r_skip r_pos]; apply orel_need; exact H); [|reflexivity].
  cbn [ir_ops r_skip]. unfold need. destruct (Nat.leb _ (length (ir_l r))); cbn [bind]; [constructor; split; auto|].
  rewrite H. destruct md eqn:E; [congruence| |]; cbn [bind]; constructor; split; congruence.
Qed.

Lemma jr_t_nextItem : forall mask f s, (3 * irem (sc_src s) + rank (sc_state s) + 1 < f)%nat ->
  tm (le0 irem s) (nextItem jr_ops cfg f mask s).
Proof.
  intros mask f s Hf. destruct (t_nextItem jr_ops cfg irem (fun _ => False)) with (mask := mask) (f := f) (s := s) as [H|[[r []] _]]; auto;
   cbn [jr_ops r_control r_ascii r_chr r_raw r_skip]; intros.
  - pose proof (it_control cs Hcs (jr r)) as H. destruct (r_control (ir_ops cs) (jr r)) as [r1 c| | | |]; cbn [tm] in *; auto.
    destruct H as [H1 H2]. split; [exact H1|]. intros E. destruct (H2 E) as [_ [_ H3]]. cbn in H3. congruence.
  - apply (it_ascii cs Hcs (jr r)).
  - apply (it_chr cs (jr r)).
  - apply (it_raw cs (jr r)).
  - apply (it_skip' cs (jr r)).
  - apply need_inv in H, H0. destruct H as [-> ->]. apply H0.
  - contradiction.
Qed.

Theorem ir_cut_nextItem : forall mask f s, ir_m (sc_src s) = md -> (3 * irem (sc_src s) + rank (sc_state s) + 1 < f)%nat ->
  tm (fun s' _ => ir_m (sc_src s') = md /\ (irem (sc_src s') <= irem (sc_src s))%nat) (nextItem (ir_ops cs) cfg f mask s).
Proof.
  intros mask f s Hm Hf. pose proof (jr_t_nextItem mask f s Hf) as H1.
  assert (H0 : srel eq jrel s s) by (destruct s; constructor; auto; split; auto).
  pose proof (sim_nextItem _ _ cfg _ _ _ _ jr_rsim f mask s s H0) as H2.
  destruct H2 as [s1 t1 a H2|s1 t1 H2|s1 t1 H2| |]; cbn [tm] in *; auto.
  destruct H2 as [st er r t ob tp tp' tk [-> Hm'] Htp]. split; [exact Hm'|exact H1].
Qed.
End Jump.

Theorem ir_jump_nextItem : forall cs cfg, cs_constructible cs = true -> forall mask f s, ir_m (sc_src s) = EndJump -> (3 * irem (sc_src s) + rank (sc_state s) + 1 < f)%nat ->
  tm (fun s' _ => ir_m (sc_src s') = EndJump /\ (irem (sc_src s') <= irem (sc_src s))%nat) (nextItem (ir_ops cs) cfg f mask s).
Proof. intros cs cfg Hcs. apply ir_cut_nextItem; [discriminate|exact Hcs]. Qed.
Theorem ir_undef_nextItem : forall cs cfg, cs_constructible cs = true -> forall mask f s, ir_m (sc_src s) = EndUndef -> (3 * irem (sc_src s) + rank (sc_state s) + 1 < f)%nat ->
  tm (fun s' _ => ir_m (sc_src s') = EndUndef /\ (irem (sc_src s') <= irem (sc_src s))%nat) (nextItem (ir_ops cs) cfg f mask s).
Proof. intros cs cfg Hcs. apply ir_cut_nextItem; [discriminate|exact Hcs]. Qed.
