(** Texts without comments, CDATA sections, processing instructions and entity lists are scanned to the end (proofs). *)
From Verif Require Import Base Iter CharMap CodePages Charset TextScanner Ideal ReaderSim ScannerSim IterSim
  CharsetSpec CharsetProofs ReadSpec ReadProofs XmlScanner ScanSpec ScanProofs Safety FuelMono Term CharReader ChunkScan EndsSpec.

(** conditions on the rest of the text *)
Definition tag1 (hdr : bool) (r : list N) : Prop :=
  match behind_blanks r with
  | c :: t => (c = 63 -> hdr = true) /\ (c = 33 -> hd 0 t <> 45 /\ ~ In 91 t)
  | [] => True
  end.
Definition P0 (l : list N) : Prop := forall pre r, l = pre ++ 60 :: r -> tag1 false r.
Definition E2 (l : list N) : Prop := P0 l /\ ~ In 91 l.

Definition inv (st : stm) (l : list N) : Prop :=
  match st with
  | START => without_sections l
  | STARTTAG => P0 l /\ tag1 true l
  | XMLTAG => P0 l /\ tag1 false l
  | ENTITYSL => E2 l /\ hd 0 l <> 45
  | ENTITY | ENTITYID | ENTITYSQ | ENTITYDQ => E2 l
  | PITAG | PITAGEND | ENTITYLC | COMDASH2 | COMSEEKE | COMENDD2 | COMENDCL | CDATA | CDATA1 | CDATA2 | CDATA3 => False
  | EXIT => True
  | _ => P0 l
  end.

Lemma tl_app : forall (l pre r : list N), tl l = pre ++ 60 :: r -> exists p, l = p ++ 60 :: r.
Proof. intros [|c l] pre r H; cbn [tl] in H; [destruct pre; discriminate|]. exists (c :: pre). cbn. rewrite H. reflexivity. Qed.
Lemma P0_tl : forall l, P0 l -> P0 (tl l).
Proof. intros l H pre r E. destruct (tl_app l pre r E) as [p E2]. apply (H p r E2). Qed.
Lemma notin_tl : forall x (l : list N), ~ In x l -> ~ In x (tl l).
Proof. intros x [|c l] H; cbn in *; auto. Qed.
Lemma E2_tl : forall l, E2 l -> E2 (tl l).
Proof. intros l [H1 H2]. split; [apply P0_tl; exact H1|apply notin_tl; exact H2]. Qed.

(** the character that was read *)
Definition chr_in (c : ctl) (x : N) : bool :=
  match c with
  | CLt => x =? 60 | CExclam => x =? 33 | CQuestm => x =? 63 | COsb => x =? 91 | CDash => x =? 45
  | CEndOfLine | CCntrl | CSpace => (1 <=? x) && (x <=? 32)
  | _ => true
  end.
Lemma ctl_chr : forall x, chr_in (ctl_of (kasc x)) x = true.
Proof.
  intros x. destruct (N.ltb_spec x 128).
  - assert (Hall : forallb (fun n => chr_in (ctl_of (kasc (N.of_nat n))) (N.of_nat n)) (seq 0 128) = true) by (vm_compute; reflexivity).
    rewrite forallb_forall in Hall. specialize (Hall (N.to_nat x)). rewrite N2Nat.id in Hall. apply Hall. apply in_seq. lia.
  - unfold kasc. destruct (N.ltb_spec x 128); [lia|]. reflexivity.
Qed.
Lemma hd_chr : forall l c, ctl_of (kasc (hd 0 l)) = c -> chr_in c (hd 0 l) = true.
Proof. intros l c <-. apply ctl_chr. Qed.
Lemma hd_cons : forall (l : list N) x, hd 0 l = x -> x <> 0 -> l = x :: tl l.
Proof. intros [|y l] x H H0; cbn in *; [congruence|]. subst. reflexivity. Qed.

Lemma ws_tag1 : forall b l, (1 <=? hd 0 l) && (hd 0 l <=? 32) = true -> tag1 b l -> tag1 b (tl l).
Proof. intros b [|c l] H; cbn [hd tl] in *; [auto|]. unfold tag1. cbn [behind_blanks]. rewrite H. auto. Qed.
Lemma ws_start : forall l, (1 <=? hd 0 l) && (hd 0 l <=? 32) = true -> without_sections l -> without_sections (tl l).
Proof.
  intros [|c l] H Hw; cbn [hd tl] in *; [auto|]. intros pre r E. specialize (Hw (c :: pre) r). rewrite E in Hw. specialize (Hw eq_refl).
  destruct (behind_blanks r) as [|x t]; [exact I|]. destruct Hw as [H1 H2]. split; [|exact H2]. intros Hx. specialize (H1 Hx). inversion H1; assumption.
Qed.
Lemma start_tag : forall l, hd 0 l = 60 -> without_sections l -> P0 (tl l) /\ tag1 true (tl l).
Proof.
  intros l H Hw. apply hd_cons in H; [|discriminate]. rewrite H in Hw. cbn [tl]. revert Hw. generalize (tl l) as r. clear. intros r Hw. split.
  - intros pre r2 E. specialize (Hw (60 :: pre) r2). rewrite E in Hw. specialize (Hw eq_refl). unfold tag1. destruct (behind_blanks r2) as [|x t]; [exact I|].
    destruct Hw as [H1 H2]. split; [|exact H2]. intros Hx. specialize (H1 Hx). inversion H1 as [|? ? Hb]; subst. lia.
  - specialize (Hw [] r eq_refl). unfold tag1. destruct (behind_blanks r) as [|x t]; [exact I|]. destruct Hw as [_ H2]. split; auto.
Qed.
Lemma P0_tag : forall l, hd 0 l = 60 -> P0 l -> P0 (tl l) /\ tag1 false (tl l).
Proof. intros l H HP. split; [apply P0_tl; exact HP|]. apply hd_cons in H; [|discriminate]. apply (HP [] (tl l)). exact H. Qed.
Lemma tag1_exclam : forall b l, hd 0 l = 33 -> tag1 b l -> P0 l -> E2 (tl l) /\ hd 0 (tl l) <> 45.
Proof.
  intros b l H Ht HP. apply hd_cons in H; [|discriminate]. rewrite H in Ht. unfold tag1 in Ht. cbn in Ht. destruct Ht as [_ Ht].
  destruct (Ht eq_refl) as [H1 H2]. split; [|exact H1]. split; [apply P0_tl; exact HP|exact H2].
Qed.
Lemma tag1_questm : forall l, hd 0 l = 63 -> tag1 false l -> False.
Proof. intros l H Ht. apply hd_cons in H; [|discriminate]. rewrite H in Ht. unfold tag1 in Ht. cbn in Ht. destruct Ht as [Ht _]. discriminate (Ht eq_refl). Qed.
Lemma osb_in : forall l, hd 0 l = 91 -> ~ In 91 l -> False.
Proof. intros l H Hn. apply hd_cons in H; [|discriminate]. apply Hn. rewrite H. left. reflexivity. Qed.

(** the steps of the statemachine *)
Lemma inv_next : forall st e c ns l, stm_get st = Some e -> ctl_of (kasc (hd 0 l)) = c ->
  nth_error (el_next e) (ctl_idx c) = Some (Some ns) -> inv st l -> inv ns (tl l).
Proof.
  intros st e c ns l He Hc Hn Hi. apply hd_chr in Hc.
  destruct st; try contradiction; vm_compute in He; injection He as <-; destruct c; cbn in Hn; try discriminate; injection Hn as <-; cbn [inv chr_in] in *;
   try (apply N.eqb_eq in Hc);
   try solve [ exact I | apply P0_tl; first [assumption | apply Hi]
             | apply E2_tl; first [assumption | apply Hi]
             | apply P0_tag; assumption
             | apply ws_start; assumption
             | apply start_tag; assumption
             | destruct Hi as [Hi1 Hi2]; split; [apply P0_tl; assumption|apply ws_tag1; assumption]
             | destruct Hi as [Hi1 Hi2]; eapply tag1_exclam; eassumption
             | exfalso; destruct Hi as [Hi1 Hi2]; eapply tag1_questm; eassumption
             | exfalso; eapply osb_in; [eassumption|apply Hi]
             | exfalso; destruct Hi as [[Hi1 Hi3] Hi2]; eapply osb_in; eassumption
             | exfalso; destruct Hi as [Hi1 Hi2]; congruence ].
Qed.
Lemma inv_fallback : forall st e fs l, stm_get st = Some e -> el_fallback e = Some fs -> inv st l -> inv fs l.
Proof.
  intros st e fs l He Hf Hi. destruct st; try contradiction; vm_compute in He; injection He as <-; cbn in Hf; try discriminate; injection Hf as <-; cbn [inv] in *;
   try assumption; try apply Hi.
Qed.
(** the condition of a state with an action stays when characters are read *)
Definition act_inv (st : stm) : list N -> Prop :=
  match st with
  | ENTITYID | ENTITYSQ | ENTITYDQ => E2
  | EXIT => fun _ => True
  | _ => P0
  end.
Lemma act_inv_eq : forall st e a l, stm_get st = Some e -> el_action e = Some a -> inv st l -> act_inv st l.
Proof. intros st e a l He Ha Hi. destruct st; try contradiction; vm_compute in He; injection He as <-; cbn in Ha; try discriminate; exact Hi. Qed.
Lemma inv_act : forall st e a l, stm_get st = Some e -> el_action e = Some a -> inv st [] \/ endless st = false /\ st <> CDATA -> act_inv st l -> inv st l.
Proof.
  intros st e a l He Ha Hn Hi. destruct st; vm_compute in He; injection He as <-; cbn in Ha; try discriminate; try exact Hi.
  exfalso. cbn in Hn. destruct Hn as [[]|[_ H]]. congruence.
Qed.
Lemma act_inv_tl : forall st l, act_inv st l -> act_inv st (tl l).
Proof. intros st l. destruct st; cbn [act_inv]; auto using P0_tl, E2_tl. Qed.

Section Ends.
Context (outcs : kout) (cfg : config).
Notation scn := (scanner (list N)).

Lemma kr_keep : forall (P : list N -> Prop), (forall l, P l -> P (tl l)) ->
  rsim eq (kr_ops outcs) (kr_ops outcs) (fun r t => t = r /\ P r) (fun r t => t = r /\ P r) (fun r t => t = r /\ P r).
Proof. intros P HP. constructor; cbn [kr_ops r_control r_ascii r_chr r_raw r_skip r_pos]; auto; intros r t [-> H]; try (constructor; split; auto); reflexivity. Qed.

Lemma keep_doAction : forall (P : list N -> Prop) f mask a arg s, (forall l, P l -> P (tl l)) -> P (sc_src s) ->
  forall s1 x, doAction (kr_ops outcs) cfg f mask a arg s = Ret s1 x -> P (sc_src s1) /\ sc_state s1 = sc_state s.
Proof.
  intros P f mask a arg s HP Hs s1 x E. split.
  - assert (H0 : srel eq (fun r t => t = r /\ P r) s s) by (destruct s; constructor; auto).
    pose proof (sim_doAction (kr_ops outcs) (kr_ops outcs) cfg (cf_raw cfg) eq _ _ _ (rsim_c _ _ _ _ _ _ (kr_keep P HP)) (fun _ => True)) as H.
    specialize (H (fun _ _ _ _ _ => I) (fun _ _ _ _ _ => I)).
    specialize (H (fun s t _ => copychar_sim (kr_ops outcs) (kr_ops outcs) cfg eq _ _ _ (kr_keep P HP) s t) f mask a arg s s H0).
    rewrite E in H. inversion H as [s2 t2 y H2| | | |]; subst. destruct H2 as [st er r t ob tp tp' tk [_ Hr] _]. exact Hr.
  - pose proof (stk_doAction (kr_ops outcs) cfg f mask a arg _ s eq_refl) as H. rewrite E in H. exact H.
Qed.

Lemma inv_nstep : forall f mask s s3 o, inv (sc_state s) (sc_src s) -> nstep (kr_ops outcs) cfg f mask s = Ret s3 o -> inv (sc_state s3) (sc_src s3).
Proof.
  intros f mask s s3 o Hi. unfold nstep. destruct (stm_get_some (sc_state s)) as [e He]. rewrite He.
  assert (Hstep : forall s1 rt, sc_state s1 = sc_state s -> inv (sc_state s) (sc_src s1) ->
    (let! (s2, c) := sc_control (kr_ops outcs) s1 in
        let! (s3, ok) := transition (kr_ops outcs) e c (upd_tok (tok_id TStart) s2) in
        if ok then if isNone rt then Ret s3 None else Ret s3 (Some rt) else Ret s3 (Some EErrorOccurred)) = Ret s3 o -> inv (sc_state s3) (sc_src s3)).
  { intros s1 rt Est Hi1. unfold sc_control, on_src. cbn [kr_ops r_control omap bind]. unfold transition.
    destruct (next_some (sc_state s) e (ctl_of (kasc (hd 0 (sc_src s1)))) He) as [x Hx]. rewrite Hx. destruct x as [ns|].
    - unfold sc_skip, on_src. cbn [kr_ops r_skip omap bind]. intros E.
      assert (H3 : inv ns (tl (sc_src s1))) by (eapply inv_next; eauto).
      destruct (isNone rt); injection E as <- _; exact H3.
    - destruct (el_fallback e) as [fs|] eqn:Ef.
      + cbn [bind]. intros E. assert (H3 : inv fs (sc_src s1)) by (eapply inv_fallback; eauto). destruct (isNone rt); injection E as <- _; exact H3.
      + destruct (el_miss e); cbn [bind]; intros E; [injection E as <- _; destruct s1; cbn in *; rewrite Est; exact Hi1|].
        destruct (isNone rt); injection E as <- _; destruct s1; cbn in *; rewrite Est; exact Hi1. }
  destruct (el_action e) as [[a arg]|] eqn:Ea; [|cbn [bind fst snd]; apply Hstep; auto].
  destruct (doAction (kr_ops outcs) cfg f mask a arg s) as [s1 res| | | |] eqn:Ed; cbn [bind]; try discriminate.
  assert (Hk := keep_doAction (act_inv (sc_state s)) f mask a arg s (act_inv_tl _) (act_inv_eq _ _ _ _ He Ea Hi) s1 res Ed). destruct Hk as [Hk1 Hk2].
  assert (Hi1 : inv (sc_state s) (sc_src s1)).
  { eapply inv_act; eauto. right. destruct (sc_state s); try contradiction Hi; split; try reflexivity; discriminate. }
  destruct res as [rt|]; cbn [bind fst snd].
  - destruct (Nat.eqb (el_nofnext e) 0); cbn [bind fst snd].
    + intros E. injection E as <- _. destruct (el_fallback e) as [fs|] eqn:Ef; [eapply inv_fallback; eauto|rewrite Hk2; exact Hi1].
    + apply Hstep; auto.
  - intros E. injection E as <- _. rewrite Hk2. exact Hi1.
Qed.

Definition krem (l : list N) : nat := length l.
Definition kend (l : list N) : Prop := l = [].
Lemma inv_nextItem : forall mask f s, (3 * krem (sc_src s) + rank (sc_state s) + 1 < f)%nat -> inv (sc_state s) (sc_src s) ->
  tm (fun s' _ => (krem (sc_src s') <= krem (sc_src s))%nat /\ inv (sc_state s') (sc_src s')) (nextItem (kr_ops outcs) cfg f mask s).
Proof.
  intros mask. induction f as [|f IH]; intros s Hf Hi; [lia|]. rewrite nextItem_step.
  pose proof (t_nstep (kr_ops outcs) cfg krem kend) as Hs.
  assert (Hs' : tm (fun s' o => (krem (sc_src s') <= krem (sc_src s))%nat /\ (o = None ->
        (3 * krem (sc_src s') + rank (sc_state s') < 3 * krem (sc_src s) + rank (sc_state s))%nat \/ (endless (sc_state s) = true /\ kend (sc_src s)))) (nstep (kr_ops outcs) cfg f mask s)).
  { apply Hs; try lia; cbn [kr_ops r_control r_ascii r_chr r_raw r_skip tm]; unfold krem, kend.
    - intros r. split; [lia|]. intros E. destruct r; [split; reflexivity|discriminate].
    - intros r. split; [lia|]. intros E. destruct r; [reflexivity|discriminate].
    - intros r. lia.
    - intros r. lia.
    - intros r. destruct r; cbn; split; lia.
    - intros r r1 c r2 c2 E1 E2. injection E1 as <- <-. injection E2 as <- <-. reflexivity. }
  destruct (nstep (kr_ops outcs) cfg f mask s) as [s3 o| | | |] eqn:E; cbn [bind tm] in *; auto.
  destruct Hs' as [H1 H2]. pose proof (inv_nstep f mask s s3 o Hi E) as H3. destruct o as [t|]; [split; assumption|].
  destruct (H2 eq_refl) as [Hr|[He _]]; [|destruct (sc_state s); try discriminate He; contradiction Hi].
  eapply tm_weaken; [apply IH; [lia|exact H3]|]. intros s4 t [H4 H5]. split; [lia|exact H5].
Qed.

Lemma inv_scan : forall masks f s, (3 * krem (sc_src s) + 3 < f)%nat -> inv (sc_state s) (sc_src s) -> scan (kr_ops outcs) cfg f masks s <> Fuel.
Proof.
  induction masks as [|m masks IH]; intros f s Hf Hi; cbn [scan]; [discriminate|]. pose proof (rank_le (sc_state s)).
  pose proof (inv_nextItem m f s ltac:(lia) Hi) as H1. destruct (nextItem (kr_ops outcs) cfg f m s) as [s1 t| | | |]; cbn [bind tm] in *; try discriminate; [|contradiction].
  destruct H1 as [H1 H2]. specialize (IH f s1 ltac:(lia) H2). destruct (scan (kr_ops outcs) cfg f masks s1); cbn [bind]; congruence.
Qed.
End Ends.

Theorem sections_end : forall incs outcs masks cl f, cs_constructible incs = true -> Forall (representable incs) cl -> without_sections cl ->
  (3 * length cl + 3 < f)%nat -> xml_scan incs outcs f masks (flat_map (cs_print incs) cl) <> Fuel.
Proof.
  intros incs outcs masks cl f Hcs Hr Hw Hf E. pose proof (xml_scan_chars incs outcs f masks cl Hcs Hr) as H. rewrite E in H. inversion H as [| | | |E1 E2].
  apply (inv_scan (kplain outcs) (kcfg (kplain outcs) None 0) masks f (sc_make cl)); auto.
Qed.
