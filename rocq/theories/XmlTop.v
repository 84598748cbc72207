(** The language read by the scanner (proofs): whole texts, right or wrong. *)
From Verif Require Import Base Iter CharMap CodePages Charset TextScanner Ideal ReaderSim ScannerSim IterSim
  CharsetSpec CharsetProofs ReadSpec ReadProofs XmlScanner ScanSpec ScanProofs CharReader FuelMono Term DocSpec SectSpec XmlSpec DocProofs DocScan XmlTok OpenScan
  DocTop XmlRuns.

Ltac wsst := let c := fresh in let H := fresh in intros c H; cbn in H; repeat (destruct H as [<-|H]; [reflexivity|]); destruct H.

Section T.
Context (outcs : kout) (mask : N).
Hypothesis Hmask : forall t, N.testbit mask (etype_idx t) = true.
Let cfg := kcfg outcs None 0.
Notation next := (nextItem (kr_ops outcs) cfg).
Notation silent := (silent outcs None 0 mask).
Notation deliver0 := (deliver0 outcs None 0 mask).
Notation xruns := (xruns outcs mask).
Notation fails := (fails outcs mask).

(** the first element may need an empty buffer *)
Definition xruns0 (st : stm) (l : list N) (els : list (etype * list N)) (o : tend) : Prop :=
  xruns st l els o \/ exists t v st1 l1 els', els = (t, v) :: els' /\ deliver0 st l t v st1 l1 /\ xruns st1 l1 els' o.
Lemma xruns0_silent : forall st l st1 l1 els o, silent st l st1 l1 -> xruns0 st1 l1 els o -> xruns0 st l els o.
Proof.
  intros st l st1 l1 els o Hs [H|[t [v [st2 [l2 [els' [-> [[k2 H2] Hr]]]]]]]]; [left; eapply xruns_silent; eauto|]. destruct Hs as [k H]. right. exists t, v, st2, l2, els'.
  split; [reflexivity|]. split; [|exact Hr]. exists (k + k2)%nat. intros f b Hb. rewrite <- Nat.add_assoc. rewrite H. apply H2. exact Hb.
Qed.

(** ** The header *)
Let xtag := match stm_get XTAG with Some e => e | None => el_new end.
Lemma xtag_step : forall rest f b ob, nstep (kr_ops outcs) cfg f mask (KS XTAG (str "xml" ++ rest) ob b) =
  let! (s3, ok) := transition (kr_ops outcs) xtag (kctl (hd 0 rest)) (KS XTAG rest (ob ++ prs outcs (str "?xml")) b) in
  if ok then Ret s3 (Some EHeaderStart) else Ret s3 (Some EErrorOccurred).
Proof.
  intros rest f b ob. unfold nstep, KS. cbn [sc_state]. change (stm_get XTAG) with (Some xtag). cbn iota.
  change (el_action xtag) with (Some (ExpectIdentifierXML, ENone)). change (el_nofnext xtag) with 4%nat.
  unfold doAction, expectStr, upd_tok, set_tok, tok_id. cbn [tokenDef stringDef sc_tok tk_id sc_state sc_err sc_src sc_obuf sc_tokpos tk_pos skipn Nat.leb tk_cr tk_base tk_value tk_buf].
  rewrite expect_loop by apply key_low. cbn [bind sc_tok sc_state sc_err sc_src sc_obuf sc_tokpos tk_id tk_cr tk_pos tk_base tk_value tk_buf].
  unfold push, set_obuf. cbn [bind snd fst Nat.eqb sc_state sc_err sc_src sc_obuf sc_tokpos sc_tok tk_buf].
  rewrite k_control. cbn [bind sc_src isNone]. unfold prs. change (str "?xml") with [63; 120; 109; 108]. cbn [flat_map app]. rewrite app_nil_r, <- !app_assoc. reflexivity.
Qed.
Lemma xml_deliver : forall rest, followb true (hd 0 rest) = true ->
  exists ns, deliver0 XTAG (str "xml" ++ rest) EHeaderStart (str "?xml") ns (tl rest) /\ silent XTAGAVQE rest ns (tl rest).
Proof.
  intros rest Hf.
  assert (T : exists ns, nth_error (el_next xtag) (ctl_idx (kctl (hd 0 rest))) = Some (Some ns) /\ snext XTAGAVQE (kctl (hd 0 rest)) = Some (ns, true)).
  { kc (hd 0 rest); eexists; split; reflexivity. }
  destruct T as [ns [T1 T2]]. exists ns. split; [|exact (sil _ _ _ _ _ rest _ ns true eq_refl T2)].
  exists 1%nat. intros f b Hb. exists b. split; [exact Hb|]. cbn [Nat.add]. rewrite nextItem_step, xtag_step. unfold transition. rewrite T1. rewrite k_skip. reflexivity.
Qed.
Lemma xml_fails : forall r, followb true (hd 0 r) = false -> fails XTAG (str "xml" ++ r) ErrExpectedXMLTag.
Proof.
  intros r H. exists 1%nat. intros f ob b Hb. cbn [Nat.add]. rewrite nextItem_step.
  assert (E : missed xtag (kctl (hd 0 r)) = Some ErrExpectedXMLTag) by (kc (hd 0 r)).
  rewrite xtag_step. unfold transition, missed in *. destruct (nth_error (el_next _) (ctl_idx (kctl (hd 0 r)))) as [[ns'|]|]; try discriminate.
  destruct (el_fallback _); [discriminate|]. rewrite E. eexists. split; reflexivity.
Qed.

Lemma x_header : forall l els s, header_reads l els s -> forall els' o, cont outcs mask s els' o -> xruns0 XTAG l (els ++ els') o.
Proof.
  intros l els s H els' o Hc.
  destruct H as [l e H|l r H Hf|l r els e H Hf Ha|l r els b ws r2 H Hf Ha [Hw Hw2] Hn|l r els b ws r2 H Hf Ha Hw]; cbn [cont] in Hc; try (destruct Hc as [-> ->]); cbn [app].
  - left. constructor. eapply (key_fails outcs mask XTAG); [reflexivity|reflexivity|reflexivity|reflexivity|apply key_low|exact H].
  - left. constructor. rewrite (expect_ok _ _ _ H). apply xml_fails. exact Hf.
  - right. rewrite (expect_ok _ _ _ H). destruct (xml_deliver r Hf) as [ns [D1 D2]]. eexists _, _, ns, _, _. split; [reflexivity|]. split; [exact D1|].
    eapply xruns_back; [exact Hmask|exact D2|]. eapply (x_attrs outcs mask Hmask true); [exact Ha|exact Hf|]. split; reflexivity.
  - right. rewrite (expect_ok _ _ _ H). destruct (xml_deliver r Hf) as [ns [D1 D2]]. eexists _, _, ns, _, _. split; [reflexivity|]. split; [exact D1|].
    eapply xruns_back; [exact Hmask|exact D2|]. eapply (x_attrs outcs mask Hmask true); [exact Ha|exact Hf|]. cbn [contA vqe].
    apply (x_sil outcs mask XTAGAVQE _ XTAGEND true); [reflexivity|]. cbn [tl]. apply x_ws; [wsst|exact Hw|]. apply x_miss. kc (hd 0 r2).
  - right. rewrite (expect_ok _ _ _ H). destruct (xml_deliver r Hf) as [ns [D1 D2]]. eexists _, _, ns, _, _. split; [reflexivity|]. split; [exact D1|].
    eapply xruns_back; [exact Hmask|exact D2|]. rewrite <- app_assoc. eapply (x_attrs outcs mask Hmask true); [exact Ha|exact Hf|]. cbn [contA vqe].
    apply (x_sil outcs mask XTAGAVQE _ XTAGEND true); [reflexivity|]. cbn [tl]. apply x_ws; [wsst|exact Hw|].
    apply (x_sil outcs mask XTAGEND _ XTAGDONE true); [reflexivity|]. cbn [tl app].
    eapply xr_cons; [eapply ret0_deliver; reflexivity|]. apply Hc. right. reflexivity.
Qed.

(** ** Texts *)
Lemma x_first : forall l els s, markup_reads true l els s -> blank (hd 0 l) = false -> forall els' o, cont outcs mask s els' o -> xruns0 STARTTAG l (els ++ els') o.
Proof.
  intros l els s H Hb els' o Hc. destruct (N.eq_dec (hd 0 l) 63) as [E|E].
  - inversion H; subst; cbn [hd] in *; try discriminate; try congruence.
    eapply xruns0_silent; [apply (sil _ _ _ _ STARTTAG (63 :: _) CQuestm XTAG true); reflexivity|]. cbn [tl]. eapply x_header; eauto.
  - left. apply (x_markup outcs mask Hmask true l els s); auto.
Qed.
Lemma x_text : forall l els o, text_reads l els o -> xruns0 START l els (tend_of o).
Proof.
  intros l els o H.
  destruct H as [ws l Hw H0|ws l [Hw Hw2] H0 H1|ws ws0 l els seek r els2 o Hw [Hw0 Hw1] Hm Hc|ws ws0 l els e Hw [Hw0 Hw1] Hm|ws ws0 l els Hw [Hw0 Hw1] Hm].
  - left. apply x_ws; [wsst|exact Hw|]. apply (x_sil outcs mask START _ EXIT true); [kc (hd 0 l)|]. eapply xr_cons; [eapply ret0_deliver; reflexivity|]. constructor.
  - left. apply x_ws; [wsst|exact Hw|]. apply x_miss. kc (hd 0 l).
  - assert (S1 : silent START (ws ++ 60 :: ws0 ++ l) START (60 :: ws0 ++ l)) by (apply blank_self; [wsst|exact Hw]).
    eapply xruns0_silent; [exact S1|]. eapply xruns0_silent; [apply (sil _ _ _ _ START (60 :: _) CLt STARTTAG true); reflexivity|]. cbn [tl].
    eapply xruns0_silent; [apply blank_self; [wsst|exact Hw0]|]. eapply x_first; eauto. intros st Hst. eapply x_content; eauto.
  - eapply xruns0_silent; [apply (blank_self outcs mask START); [wsst|exact Hw]|]. eapply xruns0_silent; [apply (sil _ _ _ _ START (60 :: _) CLt STARTTAG true); reflexivity|]. cbn [tl].
    eapply xruns0_silent; [apply blank_self; [wsst|exact Hw0]|]. rewrite <- (app_nil_r els). eapply x_first; eauto. split; reflexivity.
  - eapply xruns0_silent; [apply (blank_self outcs mask START); [wsst|exact Hw]|]. eapply xruns0_silent; [apply (sil _ _ _ _ START (60 :: _) CLt STARTTAG true); reflexivity|]. cbn [tl].
    eapply xruns0_silent; [apply blank_self; [wsst|exact Hw0]|]. rewrite <- (app_nil_r els). eapply x_first; eauto. split; reflexivity.
Qed.

(** ** The calls of nextItem *)
Lemma xruns_scan : forall st l els o, xruns st l els o -> exists k, forall f ob b, length b = 16%nat ->
  exists s evs, scan (kr_ops outcs) cfg (k + f) (repeat mask (length els)) (KS st l ob b) = Ret s evs /\ map element evs = map (delivered outcs) els.
Proof.
  intros st l els o H. induction H as [st l|st l _|st l e _|st l t v st1 l1 els o [k1 H1] Hr [k2 IH]]; try (exists 0%nat; intros; eexists _, _; split; reflexivity).
  exists (k1 + k2)%nat. intros f ob b Hb. cbn [length repeat scan].
  destruct (H1 (k2 + f)%nat ob b Hb) as [b1 [Hb1 E1]]. fold cfg in E1. replace (k1 + k2 + f)%nat with (k1 + (k2 + f))%nat by lia. rewrite E1. cbn [bind].
  destruct (IH (k1 + f)%nat (prs outcs v) b1 Hb1) as [s [evs [E2 E3]]]. replace (k1 + (k2 + f))%nat with (k2 + (k1 + f))%nat by lia. rewrite E2. cbn [bind].
  eexists _, _. split; [reflexivity|]. cbn [map]. rewrite E3. reflexivity.
Qed.
Lemma xruns_fails : forall st l els o, xruns st l els o -> forall e, o = TFail e -> exists k, forall f ob b, length b = 16%nat ->
  exists s evs item, scan (kr_ops outcs) cfg (k + f) (repeat mask (S (length els))) (KS st l ob b) = Ret s evs /\
    map element evs = map (delivered outcs) els ++ [(EErrorOccurred, item, e)].
Proof.
  intros st l els o H. induction H as [st l|st l _|st l e [k H]|st l t v st1 l1 els o [k1 H1] Hr IH]; intros e0 Eo; try discriminate.
  - injection Eo as ->. exists k. intros f ob b Hb. destruct (H f ob b Hb) as [s [E1 E2]]. cbn [length repeat scan]. fold cfg in E1. rewrite E1. cbn [bind].
    eexists _, _, _. split; [reflexivity|]. cbn [map app]. unfold element, observe. cbn. rewrite E2. reflexivity.
  - destruct (IH e0 Eo) as [k2 IH2]. exists (k1 + k2)%nat. intros f ob b Hb. cbn [length].
    change (repeat mask (S (S (length els)))) with (mask :: repeat mask (S (length els))). cbn [scan].
    destruct (H1 (k2 + f)%nat ob b Hb) as [b1 [Hb1 E1]]. fold cfg in E1. replace (k1 + k2 + f)%nat with (k1 + (k2 + f))%nat by lia. rewrite E1. cbn [bind].
    destruct (IH2 (k1 + f)%nat (prs outcs v) b1 Hb1) as [s [evs [item [E2 E3]]]]. replace (k1 + (k2 + f))%nat with (k2 + (k1 + f))%nat by lia. rewrite E2. cbn [bind].
    eexists _, _, item. split; [reflexivity|]. cbn [map app]. rewrite E3. reflexivity.
Qed.
Lemma xruns_hang : forall st l els o, xruns st l els o -> o = THang -> forall f ob b, length b = 16%nat ->
  scan (kr_ops outcs) cfg f (repeat mask (S (length els))) (KS st l ob b) = Fuel.
Proof.
  intros st l els o H. induction H as [st l|st l H|st l e _|st l t v st1 l1 els o [k1 H1] Hr IH]; intros Eo f ob b Hb; try discriminate.
  - cbn [length repeat scan]. pose proof (H f ob b) as E. fold cfg in E. rewrite E. reflexivity.
  - cbn [length]. change (repeat mask (S (S (length els)))) with (mask :: repeat mask (S (length els))). cbn [scan].
    destruct (H1 f ob b Hb) as [b1 [Hb1 E1]]. fold cfg in E1.
    destruct (mono_nextItem (kr_ops outcs) cfg f (k1 + f) mask (KS st l ob b) ltac:(lia)) as [E|E]; rewrite E; [reflexivity|]. rewrite E1. cbn [bind].
    rewrite (IH Eo f (prs outcs v) b1 Hb1). reflexivity.
Qed.

Lemma first_elements : forall st l els o, xruns0 st l els o -> forall b16, length b16 = 16%nat -> exists k s evs,
  scan (kr_ops outcs) cfg k (repeat mask (length els)) (KS st l [] b16) = Ret s evs /\ map element evs = map (delivered outcs) els.
Proof.
  intros st l els o [H|[t [v [st1 [l1 [els' [-> [[k1 H1] Hr]]]]]]]] b16 H16.
  - destruct (xruns_scan _ _ _ _ H) as [k Hk]. destruct (Hk 0%nat [] b16 H16) as [s [evs E]]. exists (k + 0)%nat, s, evs. exact E.
  - destruct (xruns_scan _ _ _ _ Hr) as [k2 IH]. cbn [length repeat scan].
    destruct (H1 k2 b16 H16) as [b1 [Hb1 E1]]. fold cfg in E1. destruct (IH k1 (prs outcs v) b1 Hb1) as [s [evs [E2 E3]]].
    exists (k1 + k2)%nat. rewrite E1. cbn [bind]. rewrite (Nat.add_comm k1 k2), E2. cbn [bind]. eexists _, _. split; [reflexivity|]. cbn [map]. rewrite E3. reflexivity.
Qed.
Lemma first_fails : forall st l els e, xruns0 st l els (TFail e) -> forall b16, length b16 = 16%nat -> exists k s evs item,
  scan (kr_ops outcs) cfg k (repeat mask (S (length els))) (KS st l [] b16) = Ret s evs /\ map element evs = map (delivered outcs) els ++ [(EErrorOccurred, item, e)].
Proof.
  intros st l els e [H|[t [v [st1 [l1 [els' [-> [[k1 H1] Hr]]]]]]]] b16 H16.
  - destruct (xruns_fails _ _ _ _ H e eq_refl) as [k Hk]. destruct (Hk 0%nat [] b16 H16) as [s [evs [item E]]]. exists (k + 0)%nat, s, evs, item. exact E.
  - destruct (xruns_fails _ _ _ _ Hr e eq_refl) as [k2 IH]. cbn [length]. change (repeat mask (S (S (length els')))) with (mask :: repeat mask (S (length els'))). cbn [scan].
    destruct (H1 k2 b16 H16) as [b1 [Hb1 E1]]. fold cfg in E1. destruct (IH k1 (prs outcs v) b1 Hb1) as [s [evs [item [E2 E3]]]].
    exists (k1 + k2)%nat. rewrite E1. cbn [bind]. rewrite (Nat.add_comm k1 k2), E2. cbn [bind]. eexists _, _, item. split; [reflexivity|]. cbn [map app]. rewrite E3. reflexivity.
Qed.
Lemma first_hang : forall st l els, xruns0 st l els THang -> forall b16, length b16 = 16%nat -> forall f, scan (kr_ops outcs) cfg f (repeat mask (S (length els))) (KS st l [] b16) = Fuel.
Proof.
  intros st l els [H|[t [v [st1 [l1 [els' [-> [[k1 H1] Hr]]]]]]]] b16 H16 f.
  - apply (xruns_hang _ _ _ _ H eq_refl f [] b16 H16).
  - cbn [length]. change (repeat mask (S (S (length els')))) with (mask :: repeat mask (S (length els'))). cbn [scan].
    destruct (H1 f b16 H16) as [b1 [Hb1 E1]]. fold cfg in E1.
    destruct (mono_nextItem (kr_ops outcs) cfg f (k1 + f) mask (KS st l [] b16) ltac:(lia)) as [E|E]; rewrite E; [reflexivity|]. rewrite E1. cbn [bind].
    rewrite (xruns_hang _ _ _ _ Hr eq_refl f (prs outcs v) b1 Hb1). reflexivity.
Qed.
End T.
