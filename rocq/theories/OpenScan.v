(** Texts that end inside of a section (proofs): the scanner does not end. *)
From Verif Require Import Base Iter CharMap CodePages Charset TextScanner Ideal ReaderSim ScannerSim IterSim
  CharsetSpec CharsetProofs ReadSpec ReadProofs XmlScanner ScanSpec ScanProofs CharReader FuelMono Term DocSpec SectSpec OpenSpec DocProofs DocScan DocTop.

Section Open.
Context (outcs : kout) (m : option (list (N * N))) (addr : N) (mask : N).
Hypothesis Hmask : forall t, N.testbit mask (etype_idx t) = true.
Let cfg := kcfg outcs m addr.
Notation next := (nextItem (kr_ops outcs) cfg).
Notation hangs := (hangs outcs m addr mask).
Notation runs := (runs outcs m addr mask true).

(** a state that stays in a set of states for the rest of the text *)
Lemma hang_closed : forall (P : stm -> list N -> Prop),
  (forall st l, P st l -> exists ns, snext st (kctl (hd 0 l)) = Some (ns, true) /\ P ns (tl l)) -> forall st l, P st l -> hangs st l.
Proof.
  intros P HP st l H f. revert st l H. induction f as [|f IH]; intros st l H ob b; [reflexivity|].
  destruct (HP st l H) as [ns [E1 E2]]. rewrite nextItem_step. unfold nstep, KS at 1. cbn [sc_state].
  unfold snext in E1. destruct (stm_get st) as [e|]; [|discriminate]. destruct (el_action e); [discriminate|]. cbn [bind snd fst].
  rewrite k_control. unfold KS. cbn [bind sc_src]. unfold transition, nexts in *.
  destruct (nth_error (el_next e) (ctl_idx (kctl (hd 0 l)))) as [[ns'|]|]; try discriminate.
  - injection E1 as <-. unfold upd_tok, set_tok, set_state, tok_id. cbn [sc_state sc_err sc_src sc_obuf sc_tokpos sc_tok tk_id tk_cr tk_pos tk_base tk_value tk_buf].
    rewrite k_skip. cbn. exact (IH ns' (tl l) E2 ob b).
  - destruct (el_fallback e); discriminate.
Qed.

Lemma ctl_is : forall c d, In d [0;38;60;61;62;47;45;33;63;39;34;91;93] -> ctl_eqb (kctl c) (kctl d) = (c =? d).
Proof.
  intros c d Hd. destruct (N.eqb_spec c d) as [->|Hc]; [destruct (kctl d); reflexivity|].
  destruct (ctl_eqb (kctl c) (kctl d)) eqn:E; [|reflexivity]. apply ctl_eqb_eq in E. apply kctl_inj in E; [congruence|exact Hd].
Qed.

Lemma hang_section : forall d good (stof : nat -> stm) fin, In d [45; 93] ->
  (forall n c, snext (stof n) c = Some (if ctl_eqb c (kctl d) then stof (S n) else if ctl_eqb c CGt && good n then fin else stof 0%nat, true)) ->
  forall l n, openb d good n l = true -> hangs (stof n) l.
Proof.
  intros d good stof fin Hd T l n H. assert (Hd2 : In d [0;38;60;61;62;47;45;33;63;39;34;91;93]) by (destruct Hd as [<-|[<-|[]]]; cbn; tauto).
  apply (hang_closed (fun st l => exists n, st = stof n /\ openb d good n l = true)); [|exists n; auto].
  clear l n H. intros st l [n [-> H]]. destruct l as [|x l].
  - cbn [hd tl]. rewrite T. rewrite (ctl_is 0 d Hd2). change CGt with (kctl 62). rewrite (ctl_is 0 62) by (cbn; tauto).
    replace (0 =? d) with false by (destruct Hd as [<-|[<-|[]]]; reflexivity). cbn [N.eqb andb]. eexists. split; [reflexivity|]. exists 0%nat. auto.
  - cbn [hd tl openb] in *. rewrite T. rewrite (ctl_is x d Hd2). change CGt with (kctl 62). rewrite (ctl_is x 62) by (cbn; tauto).
    destruct (x =? d); [eexists; split; [reflexivity|]; exists (S n); auto|]. destruct ((x =? 62) && good n); [discriminate|].
    eexists. split; [reflexivity|]. exists 0%nat. auto.
Qed.

Lemma hang_until : forall d st fin, In d [63; 93] -> (forall c, snext st c = Some (if ctl_eqb c (kctl d) then fin else st, true)) ->
  forall l, ~ In d l -> hangs st l.
Proof.
  intros d st fin Hd T l H. assert (Hd2 : In d [0;38;60;61;62;47;45;33;63;39;34;91;93]) by (destruct Hd as [<-|[<-|[]]]; cbn; tauto).
  apply (hang_closed (fun st' l => st' = st /\ ~ In d l)); [|auto].
  clear l H. intros st' l [-> H]. rewrite T, (ctl_is _ d Hd2). destruct l as [|x l]; cbn [hd tl].
  - replace (0 =? d) with false by (destruct Hd as [<-|[<-|[]]]; reflexivity). eexists. split; [reflexivity|]. auto.
  - replace (x =? d) with false by (symmetry; apply N.eqb_neq; intros ->; apply H; left; reflexivity). eexists. split; [reflexivity|]. split; [reflexivity|]. intros Hi. apply H. right. exact Hi.
Qed.

Lemma run_unclosed : forall u T, unclosed_ok u -> T = XMLTAG \/ (T = STARTTAG /\ match u with UPI _ => False | _ => True end) ->
  runs T (tl (unclosed_src u)) (unclosed_elements u).
Proof.
  intros u T Hok HT.
  assert (HTT : T = XMLTAG \/ T = STARTTAG) by (destruct HT as [->|[-> _]]; auto).
  assert (Hc : forall c ns, snext XMLTAG c = Some (ns, true) -> snext STARTTAG c = Some (ns, true) -> snext T c = Some (ns, true)) by (destruct HTT as [->| ->]; auto).
  destruct u as [c|c|c|n parts ws c]; cbn [unclosed_ok unclosed_src unclosed_elements] in *.
  - apply never_closes_ok in Hok; [|discriminate]. change (str "<!--" ++ c) with (60 :: 33 :: 45 :: 45 :: c). cbn [tl].
    eapply runs_silent; [apply (sil _ _ _ _ T (33 :: 45 :: 45 :: c) CExclam ENTITYSL true); [reflexivity|apply Hc; reflexivity]|]. cbn [tl].
    eapply runs_silent; [apply (sil _ _ _ _ ENTITYSL (45 :: 45 :: c) CDash COMDASH2 true); reflexivity|]. cbn [tl].
    eapply runs_silent; [apply (sil _ _ _ _ COMDASH2 (45 :: c) CDash COMSEEKE true); reflexivity|]. cbn [tl].
    constructor. intros _. exact (hang_section 45 comment_run com_st SEEKTOK ltac:(cbn; tauto) com_next c 0%nat Hok).
  - destruct HT as [->|[_ []]]. change (str "<?" ++ c) with (60 :: 63 :: c). cbn [tl].
    eapply runs_silent; [apply (sil _ _ _ _ XMLTAG (63 :: c) CQuestm PITAG true); reflexivity|]. cbn [tl].
    constructor. intros _. apply (hang_until 63 PITAG PITAGEND); [cbn; tauto|intros []; reflexivity|exact Hok].
  - apply never_closes_ok in Hok; [|discriminate]. change (str "<![CDATA[" ++ c) with (60 :: 33 :: 91 :: str "CDATA[" ++ c). cbn [tl].
    eapply runs_silent; [apply (sil _ _ _ _ T (33 :: 91 :: str "CDATA[" ++ c) CExclam ENTITYSL true); [reflexivity|apply Hc; reflexivity]|]. cbn [tl].
    eapply runs_silent; [apply (sil _ _ _ _ ENTITYSL (91 :: str "CDATA[" ++ c) COsb CDATA true); reflexivity|]. cbn [tl].
    eapply runs_silent; [apply sil_cdata|].
    constructor. intros _. exact (hang_section 93 cdata_run cdata_st CONTENT ltac:(cbn; tauto) cdata_next c 0%nat Hok).
  - destruct Hok as [Hn [Hd [Hp [Hne [Hw Hi]]]]]. change (str "<!" ++ tok_src n ++ flat_map (fun p => fst p ++ dpart_src (snd p)) parts ++ ws ++ [91] ++ c)
      with (60 :: 33 :: tok_src n ++ flat_map (fun p => fst p ++ dpart_src (snd p)) parts ++ ws ++ 91 :: c). cbn [tl].
    rewrite <- (app_nil_r (flat_map (fun p => dpart_elements (snd p)) parts)).
    apply run_doctype; auto; [apply ws_head; [exact Hw|intros E; congruence]|].
    eapply runs_silent; [apply ws_self; [reflexivity|reflexivity|exact Hw]|].
    eapply runs_silent; [apply (sil _ _ _ _ ENTITY (91 :: c) COsb ENTITYLC true); reflexivity|]. cbn [tl].
    constructor. intros _. apply (hang_until 93 ENTITYLC ENTITY); [cbn; tauto|intros []; reflexivity|exact Hi].
Qed.

Lemma doc_unclosed : forall d u, doc_ok d -> unclosed_ok u -> unclosed_place d u ->
  runs0 outcs m addr mask true START (doc_src d ++ unclosed_src u) (doc_body d ++ unclosed_elements u).
Proof.
  intros d u Hd Hu Hp.
  assert (Hx : exists x, unclosed_src u = 60 :: x) by (destruct u; eexists; reflexivity). destruct Hx as [x Hx].
  assert (Ex : tl (unclosed_src u) = x) by (rewrite Hx; reflexivity). rewrite Hx.
  assert (C : d_header d <> None \/ d_items d <> [] -> runs0 outcs m addr mask true START (doc_src d ++ 60 :: x) (doc_body d ++ unclosed_elements u)).
  { intros Hne. apply doc_runs_rest; auto; [right; left; reflexivity|]. intros st Hst.
    eapply runs_silent; [apply (sil _ _ _ _ st (60 :: x) CLt XMLTAG true); [reflexivity|destruct (doc_seek d); cbn in Hst; [destruct Hst as [->| ->]|subst st]; reflexivity]|].
    cbn [tl]. rewrite <- Ex. apply run_unclosed; auto. }
  destruct (d_header d) as [h|] eqn:Eh; [apply C; left; congruence|]. destruct (d_items d) as [|i items] eqn:Ei; [|apply C; right; congruence].
  destruct d as [ws h items]. destruct Hd as [H1 _]. unfold doc_src, doc_body. cbn [d_ws d_header d_items] in *. subst h items.
  cbn [app items_src flat_map items_elements]. rewrite app_nil_r.
  eapply runs0_silent; [apply ws_self; [reflexivity|reflexivity|exact H1]|]. apply runs_runs0.
  eapply runs_silent; [apply (sil _ _ _ _ START (60 :: x) CLt STARTTAG true); reflexivity|]. cbn [tl].
  rewrite <- Ex. apply run_unclosed; auto. right. split; [reflexivity|]. destruct u; auto. cbn in Hp. destruct Hp; congruence.
Qed.
End Open.
