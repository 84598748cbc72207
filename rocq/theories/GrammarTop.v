(** The grammar of element sequences for texts supplied in chunks (proofs). *)
From Verif Require Import Base Iter CharMap CodePages Charset TextScanner Ideal ReaderSim ScannerSim IterSim
  CharsetSpec CharsetProofs CharsetMore ReadSpec ReadProofs ChunkRead XmlScanner ScanSpec ScanProofs Safety FuelMono ChunkScan ChunkTop Term
  GrammarSpec Grammar ScanTop.

Lemma ir_no_jump : forall cs r r1 c r2, r_control (ir_ops cs) r = Ret r1 c -> r_skip (ir_ops cs) r1 = Jump r2 -> False.
Proof.
  intros cs r r1 c r2 H1 H2. cbn [ir_ops r_control r_skip] in *. unfold need in *.
  destruct (Nat.leb (alen cs (ir_l r)) (length (ir_l r))) eqn:E.
  - injection H1 as <- _. rewrite E in H2. discriminate.
  - destruct (ir_m r) eqn:Em; try discriminate. injection H1 as <- _. rewrite E, Em in H2. discriminate.
Qed.

Section GJump.
Context (cs : charset) (cfg : config).
Notation iops := (ir_ops cs).

Lemma nstep_jump_state : forall f mask s s', nstep iops cfg f mask s = Jump s' -> sc_state s' = sc_state s.
Proof.
  intros f mask s s' H. unfold nstep in H. destruct (stm_get (sc_state s)) as [e|] eqn:He; [|discriminate].
  destruct (match el_action e with None => _ | Some _ => _ end) as [s1 r|s1| | |] eqn:Ea; cbn [bind] in H; try discriminate.
  - assert (Hst : snd r = false -> sc_state s1 = sc_state s).
    { destruct (el_action e) as [[a arg]|]; [|injection Ea as <- <-; reflexivity].
      pose proof (stk_doAction iops cfg f mask a arg (sc_state s) s eq_refl) as Hk.
      destruct (doAction iops cfg f mask a arg s) as [s2 res| | | |]; cbn [bind] in Ea; try discriminate. cbn [stk] in Hk.
      destruct res as [rt|]; [|injection Ea as <- <-; discriminate].
      destruct (Nat.eqb (el_nofnext e) 0); injection Ea as <- <-; [discriminate|auto]. }
    destruct (snd r); [discriminate|]. specialize (Hst eq_refl).
    destruct (sc_control iops s1) as [s2 c|s2| | |] eqn:Ec; cbn [bind] in H; try discriminate.
    + unfold transition in H. destruct (nth_error (el_next e) (ctl_idx c)) as [[ns|]|]; [| |discriminate].
      * exfalso. unfold sc_skip, on_src in H. unfold sc_control, on_src in Ec.
        destruct (r_control iops (sc_src s1)) as [r1 c1| | | |] eqn:Er; cbn [omap] in Ec; try discriminate. injection Ec as <- <-.
        cbn [sc_src set_state upd_tok set_tok set_src] in H.
        destruct (r_skip iops r1) as [r2 u|r2| | |] eqn:Es; cbn [omap bind] in H; try discriminate.
        -- destruct (isNone (fst r)); discriminate.
        -- eapply ir_no_jump; eauto.
      * destruct (el_fallback e); cbn [bind] in H; [destruct (isNone (fst r)); discriminate|].
        destruct (el_miss e); discriminate.
    + injection H as <-. pose proof (stk_src (sc_state s) (r_control iops) s1 Hst) as Hk. fold (sc_control iops s1) in Hk. rewrite Ec in Hk. exact Hk.
  - injection H as <-. destruct (el_action e) as [[a arg]|]; [|discriminate].
    pose proof (stk_doAction iops cfg f mask a arg (sc_state s) s eq_refl) as Hk.
    destruct (doAction iops cfg f mask a arg s) as [s2 res| | | |]; cbn [bind] in Ea; try discriminate.
    + destruct res; [destruct (Nat.eqb (el_nofnext e) 0)|]; discriminate.
    + injection Ea as <-. exact Hk.
Qed.

Lemma grammar_jump : forall mask f s s' g, In (g, sc_state s) gpairs -> nextItem iops cfg f mask s = Jump s' -> In (g, sc_state s') gpairs.
Proof.
  intros mask. induction f as [|f IH]; intros s s' g Hg H; [discriminate H|]. rewrite nextItem_step in H.
  destruct (nstep iops cfg f mask s) as [s3 o|s3| | |] eqn:E; cbn [bind] in H; try discriminate.
  - destruct o as [t|]; [discriminate|]. destruct (nstep_state _ _ _ _ _ _ _ E) as [e [He [Hin Hn]]].
    pose proof (gpairs_step _ _ _ Hg He) as Hs. rewrite Hn in Hs. eapply IH; [apply Hs; exact Hin|exact H].
  - injection H as <-. rewrite (nstep_jump_state _ _ _ _ E). exact Hg.
Qed.
End GJump.

Section GChunks.
Context (cs : charset) (cfg : config) (put : bool).
Hypothesis Hcs : cs_constructible cs = true.
Notation cops := (ts_ops src_ops cs).

Lemma grammar_next_chunk : forall chunks mask f s si A g s' chunks' t, Forall (Forall isByte) chunks ->
  srel eq (srA A cs) s si -> SE (irM (emode_of (more chunks))) mask si -> In (g, sc_state si) gpairs ->
  resume (sc_feed (feed_of put)) (nextItem cops cfg f mask) chunks s = Ret (s', chunks') t ->
  Forall (Forall isByte) chunks' /\
  exists si' A', srel eq (srA A' cs) s' si' /\ SZ (irM (emode_of (more chunks'))) si' /\
   ((t = EErrorOccurred /\ In (g, sc_state si') gpairs) \/
    (exists g', gstep false g t = Some g' /\ t <> EErrorOccurred /\ In (g', sc_state si') gpairs)).
Proof.
  induction chunks as [|c chunks IH]; intros mask f s si A g s' chunks' t Hb Hs Hi Hg H.
  - pose proof (sim_nextItem _ _ cfg _ _ _ _ (srA_rsim A cs Hcs) f mask s si Hs) as Hsim.
    pose proof (ir_safe_mode cs cfg _ f mask si (emode_ok _) Hi) as Hsafe. cbn [resume] in H.
    destruct (nextItem (ir_ops cs) cfg f mask si) as [t1 a| | | |] eqn:E;
      inversion Hsim as [s1 ? ? Hr E1 E2| | | |]; subst; rewrite <- ?E1, <- ?H0, <- ?H1 in H; try discriminate.
    injection H as <- <- <-. split; [constructor|]. exists t1, A. split; auto. split; auto. eapply grammar_next; eauto.
  - inversion Hb as [|? ? Hc Hb2]; subst.
    pose proof (sim_nextItem _ _ cfg _ _ _ _ (srA_rsim A cs Hcs) f mask s si Hs) as Hsim.
    pose proof (ir_safe_mode cs cfg _ f mask si (emode_ok _) Hi) as Hsafe. cbn [resume] in H.
    destruct (nextItem (ir_ops cs) cfg f mask si) as [t1 a|t1| | |] eqn:E; cbn [safe] in Hsafe; try contradiction.
    + inversion Hsim as [s1 ? ? Hr E1 E2| | | |]; subst. rewrite <- E1 in H. injection H as <- <- <-.
      split; [assumption|]. exists t1, A. split; auto. split; auto. eapply grammar_next; eauto.
    + pose proof (grammar_jump cs cfg mask f si t1 g Hg E) as Hgj.
      inversion Hsim as [|s1 ? Hr E1 E2| | |]; subst. rewrite <- E1 in H.
      destruct Hr as [st er r t0 ob tp tp' tk Hr Htp]. destruct Hsafe as [[[Hm Hbuf] Hpos] Hz]. unfold irM in Hm. destruct t0 as [a m p]. cbn in Hm. subst m.
      destruct (feed_resume put A cs r a p c (more chunks) Hc Hr) as [p2 [A2 [G1 _]]].
      eapply (IH mask f _ (mkSc st er (mkIr (a ++ c) (emode_of (more chunks)) p2) ob tp' tk) A2 g _ _ _ Hb2); [| |exact Hgj|exact H].
      * unfold sc_feed, sc_setSource, set_src. cbn [sc_src sc_state sc_err sc_obuf sc_tokpos sc_tok]. constructor; auto.
      * split; [split; [split; [reflexivity|exact Hbuf]|exact Hpos]|exact Hz].
    + inversion Hsim as [| | | |E1 E2]; subst. rewrite <- E1 in H. discriminate.
Qed.

Lemma grammar_scan_chunked : forall f masks s chunks si A g st evs, Forall (Forall isByte) chunks ->
  srel eq (srA A cs) s si -> SZ (irM (emode_of (more chunks))) si -> In (g, sc_state si) gpairs ->
  scanChunked cs cfg (feed_of put) f masks (s, chunks) = Ret st evs -> gaccept false g (map ev_type evs) = true.
Proof.
  intros f. induction masks as [|m masks IH]; intros s chunks si A g st evs Hb Hs Hi Hg H; cbn [scanChunked] in H.
  - injection H as <- <-. reflexivity.
  - cbn [fst snd] in H. destruct (resume _ _ chunks s) as [[s1 ch1] t| | | |] eqn:E; cbn [bind] in H; try discriminate.
    destruct (grammar_next_chunk _ _ _ _ _ _ _ _ _ _ Hb Hs (SZ_SE _ m _ Hi) Hg E) as [Hb1 [si1 [A1 [Hs1 [Hi1 Hg1]]]]].
    destruct (scanChunked _ _ _ f masks (s1, ch1)) as [st2 evs2| | | |] eqn:E2; cbn [bind] in H; try discriminate. injection H as <- <-.
    cbn [map observe ev_type]. destruct Hg1 as [[-> Hg1]|[g' [Hgs [Hne Hg1]]]].
    + cbn [gaccept]. eapply IH; eauto.
    + assert (Ha : gaccept false g (t :: map ev_type evs2) = gaccept false g' (map ev_type evs2)).
      { cbn [gaccept]. rewrite Hgs. destruct t; try reflexivity. congruence. }
      rewrite Ha. eapply IH; eauto.
Qed.
End GChunks.

Theorem grammar_chunks : forall incs outcs m addr put f masks c0 chunks st evs, cs_constructible incs = true ->
  Forall isByte (concat (c0 :: chunks)) ->
  scanChunked incs (xml_config incs outcs m addr) (feed_of put) f masks (sc_make (ts_make (src_make c0 (more chunks))), chunks) = Ret st evs ->
  gaccept false GStart (map ev_type evs) = true.
Proof.
  intros incs outcs m addr put f masks c0 chunks st evs Hcs Hb H. apply bytes_concat in Hb. inversion Hb; subst.
  eapply (grammar_scan_chunked incs _ put Hcs) with (A := N.of_nat (length c0)) (si := sc_make (mkIr c0 (emode_of (more chunks)) 0)); [| | | |exact H]; auto.
  - constructor; auto. apply src_make_relA. assumption.
  - split; [split; [split; [reflexivity|reflexivity]|cbn; lia]|reflexivity].
  - left. reflexivity.
Qed.
