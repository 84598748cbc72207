(** Theorems on ideal readers carried over to texts in memory and to texts supplied in chunks (proofs). *)
From Verif Require Import Base Iter CharMap CodePages Charset TextScanner Ideal ReaderSim ScannerSim IterSim
  CharsetSpec CharsetProofs CharsetMore ReadSpec ReadProofs ChunkRead XmlScanner ScanSpec ScanProofs Safety FuelMono ChunkScan ChunkTop Term.

(** ** No undefined behaviour, text in chunks *)
Definition irM (m : endmode) (r : ird) : Prop := ir_m r = m.

Lemma ir_safe_mode : forall cs cfg m f mask s, m <> EndUndef -> SE (irM m) mask s ->
  safe (fun s' _ => SZ (irM m) s') (SE (irM m) mask) (nextItem (ir_ops cs) cfg f mask s).
Proof.
  intros cs cfg m f mask s Hm H.
  assert (Hn : forall A (Q : A -> Prop) n r (a : A), irM m r -> Q a -> safe (fun r' a => irM m r' /\ Q a) (irM m) (need n r a)).
  { intros A Q n r a Hr Ha. unfold need. destruct (Nat.leb n (length (ir_l r))); [split; auto|].
    unfold irM in Hr. destruct (ir_m r) eqn:E; cbn [safe]; [split; [unfold irM; congruence|exact Ha]|unfold irM; congruence|congruence]. }
  apply (safe_nextItem _ _ (irM m)) with (Ip := fun r => (alen cs (ir_l r) <= length (ir_l r))%nat \/ ir_m r = EndZero); auto; cbn [ir_ops r_control r_ascii r_chr r_raw r_skip].
  - intros r Hr. eapply safe_weaken; [apply (Hn _ (fun _ => True)); auto| |]; cbn; tauto.
  - intros r Hr. assert (Hc : asc_of (casc cs (ir_l r)) < 128).
    { unfold asc_of. destruct (N.ltb_spec (casc cs (ir_l r)) 128); lia. }
    unfold need. destruct (Nat.leb_spec (alen cs (ir_l r)) (length (ir_l r))); cbn [safe]; auto.
    unfold irM in *. destruct (ir_m r) eqn:E; cbn [safe]; auto; try congruence. repeat split; auto; congruence.
  - intros r Hr Hp. unfold need. destruct (Nat.leb_spec (alen cs (ir_l r)) (length (ir_l r))); cbn [safe bind]; [exact Hr|].
    destruct Hp as [Hp|Hp]; [lia|]. rewrite Hp. exact Hr.
  - intros r Hr. eapply safe_weaken; [apply (Hn _ (fun _ => True)); auto| |]; cbn; tauto.
  - intros r Hr. eapply safe_weaken; [apply (Hn _ (fun _ => True)); auto| |]; cbn; tauto.
  - intros r Hr. eapply safe_bind; [apply (Hn _ (fun _ => True)); auto|]. intros r1 u [H1 _]. exact H1.
Qed.

Definition clean {S A} (x : out S A) : Prop := match x with Ret _ _ | Fuel => True | _ => False end.

Section SafeChunks.
Context (cs : charset) (cfg : config) (put : bool).
Hypothesis Hcs : cs_constructible cs = true.
Notation cops := (ts_ops src_ops cs).

Lemma emode_ok : forall b, emode_of b <> EndUndef.
Proof. intros []; discriminate. Qed.

Lemma safe_next_chunk : forall chunks mask f s si A, Forall (Forall isByte) chunks ->
  srel eq (srA A cs) s si -> SE (irM (emode_of (more chunks))) mask si ->
  match resume (sc_feed (feed_of put)) (nextItem cops cfg f mask) chunks s with
  | Ret (s', chunks') _ => Forall (Forall isByte) chunks' /\
      exists si' A', srel eq (srA A' cs) s' si' /\ SZ (irM (emode_of (more chunks'))) si'
  | Fuel => True
  | _ => False
  end.
Proof.
  induction chunks as [|c chunks IH]; intros mask f s si A Hb Hs Hi.
  - pose proof (sim_nextItem _ _ cfg _ _ _ _ (srA_rsim A cs Hcs) f mask s si Hs) as Hsim.
    pose proof (ir_safe_mode cs cfg _ f mask si (emode_ok _) Hi) as Hsafe. cbn [resume].
    destruct Hsim as [s1 t1 a Hr|s1 t1 Hr|s1 t1 Hr| |]; cbn [safe] in Hsafe; try contradiction; auto.
    + split; [constructor|]. exists t1, A. auto.
    + destruct Hr as [? ? r t0 ? ? ? ? [ts [_ [_ [Hm _]]]]]. destruct Hsafe as [[[Hm2 _] _] _]. unfold irM in Hm2. cbn in Hm, Hm2. congruence.
  - inversion Hb as [|? ? Hc Hb2]; subst.
    pose proof (sim_nextItem _ _ cfg _ _ _ _ (srA_rsim A cs Hcs) f mask s si Hs) as Hsim.
    pose proof (ir_safe_mode cs cfg _ f mask si (emode_ok _) Hi) as Hsafe. cbn [resume].
    destruct Hsim as [s1 t1 a Hr|s1 t1 Hr|s1 t1 Hr| |]; cbn [safe] in Hsafe; try contradiction; auto.
    + split; [assumption|]. exists t1, A. auto.
    + destruct Hr as [st er r t0 ob tp tp' tk Hr Htp]. destruct Hsafe as [[[Hm Hbuf] Hpos] Hz]. unfold irM in Hm. destruct t0 as [a m p]. cbn in Hm. subst m.
      destruct (feed_resume put A cs r a p c (more chunks) Hc Hr) as [p2 [A2 [G1 _]]].
      eapply (IH mask f _ (mkSc st er (mkIr (a ++ c) (emode_of (more chunks)) p2) ob tp' tk) A2 Hb2).
      * unfold sc_feed, sc_setSource, set_src. cbn [sc_src sc_state sc_err sc_obuf sc_tokpos sc_tok]. constructor; auto.
      * split; [split; [split; [reflexivity|exact Hbuf]|exact Hpos]|exact Hz].
Qed.

Lemma safe_scan_chunked : forall f masks s chunks si A, Forall (Forall isByte) chunks ->
  srel eq (srA A cs) s si -> SZ (irM (emode_of (more chunks))) si ->
  clean (scanChunked cs cfg (feed_of put) f masks (s, chunks)).
Proof.
  intros f. induction masks as [|m masks IH]; intros s chunks si A Hb Hs Hi; cbn [scanChunked]; [exact I|]. cbn [fst snd].
  pose proof (safe_next_chunk chunks m f s si A Hb Hs (SZ_SE _ m _ Hi)) as H.
  destruct (resume _ _ chunks s) as [[s1 ch1] t| | | |]; cbn [bind]; try contradiction; [|exact I].
  destruct H as [Hb1 [si1 [A1 [Hs1 Hi1]]]]. specialize (IH s1 ch1 si1 A1 Hb1 Hs1 Hi1).
  destruct (scanChunked _ _ _ f masks (s1, ch1)); cbn [bind clean] in *; auto.
Qed.
End SafeChunks.

Lemma bytes_concat : forall l, Forall isByte (concat l) -> Forall (Forall isByte) l.
Proof. induction l as [|c l IH]; intros H; constructor; cbn [concat] in H; apply Forall_app in H; [apply H|apply IH; apply H]. Qed.

Theorem chunked_safe : forall incs outcs m addr put f masks c0 chunks, cs_constructible incs = true ->
  Forall isByte (concat (c0 :: chunks)) ->
  clean (scanChunked incs (xml_config incs outcs m addr) (feed_of put) f masks (sc_make (ts_make (src_make c0 (more chunks))), chunks)).
Proof.
  intros incs outcs m addr put f masks c0 chunks Hcs Hb. apply bytes_concat in Hb. inversion Hb; subst.
  eapply (safe_scan_chunked incs _ put Hcs) with (A := N.of_nat (length c0)) (si := sc_make (mkIr c0 (emode_of (more chunks)) 0)); auto.
  - constructor; auto. apply src_make_relA. assumption.
  - split; [split; [split; [reflexivity|reflexivity]|cbn; lia]|reflexivity].
Qed.

Lemma scanChunked_nil : forall cs cfg feed f masks (s : scanner (tscan srcit)),
  scanChunked cs cfg feed f masks (s, []) = omap (fun s => (s, [])) (scan (ts_ops src_ops cs) cfg f masks s).
Proof.
  intros cs cfg feed f. induction masks as [|m masks IH]; intros s; cbn [scanChunked scan fst snd]; [reflexivity|]. cbn [resume].
  destruct (nextItem (ts_ops src_ops cs) cfg f m s) as [s1 t| | | |]; cbn [bind omap fst]; try reflexivity. rewrite IH.
  destruct (scan (ts_ops src_ops cs) cfg f masks s1); cbn [bind omap]; reflexivity.
Qed.
Lemma xml_scan_clean : forall incs outcs f masks text, cs_constructible incs = true -> Forall isByte text -> clean (xml_scan incs outcs f masks text).
Proof.
  intros incs outcs f masks text Hcs Hb. pose proof (chunked_safe incs outcs None 0 false f masks text [] Hcs) as H. cbn [concat] in H. rewrite app_nil_r in H. specialize (H Hb).
  cbn [more] in H. rewrite scanChunked_nil in H. unfold xml_scan. destruct (scan _ _ _ _ _); cbn [omap clean] in *; auto.
Qed.

(** ** Termination *)
Theorem xml_scan_bound : forall incs outcs masks text, cs_constructible incs = true -> Forall isByte text ->
  xml_scan incs outcs (3 * length text + 4) masks text = Fuel -> forall f, xml_scan incs outcs f masks text = Fuel.
Proof.
  intros incs outcs masks text Hcs Hb H f.
  assert (Hini : srel eq (srcr incs) (sc_make (ts_make (src_make text false))) (sc_make (mkIr text EndZero 0))).
  { constructor; auto. apply (src_make_rel incs _ false Hb). }
  pose proof (fun f => sim_scan _ _ _ _ eq _ _ (sim_nextItem _ _ (xml_config incs outcs None 0) _ _ _ _ (src_rsim incs Hcs))
     (rs_pos _ _ _ _ _ _ (src_rsim incs Hcs)) f masks _ _ Hini) as Hsim.
  pose proof (Hsim (3 * length text + 4)%nat) as H1. unfold xml_scan in H. rewrite H in H1. inversion H1 as [| | | |E1 E2].
  symmetry in E2. pose proof (Hsim f) as H2.
  rewrite (ir_t_scan incs _ Hcs masks (3 * length text + 4)%nat (sc_make (mkIr text EndZero 0)) ltac:(unfold irem; cbn [sc_make sc_src ir_l]; lia) E2 f) in H2.
  inversion H2. unfold xml_scan. congruence.
Qed.

(** a call on a part of the text, wherever it starts, ends with an element or an interrupt *)
Theorem xml_chunk_ends : forall incs outcs masks c, cs_constructible incs = true -> Forall isByte c ->
  forall f, (3 * length c + 3 < f)%nat ->
  scan (ts_ops src_ops incs) (xml_config incs outcs None 0) f masks (sc_make (ts_make (src_make c true))) <> Fuel.
Proof.
  intros incs outcs masks c Hcs Hb f Hf H.
  assert (Hini : srel eq (srcr incs) (sc_make (ts_make (src_make c true))) (sc_make (mkIr c EndJump 0))).
  { constructor; auto. apply (src_make_rel incs _ true Hb). }
  pose proof (sim_scan _ _ _ _ eq _ _ (sim_nextItem _ _ (xml_config incs outcs None 0) _ _ _ _ (src_rsim incs Hcs))
     (rs_pos _ _ _ _ _ _ (src_rsim incs Hcs)) f masks _ _ Hini) as H1. rewrite H in H1. inversion H1 as [| | | |E1 E2]. symmetry in E2.
  assert (Hall : forall masks s, ir_m (sc_src s) = EndJump -> (irem (sc_src s) <= length c)%nat ->
     scan (ir_ops incs) (xml_config incs outcs None 0) f masks s <> Fuel).
  { clear - Hcs Hf. induction masks as [|m masks IH]; intros s Hm Hl; cbn [scan]; [discriminate|].
    pose proof (rank_le (sc_state s)).
    pose proof (ir_jump_nextItem incs (xml_config incs outcs None 0) Hcs m f s Hm) as Ht.
    assert (Hlt : (3 * irem (sc_src s) + rank (sc_state s) + 1 < f)%nat) by lia. specialize (Ht Hlt).
    destruct (nextItem _ _ f m s) as [s1 t| | | |]; cbn [bind tm] in *; try discriminate; [|contradiction].
    destruct Ht as [Hm1 Hl1]. specialize (IH s1 Hm1 ltac:(lia)).
    destruct (scan _ _ f masks s1); cbn [bind]; congruence. }
  eapply Hall; [| |exact E2]; cbn; auto.
Qed.

(** ** Other iterators *)
Lemma sim_clean : forall {R} (rops : readerops R) prel rel relp relj cs cfg,
  rsim prel rops (ir_ops cs) rel relp relj -> (forall r t, relj r t -> ir_m t = EndJump) ->
  forall f masks s t, srel prel rel s t -> SZ (irM EndZero) t -> clean (scan rops cfg f masks s).
Proof.
  intros R rops prel rel relp relj cs cfg Hsim Hj f. induction masks as [|m masks IH]; intros s t Hs Ht; cbn [scan]; [exact I|].
  pose proof (sim_nextItem _ _ cfg _ _ _ _ Hsim f m s t Hs) as H.
  pose proof (ir_safe_mode cs cfg EndZero f m t ltac:(discriminate) (SZ_SE _ m _ Ht)) as Hsafe.
  destruct H as [s1 t1 a Hr|s1 t1 Hr|s1 t1 Hr| |]; cbn [safe bind] in *; try contradiction; auto.
  - specialize (IH s1 t1 Hr Hsafe). destruct (scan rops cfg f masks s1); cbn [bind clean] in *; auto.
  - destruct Hr as [st er r t0 ob tp tp' tk Hr Htp]. apply Hj in Hr. destruct Hsafe as [[[Hm _] _] _]. unfold irM in Hm. cbn in Hm. congruence.
Qed.

Theorem istream_safe : forall incs outcs m addr f masks reads bufsize i, cs_constructible incs = true ->
  Forall (goodread bufsize) reads -> Forall isByte (flat_map rd_data reads) -> istrm_make reads bufsize = Ret i tt ->
  clean (scan (ts_ops istrm_ops incs) (xml_config incs outcs m addr) f masks (sc_make (ts_make i))).
Proof.
  intros incs outcs m addr f masks reads bufsize i Hcs Hg Hb Hi.
  destruct (istrm_make_rel incs reads bufsize Hg Hb) as [i2 [Ei Hr]]. rewrite Hi in Ei. injection Ei as <-.
  eapply (sim_clean _ _ _ _ _ _ _ (istrm_rsim incs Hcs)) with (t := sc_make (mkIr (flat_map rd_data reads) EndZero 0)).
  - intros r t [ts [_ [_ [Hm _]]]]. exact Hm.
  - constructor; auto.
  - split; [split; [split; [reflexivity|reflexivity]|cbn; lia]|reflexivity].
Qed.
