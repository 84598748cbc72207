(** C79: the pointer of a SrcIterator does not get further than one behind its memory. *)
From Verif Require Import Base Iter CharMap CodePages Charset TextScanner XmlScanner CharsetSpec CharsetProofs ReadSpec ReadProofs ScanSpec ScanProofs Ideal ReaderSim IterSim Term ScanTop ChunkRead SourceSim SourceBack MaskProofs EndsSpec Ends PropsScan PropsDoc PropsSource PropsEnds
  StrictIter StrictProofs.

Lemma strict_src : forall incs cfg f masks text, cs_constructible incs = true -> Forall isByte text -> whole incs text ->
  match scan (ts_ops srcs_ops incs) cfg f masks (sc_make (ts_make (src_make text false))) with
  | Ret _ evs => exists t, scan (ir_ops incs) cfg f masks (sc_make (mkIr text EndUndef 0)) = Ret t evs
  | Jump _ | Throw _ => False
  | Undef => scan (ir_ops incs) cfg f masks (sc_make (mkIr text EndUndef 0)) = Undef
  | Fuel => scan (ir_ops incs) cfg f masks (sc_make (mkIr text EndUndef 0)) = Fuel
  end.
Proof.
  intros incs cfg f masks text Hcs Hb Hw. apply (strict_scan srcs_ops srcs_rel srcs_strict); auto.
  split; [reflexivity|]. split; [reflexivity|]. split; [reflexivity|]. split; [|cbn; lia].
  cbn [spos]. unfold src_position. cbn [src_make si_abs si_buf si_itr]. unfold u64, sub64, u64. lia.
Qed.
Lemma strict_cptr : forall incs cfg f masks text, cs_constructible incs = true -> Forall isByte text -> whole incs text ->
  match scan (ts_ops cptrs_ops incs) cfg f masks (sc_make (ts_make (mkCptr text 0))) with
  | Ret _ evs => exists t, scan (ir_ops incs) cfg f masks (sc_make (mkIr text EndUndef 0)) = Ret t evs
  | Jump _ | Throw _ => False
  | Undef => scan (ir_ops incs) cfg f masks (sc_make (mkIr text EndUndef 0)) = Undef
  | Fuel => scan (ir_ops incs) cfg f masks (sc_make (mkIr text EndUndef 0)) = Fuel
  end.
Proof.
  intros incs cfg f masks text Hcs Hb Hw. apply (strict_scan cptrs_ops cptrs_rel cptrs_strict); auto.
  split; [|cbn; lia]. split; [reflexivity|]. split; reflexivity.
Qed.
Lemma whole_app_term : forall cs l, cs_constructible cs = true -> whole cs l -> whole cs (l ++ term cs).
Proof.
  intros cs l Hcs H. induction H as [|l Hl Hw IH].
  - cbn [app]. pose proof (dec_term cs Hcs) as [E _]. apply whole_char; rewrite E; unfold term; rewrite ?repeat_length; [lia|].
    rewrite skipn_all2 by (rewrite repeat_length; lia). constructor.
  - pose proof (clen_app cs l (term cs) Hl) as E. apply whole_char; rewrite E; [rewrite app_length; lia|].
    rewrite skipn_app. replace (clen cs l - length l)%nat with 0%nat by lia. exact IH.
Qed.

(** ** C79. The pointer is moved behind the end wherever a pointer without a known end is read there: for the SrcIterator the known end does not help.
    The memory of both ends with the text. *)
Definition same_outcome {S T} (x : out S (list event)) (y : out T (list event)) : Prop :=
  match x, y with
  | Ret _ evs1, Ret _ evs2 => evs1 = evs2
  | Fuel, Fuel | Undef, Undef => True
  | _, _ => False
  end.
Theorem C79_pointer : forall incs outcs entitymap addr fuel masks text, cs_constructible incs = true -> Forall isByte text -> whole_text incs text ->
  let cfg := xml_config incs outcs entitymap addr in
  same_outcome (scan (ts_ops srcs_ops incs) cfg fuel masks (sc_make (ts_make (src_make text false))))
    (scan (ts_ops cptrs_ops incs) cfg fuel masks (sc_make (ts_make (mkCptr text 0)))).
Proof.
  intros incs outcs m addr fuel masks text Hcs Hb Hw cfg. apply (whole_text_whole _ _ Hb) in Hw.
  pose proof (strict_src incs cfg fuel masks text Hcs Hb Hw) as H1. pose proof (strict_cptr incs cfg fuel masks text Hcs Hb Hw) as H2.
  destruct (scan (ts_ops srcs_ops incs) cfg fuel masks (sc_make (ts_make (src_make text false)))) as [s1 evs1| | | |]; try contradiction;
    destruct (scan (ts_ops cptrs_ops incs) cfg fuel masks (sc_make (ts_make (mkCptr text 0)))) as [s2 evs2| | | |]; try contradiction; cbn [same_outcome]; try exact I;
    repeat match goal with H : exists _, _ |- _ => destruct H as [? H] end; rewrite H1 in H2; try discriminate H2. injection H2 as _ ->. reflexivity.
Qed.
Print Assumptions C79_pointer.

(** What is delivered without such an increment is what is delivered anyway, and the end of the document is not part of it. *)
Theorem C79_refuted_always : forall incs outcs entitymap addr fuel masks cl, cs_constructible incs = true -> Forall (representable incs) cl -> ~ In 0 cl ->
  (3 * length (flat_map (cs_print incs) cl) + 3 < fuel)%nat ->
  let cfg := xml_config incs outcs entitymap addr in
  let text := flat_map (cs_print incs) cl in
  match scan (ts_ops srcs_ops incs) cfg fuel masks (sc_make (ts_make (src_make text false))) with
  | Ret _ evs => ~ In EExit (map ev_type evs) /\
      exists s' evs', scan (ts_ops src_ops incs) cfg fuel masks (sc_make (ts_make (src_make text false))) = Ret s' evs' /\ map element evs = map element evs'
  | Undef => True
  | _ => False
  end.
Proof.
  intros incs outcs m addr fuel masks cl Hcs Hr Hn Hf cfg text. pose proof (print_bytes incs cl Hcs Hr) as Hb. fold text in Hb.
  pose proof (strict_src incs cfg fuel masks text Hcs Hb (whole_print incs cl Hcs Hr)) as H.
  pose proof (undef_ends incs Hcs cfg (length text) fuel Hf masks (sc_make (mkIr text EndUndef 0)) eq_refl (Nat.le_refl _)) as He.
  destruct (scan (ts_ops srcs_ops incs) cfg fuel masks (sc_make (ts_make (src_make text false)))) as [s evs| | | |]; try contradiction; [|exact I].
  destruct H as [t E]. split; [eapply nonull_noexit; eauto|]. eapply undef_back; eauto.
Qed.
Print Assumptions C79_refuted_always.
(** Hence a document that is scanned to its end moves the pointer behind it. *)
Corollary C79_exit_refuted : forall incs outcs fuel masks cl s evs, cs_constructible incs = true -> Forall (representable incs) cl -> ~ In 0 cl ->
  (3 * length (flat_map (cs_print incs) cl) + 3 < fuel)%nat ->
  xml_scan incs outcs fuel masks (flat_map (cs_print incs) cl) = Ret s evs -> In EExit (map ev_type evs) ->
  scan (ts_ops srcs_ops incs) (xml_config incs outcs None 0) fuel masks (sc_make (ts_make (src_make (flat_map (cs_print incs) cl) false))) = Undef.
Proof.
  intros incs outcs fuel masks cl s evs Hcs Hr Hn Hf E Hx. pose proof (C79_refuted_always incs outcs None 0 fuel masks cl Hcs Hr Hn Hf) as H. cbn zeta in H.
  destruct (scan (ts_ops srcs_ops incs) (xml_config incs outcs None 0) fuel masks (sc_make (ts_make (src_make (flat_map (cs_print incs) cl) false)))) as [s1 evs1| | | |]; try contradiction; [|reflexivity].
  exfalso. destruct H as [H1 [s2 [evs2 [E2 H2]]]]. unfold xml_scan in E. rewrite E2 in E. injection E as _ <-. apply H1.
  assert (Ht : forall l, map ev_type l = map (fun x => fst (fst x)) (map element l)) by (intros l; rewrite map_map; reflexivity).
  rewrite Ht, H2, <- Ht. exact Hx.
Qed.
Print Assumptions C79_exit_refuted.

(** A null character at the end of the chunk, counted with its size, is sufficient: nothing behind it is reached, and the same is delivered. *)
Theorem C79_terminated_partial : forall incs outcs entitymap addr fuel masks text s evs, cs_constructible incs = true -> Forall isByte text -> whole_text incs text ->
  let cfg := xml_config incs outcs entitymap addr in
  scan (ts_ops src_ops incs) cfg fuel masks (sc_make (ts_make (src_make text false))) = Ret s evs ->
  exists s' evs', scan (ts_ops srcs_ops incs) cfg fuel masks (sc_make (ts_make (src_make (text ++ repeat 0 (null_size incs)) false))) = Ret s' evs' /\ map element evs' = map element evs.
Proof.
  intros incs outcs m addr fuel masks text s evs Hcs Hb Hw cfg E. apply (whole_text_whole _ _ Hb) in Hw.
  replace (repeat 0 (null_size incs)) with (term incs) by (destruct incs as [|[]|[]|[]|p]; reflexivity).
  assert (Hb2 : Forall isByte (text ++ term incs)) by (apply Forall_app; split; [exact Hb|apply term_bytes]).
  destruct (cptr_scan incs outcs m addr Hcs fuel masks text s evs Hb Hw E) as [s2 [evs2 [E2 H2]]].
  pose proof (cptr_sim incs outcs m addr Hcs fuel masks text Hb) as H. fold cfg in E2, H. rewrite E2 in H. destruct H as [t H].
  pose proof (strict_src incs cfg fuel masks _ Hcs Hb2 (whole_app_term _ _ Hcs Hw)) as G.
  destruct (scan (ts_ops srcs_ops incs) cfg fuel masks (sc_make (ts_make (src_make (text ++ term incs) false)))) as [s3 evs3| | | |]; try contradiction; try (rewrite G in H; discriminate H).
  destruct G as [t3 G]. rewrite G in H. injection H as _ ->. eauto.
Qed.
Print Assumptions C79_terminated_partial.

Definition C79_cl : list N := str "<a b='1'>x" ++ [0xE4] ++ str "</a>".
Example C79_case : Forall (representable UTF8) C79_cl /\ ~ In 0 C79_cl /\
  (exists s evs, xml_scan UTF8 UTF8 100 (calls 6) (flat_map (cs_print UTF8) C79_cl) = Ret s evs /\ In EExit (map ev_type evs)) /\
  scan (ts_ops srcs_ops UTF8) (xml_config UTF8 UTF8 None 0) 100 (calls 6) (sc_make (ts_make (src_make (flat_map (cs_print UTF8) C79_cl) false))) = Undef /\
  (exists s evs, scan (ts_ops srcs_ops UTF8) (xml_config UTF8 UTF8 None 0) 100 (calls 5) (sc_make (ts_make (src_make (flat_map (cs_print UTF8) C79_cl) false))) = Ret s evs) /\
  exists s evs, scan (ts_ops srcs_ops UTF8) (xml_config UTF8 UTF8 None 0) 100 (calls 6) (sc_make (ts_make (src_make (flat_map (cs_print UTF8) C79_cl ++ [0]) false))) = Ret s evs /\
    elements evs = [(EOpenTag, str "a"); (ETagAttribName, str "b"); (ETagAttribValue, str "1"); (EContent, str "x" ++ [0xC3; 0xA4]); (ECloseTag, str "a"); (EExit, [])].
Proof.
  split; [apply repr_dec; vm_compute; reflexivity|]. split; [vm_compute; intuition discriminate|].
  split; [eexists; eexists; split; [vm_compute; reflexivity|vm_compute; tauto]|]. split; [vm_compute; reflexivity|].
  split; [eexists; eexists; vm_compute; reflexivity|]. eexists. eexists. split; vm_compute; reflexivity.
Qed.

(** A chunk that is not the last one: the pointer is moved behind it if a character that nobody looks at is cut. *)
Theorem C79_chunk_refuted : exists chunk, Forall isByte chunk /\
  (exists s, scan (ts_ops src_ops UTF8) (xml_config UTF8 UTF8 None 0) 100 (calls 1) (sc_make (ts_make (src_make chunk true))) = Jump s) /\
  scan (ts_ops srcs_ops UTF8) (xml_config UTF8 UTF8 None 0) 100 (calls 1) (sc_make (ts_make (src_make chunk true))) = Undef.
Proof. exists (str "<!-- " ++ [0xE2; 0x82]). split; [repeat constructor|]. split; [eexists; vm_compute; reflexivity|vm_compute; reflexivity]. Qed.
Print Assumptions C79_chunk_refuted.
