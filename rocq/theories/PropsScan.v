(** Properties of the XML scanner as a whole: C13-C19. *)
From Verif Require Import Base Iter CharMap CodePages Charset TextScanner Ideal ReaderSim ScannerSim IterSim
  CharsetSpec CharsetProofs CharsetMore ReadSpec ReadProofs ChunkRead XmlScanner ScanSpec ScanProofs CharReader Safety FuelMono
  ChunkScan ChunkTop Term GrammarSpec Grammar ScanTop GrammarTop.

(** a mask selecting all elements *)
Definition mask_all : N := 0xFFFF.
(** [n] calls of nextItem *)
Definition calls (n : nat) : list N := repeat mask_all n.
(** types and contents of the elements *)
Definition elements (evs : list event) : list (etype * list N) := map (fun e => (ev_type e, ev_item e)) evs.

Lemma bytes_dec : forall l, forallb (fun b => b <? 256) l = true -> Forall isByte l.
Proof. intros l H. rewrite forallb_forall in H. apply Forall_forall. intros b Hb. apply N.ltb_lt. apply H. exact Hb. Qed.

(** ** C13: chunks. [feed_new]: a new iterator for each chunk, as in the example program; [feed_put]: the iterator is fed with
    putInput, then the positions are also the same. The fuel is the bound of the model for the number of steps of a call. *)
Theorem C13_chunks : forall incs outcs fuel masks c0 chunks s evs, cs_constructible incs = true ->
  Forall isByte (concat (c0 :: chunks)) -> complete_text incs (concat (c0 :: chunks)) ->
  xml_scan incs outcs fuel masks (concat (c0 :: chunks)) = Ret s evs ->
  exists st' evs', scanChunked incs (xml_config incs outcs None 0) feed_new (fuel + 9) masks
      (sc_make (ts_make (src_make c0 (more chunks))), chunks) = Ret st' evs' /\
    map element evs' = map element evs.
Proof.
  intros incs outcs fuel masks c0 chunks s evs Hcs Hb Hc H.
  destruct (chunked_scan incs outcs false fuel masks c0 chunks s evs Hcs Hb Hc H) as [st' [evs' [H1 [H2 _]]]]. eauto.
Qed.
Print Assumptions C13_chunks.

Theorem C13_chunks_putinput : forall incs outcs fuel masks c0 chunks s evs, cs_constructible incs = true ->
  Forall isByte (concat (c0 :: chunks)) -> complete_text incs (concat (c0 :: chunks)) ->
  xml_scan incs outcs fuel masks (concat (c0 :: chunks)) = Ret s evs ->
  exists st', scanChunked incs (xml_config incs outcs None 0) feed_put (fuel + 9) masks
      (sc_make (ts_make (src_make c0 (more chunks))), chunks) = Ret st' evs.
Proof.
  intros incs outcs fuel masks c0 chunks s evs Hcs Hb Hc H.
  destruct (chunked_scan incs outcs true fuel masks c0 chunks s evs Hcs Hb Hc H) as [st' [evs' [H1 [_ H2]]]].
  rewrite (H2 eq_refl) in H1. eauto.
Qed.
Print Assumptions C13_chunks_putinput.

(** The other direction: a scan in chunks delivers nothing else than the scan in one piece, and ends only if that ends *)
Theorem C13_chunks_only : forall incs outcs fuel masks c0 chunks st' evs', cs_constructible incs = true ->
  Forall isByte (concat (c0 :: chunks)) -> complete_text incs (concat (c0 :: chunks)) ->
  scanChunked incs (xml_config incs outcs None 0) feed_new fuel masks (sc_make (ts_make (src_make c0 (more chunks))), chunks) = Ret st' evs' ->
  exists fuel' s evs, xml_scan incs outcs fuel' masks (concat (c0 :: chunks)) = Ret s evs /\ map element evs' = map element evs.
Proof.
  intros incs outcs fuel masks c0 chunks st' evs' Hcs Hb Hc H.
  pose proof (chunked_scan_back incs outcs false fuel masks c0 chunks Hcs Hb Hc) as G. cbn [feed_of] in G. rewrite H in G.
  destruct G as [g [s [evs [E1 [E2 _]]]]]. eauto.
Qed.
Print Assumptions C13_chunks_only.

Theorem C13_chunks_putinput_only : forall incs outcs fuel masks c0 chunks st' evs', cs_constructible incs = true ->
  Forall isByte (concat (c0 :: chunks)) -> complete_text incs (concat (c0 :: chunks)) ->
  scanChunked incs (xml_config incs outcs None 0) feed_put fuel masks (sc_make (ts_make (src_make c0 (more chunks))), chunks) = Ret st' evs' ->
  exists fuel' s, xml_scan incs outcs fuel' masks (concat (c0 :: chunks)) = Ret s evs'.
Proof.
  intros incs outcs fuel masks c0 chunks st' evs' Hcs Hb Hc H.
  pose proof (chunked_scan_back incs outcs true fuel masks c0 chunks Hcs Hb Hc) as G. cbn [feed_of] in G. rewrite H in G.
  destruct G as [g [s [evs [E1 [_ E2]]]]]. rewrite (E2 eq_refl). eauto.
Qed.
Print Assumptions C13_chunks_putinput_only.

Lemma chunks_hang : forall incs outcs put masks c0 chunks, cs_constructible incs = true ->
  Forall isByte (concat (c0 :: chunks)) -> complete_text incs (concat (c0 :: chunks)) ->
  (forall fuel, xml_scan incs outcs fuel masks (concat (c0 :: chunks)) = Fuel) ->
  forall fuel, scanChunked incs (xml_config incs outcs None 0) (feed_of put) fuel masks (sc_make (ts_make (src_make c0 (more chunks))), chunks) = Fuel.
Proof.
  intros incs outcs put masks c0 chunks Hcs Hb Hc H fuel.
  pose proof (chunked_scan_back incs outcs put fuel masks c0 chunks Hcs Hb Hc) as G.
  destruct (scanChunked incs (xml_config incs outcs None 0) (feed_of put) fuel masks (sc_make (ts_make (src_make c0 (more chunks))), chunks));
    try contradiction; [| |reflexivity].
  - destruct G as [g [s' [evs' [E1 _]]]]. rewrite (H g) in E1. discriminate.
  - destruct G as [g E1]. rewrite (H g) in E1. discriminate.
Qed.
Theorem C13_chunks_hang : forall incs outcs masks c0 chunks, cs_constructible incs = true ->
  Forall isByte (concat (c0 :: chunks)) -> complete_text incs (concat (c0 :: chunks)) ->
  let chunked feed fuel := scanChunked incs (xml_config incs outcs None 0) feed fuel masks (sc_make (ts_make (src_make c0 (more chunks))), chunks) in
  ((forall fuel, xml_scan incs outcs fuel masks (concat (c0 :: chunks)) = Fuel) <-> (forall fuel, chunked feed_new fuel = Fuel)) /\
  ((forall fuel, xml_scan incs outcs fuel masks (concat (c0 :: chunks)) = Fuel) <-> (forall fuel, chunked feed_put fuel = Fuel)).
Proof.
  intros incs outcs masks c0 chunks Hcs Hb Hc chunked.
  assert (K : forall put, (forall fuel, xml_scan incs outcs fuel masks (concat (c0 :: chunks)) = Fuel) <-> (forall fuel, chunked (feed_of put) fuel = Fuel)).
  { intros put. split; [apply chunks_hang; assumption|]. intros H fuel.
    pose proof (xml_scan_clean incs outcs fuel masks (concat (c0 :: chunks)) Hcs Hb) as G.
    destruct (xml_scan incs outcs fuel masks (concat (c0 :: chunks))) as [s evs| | | |] eqn:E; cbn [clean] in G; try contradiction; [|reflexivity].
    destruct (chunked_scan incs outcs put fuel masks c0 chunks s evs Hcs Hb Hc E) as [st' [evs' [E1 _]]].
    rewrite (H (fuel + 9)%nat : scanChunked incs _ _ _ _ _ = _) in E1. discriminate. }
  split; [exact (K false)|exact (K true)].
Qed.
Print Assumptions C13_chunks_hang.
(** an unclosed comment, cut *)
Example C13_hang_case : forall fuel,
  xml_scan UTF8 UTF8 fuel (calls 1) (str "<!--x") = Fuel /\
  scanChunked UTF8 (xml_config UTF8 UTF8 None 0) feed_new fuel (calls 1) (sc_make (ts_make (src_make (str "<!") true)), [str "--"; str "x"]) = Fuel.
Proof.
  assert (H : forall fuel, xml_scan UTF8 UTF8 fuel (calls 1) (str "<!--x") = Fuel).
  { apply xml_scan_bound; [reflexivity|apply bytes_dec; reflexivity|vm_compute; reflexivity]. }
  intros fuel. split; [apply H|]. revert fuel.
  refine (proj1 (proj1 (C13_chunks_hang UTF8 UTF8 (calls 1) (str "<!") [str "--"; str "x"] eq_refl _ _)) H); [apply bytes_dec; reflexivity|].
  intros _. cbn [concat app str]. repeat (apply us_single; [vm_compute; reflexivity|]). constructor.
Qed.

Example C13_case : exists s evs,
  let c0 := str "<a x='1&#x3" in let chunks := [str ""; str "4;'>t&a"; str "mp;"; [0xC3]; [0xA4] ++ str "</a>"] in
  xml_scan UTF8 UTF8 100 (calls 6) (concat (c0 :: chunks)) = Ret s evs /\ utf8_sequences (concat (c0 :: chunks)) /\
  elements evs = [(EOpenTag, str "a"); (ETagAttribName, str "x"); (ETagAttribValue, str "14"); (EContent, str "t&" ++ [0xC3; 0xA4]);
                  (ECloseTag, str "a"); (EExit, [])].
Proof.
  eexists. eexists. cbv zeta. split; [vm_compute; reflexivity|]. split; [|vm_compute; reflexivity].
  cbn [concat app str]. repeat (apply us_single; [vm_compute; reflexivity|]).
  apply (us_multi 0xC3 [0xA4]); [lia|reflexivity|reflexivity|]. repeat (apply us_single; [vm_compute; reflexivity|]). constructor.
Qed.

(** For a text that is not UTF-8 the elements may depend on the chunks: a comment with a cut after an incomplete sequence *)
Theorem C13_malformed_refuted : exists c0 chunks s evs st' evs',
  xml_scan UTF8 UTF8 100 (calls 2) (concat (c0 :: chunks)) = Ret s evs /\
  scanChunked UTF8 (xml_config UTF8 UTF8 None 0) feed_put 100 (calls 2) (sc_make (ts_make (src_make c0 (more chunks))), chunks) = Ret st' evs' /\
  map ev_type evs <> map ev_type evs'.
Proof.
  exists (str "<!--" ++ [0xE2]), [str "-->--><a>"]. do 4 eexists. split; [vm_compute; reflexivity|]. split; [vm_compute; reflexivity|].
  vm_compute. discriminate.
Qed.
Print Assumptions C13_malformed_refuted.

(** ** C14: encodings *)
Theorem C14_encodings : forall cs1 cs2 outcs fuel masks cl s1 evs1,
  cs_constructible cs1 = true -> cs_constructible cs2 = true -> Forall (representable cs1) cl -> Forall (representable cs2) cl ->
  xml_scan cs1 outcs fuel masks (flat_map (cs_print cs1) cl) = Ret s1 evs1 ->
  exists s2 evs2, xml_scan cs2 outcs fuel masks (flat_map (cs_print cs2) cl) = Ret s2 evs2 /\
    map element evs2 = map element evs1.
Proof.
  intros cs1 cs2 outcs fuel masks cl s1 evs1 H1 H2 R1 R2 H.
  pose proof (xml_scan_chars cs1 outcs fuel masks cl H1 R1) as G1. pose proof (xml_scan_chars cs2 outcs fuel masks cl H2 R2) as G2.
  rewrite H in G1. destruct (k_scan (kplain outcs) fuel masks cl) as [t b| | | |]; inversion G1 as [? ? ? ? _ E1| | | |]; subst.
  inversion G2 as [s2 ? a2 ? _ E2| | | |]; subst. exists s2, a2. split; [auto|]. congruence.
Qed.
Print Assumptions C14_encodings.

Example C14_case : exists s evs,
  let cl := str "<a x='1'>" ++ [0xE4; 0x20AC; 13; 10] ++ str "&lt;</a>" in
  xml_scan (UTF16 true) UTF8 100 (calls 6) (flat_map (cs_print (UTF16 true)) cl) = Ret s evs /\
  Forall (representable (UTF16 true)) cl /\ Forall (representable UTF8) cl /\
  elements evs = [(EOpenTag, str "a"); (ETagAttribName, str "x"); (ETagAttribValue, str "1");
     (EContent, [0xC3; 0xA4; 0xE2; 0x82; 0xAC; 10; 60]); (ECloseTag, str "a"); (EExit, [])].
Proof.
  eexists. eexists. cbv zeta. split; [vm_compute; reflexivity|].
  split; [|split; [|vm_compute; reflexivity]]; cbn [str app N_of_ascii]; repeat constructor; vm_compute; intuition discriminate.
Qed.

(** ** C15: no access outside of buffers and tables. [clean]: the outcome is a result or, in the model, the end of the fuel;
    not [Undef], and no exception or jump leaves the program. *)
Theorem C15_no_undefined_behaviour : forall incs outcs entitymap addr fuel masks c0 chunks, cs_constructible incs = true ->
  Forall isByte (concat (c0 :: chunks)) ->
  clean (scanChunked incs (xml_config incs outcs entitymap addr) feed_new fuel masks
    (sc_make (ts_make (src_make c0 (more chunks))), chunks)) /\
  clean (scanChunked incs (xml_config incs outcs entitymap addr) feed_put fuel masks
    (sc_make (ts_make (src_make c0 (more chunks))), chunks)).
Proof.
  intros incs outcs m addr fuel masks c0 chunks Hcs Hb.
  split; [apply (chunked_safe incs outcs m addr false)|apply (chunked_safe incs outcs m addr true)]; assumption.
Qed.
Print Assumptions C15_no_undefined_behaviour.

Example C15_case : exists st evs, let chunks := [str "67890123456789;"; str ">"] in
  scanChunked (IsoLatin 3) (xml_config (IsoLatin 3) UTF8 None 0) feed_new 60 (calls 3)
    (sc_make (ts_make (src_make (str "<a>&#12345") (more chunks))), chunks) = Ret st evs /\
  elements evs = [(EOpenTag, str "a"); (EContent, str "&#1234567890123456789;>"); (EExit, [])].
Proof. eexists. eexists. cbv zeta. split; vm_compute; reflexivity. Qed.

(** IStreamIterator as source *)
Theorem C15_istream : forall incs outcs entitymap addr fuel masks reads bufsize i, cs_constructible incs = true ->
  Forall (fun r => rd_err r = false /\ rd_data r <> [] /\ N.of_nat (length (rd_data r)) <= bufsize) reads ->
  Forall isByte (flat_map rd_data reads) -> istrm_make reads bufsize = Ret i tt ->
  clean (scan (ts_ops istrm_ops incs) (xml_config incs outcs entitymap addr) fuel masks (sc_make (ts_make i))).
Proof.
  intros incs outcs m addr fuel masks reads bufsize i Hcs Hg Hb Hi. eapply istream_safe; eauto.
Qed.
Print Assumptions C15_istream.

(** a null terminated string as source: the scanner reads behind the end in a comment that is not closed *)
Theorem C15_charptr_refuted : exists text, Forall (fun b => 0 < b < 128) text /\
  scan (ts_ops cptr_ops UTF8) (xml_config UTF8 UTF8 None 0) 100 (calls 1) (sc_make (ts_make (mkCptr (text ++ [0]) 0))) = Undef.
Proof. exists (str "<!-- a"). split; [repeat constructor; reflexivity|vm_compute; reflexivity]. Qed.
Print Assumptions C15_charptr_refuted.

(** ** C16: termination. With a bound linear in the length of the text the calls end or they do not end at all. *)
Theorem C16_bound : forall incs outcs masks text, cs_constructible incs = true -> Forall isByte text ->
  xml_scan incs outcs (3 * length text + 4) masks text = Fuel -> forall fuel, xml_scan incs outcs fuel masks text = Fuel.
Proof. apply xml_scan_bound. Qed.
Print Assumptions C16_bound.

(** They do not end for a comment, a processing instruction, a CDATA section or an entity list that is not closed. *)
Theorem C16_refuted : forall text, In text [str "<!--"; str "<a><?p"; str "<a><![CDATA[ ]]"; str "<!DOCTYPE ["] ->
  forall fuel, xml_scan UTF8 UTF8 fuel (calls 2) text = Fuel.
Proof.
  intros text H. cbn [In] in H.
  assert (Hb : Forall isByte text /\ xml_scan UTF8 UTF8 (3 * length text + 4) (calls 2) text = Fuel).
  { repeat match type of H with _ \/ _ => destruct H as [H|H] end; try contradiction; subst text;
     (split; [apply bytes_dec; vm_compute; reflexivity|vm_compute; reflexivity]). }
  apply xml_scan_bound; [reflexivity|apply Hb|apply Hb].
Qed.
Print Assumptions C16_refuted.

(** As long as more input is announced (SrcIterator with an end of message buffer) every call ends, with an element or with the
    interrupt, after a number of steps linear in the length of the chunk. *)
Theorem C16_chunk_ends : forall incs outcs masks c fuel, cs_constructible incs = true -> Forall isByte c ->
  (3 * length c + 3 < fuel)%nat ->
  scan (ts_ops src_ops incs) (xml_config incs outcs None 0) fuel masks (sc_make (ts_make (src_make c true))) <> Fuel.
Proof. intros incs outcs masks c fuel Hcs Hb Hf. apply xml_chunk_ends; assumption. Qed.
Print Assumptions C16_chunk_ends.
Example C16_case : exists s evs, let text := str "<a>x<!-- y --></a>" in
  xml_scan UTF8 UTF8 (3 * length text + 4) (calls 4) text = Ret s evs /\
  elements evs = [(EOpenTag, str "a"); (EContent, str "x"); (ECloseTag, str "a"); (EExit, [])] /\
  exists s', scan (ts_ops src_ops UTF8) (xml_config UTF8 UTF8 None 0) (3 * 4 + 4) (calls 1) (sc_make (ts_make (src_make (str "<!--") true))) = Jump s'.
Proof. eexists. eexists. cbv zeta. split; [vm_compute; reflexivity|]. split; [vm_compute; reflexivity|]. eexists. vm_compute. reflexivity. Qed.

(** ** C17: Exit, for any kind of input *)
Theorem C17_exit_final : forall {R} (rops : readerops R) cfg fuel mask s s',
  nextItem rops cfg fuel mask s = Ret s' EExit ->
  sc_getItem s' = [] /\ forall fuel' mask', nextItem rops cfg (S fuel') mask' s' = Ret s' EExit.
Proof.
  intros R rops cfg fuel mask s s' H. destruct (exit_state rops cfg mask fuel s s' H) as [H1 [H2 H3]]. split; [exact H2|].
  intros fuel' mask'. rewrite (exit_again rops cfg fuel' mask' s' H1). f_equal. destruct s' as [st er r ob tp tk]. cbn in *. subst. reflexivity.
Qed.
Print Assumptions C17_exit_final.
Example C17_case : exists s', nextItem (ts_ops src_ops UTF8) (xml_config UTF8 UTF8 None 0) 10 mask_all
  (sc_make (ts_make (src_make (str "   ") false))) = Ret s' EExit.
Proof. eexists. vm_compute. reflexivity. Qed.

(** ** C18: grammar. [false]: CloseTagIm may be repeated. *)
Theorem C18_grammar_partial : forall incs outcs entitymap addr put fuel masks c0 chunks st evs, cs_constructible incs = true ->
  Forall isByte (concat (c0 :: chunks)) ->
  scanChunked incs (xml_config incs outcs entitymap addr) (feed_of put) fuel masks
    (sc_make (ts_make (src_make c0 (more chunks))), chunks) = Ret st evs ->
  gaccept false GStart (map ev_type evs) = true.
Proof. apply grammar_chunks. Qed.
Print Assumptions C18_grammar_partial.

(** the same for any kind of input that is not interrupted *)
Theorem C18_grammar_any_source_partial : forall {R} (rops : readerops R) cfg fuel masks r s evs,
  scan rops cfg fuel masks (sc_make r) = Ret s evs -> gaccept false GStart (map ev_type evs) = true.
Proof. intros R rops cfg fuel masks r s evs H. eapply grammar_scan; [|exact H]. left. reflexivity. Qed.
Print Assumptions C18_grammar_any_source_partial.

Theorem C18_grammar_refuted : exists text s evs,
  xml_scan UTF8 UTF8 100 (calls 4) text = Ret s evs /\ Forall (fun e => ev_err e = Ok) evs /\
  gaccept true GStart (map ev_type evs) = false.
Proof.
  exists (str "<a/ >"). do 2 eexists. split; [vm_compute; reflexivity|]. split; [|vm_compute; reflexivity]. repeat constructor.
Qed.
Print Assumptions C18_grammar_refuted.
Example C18_case : exists s evs,
  xml_scan UTF8 UTF8 200 (calls 13) (str "<?xml version='1.0'?><!DOCTYPE x><a b='c'>d<e/></a>") = Ret s evs /\
  map ev_type evs = [EHeaderStart; EHeaderAttribName; EHeaderAttribValue; EHeaderEnd; EDocAttribValue; EDocAttribValue; EDocAttribEnd;
     EOpenTag; ETagAttribName; ETagAttribValue; EContent; EOpenTag; ECloseTagIm] /\
  gaccept true GStart (map ev_type evs) = true /\ gaccept false GStart [ETagAttribName] = false /\
  gaccept false GStart [EOpenTag; EContent; EHeaderStart] = false /\ gaccept false GStart [ENone] = false.
Proof. eexists. eexists. split; [vm_compute; reflexivity|]. repeat split; vm_compute; reflexivity. Qed.
