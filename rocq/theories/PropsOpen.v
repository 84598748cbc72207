(** Texts that end inside of a section: C16, C25, C26. *)
From Verif Require Import Base Iter CharMap CodePages Charset TextScanner Ideal
  CharsetSpec CharsetProofs CharsetMore ReadSpec ReadProofs ChunkRead XmlScanner ScanSpec ScanProofs CharReader ChunkScan ChunkTop ScanTop PropsScan
  DocSpec SectSpec OpenSpec DocProofs DocScan DocTop DocCheck PropsDoc OpenScan.

(** ** C16: any document followed by a comment, processing instruction, CDATA section or list that is not closed. The elements before it
    are delivered, the call after them does not end, whatever number of steps is allowed. What closes a comment or a CDATA section is
    defined by [closes]; together with C46 (the closed ones) this says exactly where they end. *)
Theorem C16_unclosed : forall incs outcs d u, cs_constructible incs = true -> doc_ok d -> unclosed_ok u -> unclosed_place d u ->
  let cl := doc_src d ++ unclosed_src u in
  let els := doc_body d ++ unclosed_elements u in
  Forall (representable incs) cl ->
  scans_to incs outcs cl els /\
  (forall fuel, xml_scan incs outcs fuel (calls (S (length els))) (flat_map (cs_print incs) cl) = Fuel) /\
  forall c0 chunks fuel, flat_map (cs_print incs) cl = concat (c0 :: chunks) ->
    scanChunked incs (xml_config incs outcs None 0) feed_new fuel (calls (S (length els))) (sc_make (ts_make (src_make c0 (more chunks))), chunks) = Fuel.
Proof.
  intros incs outcs d u Hcs Hd Hu Hp cl els Hr.
  assert (R := doc_unclosed (kplain outcs) None 0 mask_all mask_all_full d u Hd Hu Hp). fold cl els in R. split.
  - intros f Hf. rewrite <- delivered_plain. apply k_to_xml; auto.
    destruct (runs0_scan (kplain outcs) None 0 mask_all true mask_all_full _ _ _ R) as [k Hk].
    destruct (Hk 0%nat (repeat 0 16) eq_refl) as [s [evs [E1 E2]]]. exists (k + 0)%nat, s, evs. split; [exact E1|exact E2].
  - assert (S1 : forall fuel, xml_scan incs outcs fuel (calls (S (length els))) (flat_map (cs_print incs) cl) = Fuel).
    2:{ split; [exact S1|]. intros c0 chunks fuel E. assert (Hb : Forall isByte (flat_map (cs_print incs) cl)) by (apply print_bytes; auto).
        assert (Hc : complete_text incs (flat_map (cs_print incs) cl)) by (apply print_complete; auto). rewrite E in S1, Hb, Hc. exact (chunks_hang incs outcs false _ c0 chunks Hcs Hb Hc S1 fuel). }
    intros f. pose proof (xml_scan_chars incs outcs f (calls (S (length els))) cl Hcs Hr) as H.
    assert (E : k_scan (kplain outcs) f (calls (S (length els))) cl = Fuel) by exact (runs0_hang (kplain outcs) None 0 mask_all true mask_all_full _ _ _ eq_refl R f (repeat 0 16) eq_refl).
    rewrite E in H. inversion H. reflexivity.
Qed.
Print Assumptions C16_unclosed.

Example C16_unclosed_case :
  let d := mkDoc [] None [IOpen (name (str "a")) [] []; IText (name (str "x"))] in
  let u := [UComment (str " - -> ---> >--"); UPI (str "p >"); UCData (str "]> ]]]> ]]"); UList (name (str "DOCTYPE")) [(str " ", DId (name (str "a")))] (str " ") (str "<!ELEMENT a>")] in
  doc_ok d /\ Forall unclosed_ok u /\ Forall (fun u => Forall (representable UTF8) (doc_src d ++ unclosed_src u)) u /\
  map (fun u => doc_src d ++ unclosed_src u) u =
    [str "<a>x<!-- - -> ---> >--"; str "<a>x<?p >"; str "<a>x<![CDATA[]> ]]]> ]]"; str "<a>x<!DOCTYPE a [<!ELEMENT a>"] /\
  map (fun u => doc_body d ++ unclosed_elements u) u =
    let b := [(EOpenTag, str "a"); (EContent, str "x")] in [b; b; b; b ++ [(EDocAttribValue, str "DOCTYPE"); (EDocAttribValue, str "a")]].
Proof.
  cbv zeta. split; [apply docb_ok; vm_compute; reflexivity|]. split.
  { constructor; [|constructor; [|constructor; [|constructor; [|constructor]]]]; cbn [unclosed_ok].
    - apply never_closes_ok; [discriminate|vm_compute; reflexivity].
    - intros H. vm_compute in H. intuition discriminate.
    - apply never_closes_ok; [discriminate|vm_compute; reflexivity].
    - split; [apply nameb_ok; vm_compute; reflexivity|]. split; [discriminate|]. split.
      { constructor; [|constructor]. split; [discriminate|]. split; [eapply forallb_ok; [apply whiteb_ok|vm_compute; reflexivity]|]. apply nameb_ok. vm_compute. reflexivity. }
      split; [discriminate|]. split; [eapply forallb_ok; [apply whiteb_ok|vm_compute; reflexivity]|]. intros H. vm_compute in H. intuition discriminate. }
  split; [|split; vm_compute; reflexivity].
  constructor; [|constructor; [|constructor; [|constructor; [|constructor]]]]; apply repr_dec; vm_compute; reflexivity.
Qed.

(** ** C25 and C26: after <!-- every text either has a shortest beginning that closes the comment, and what follows is scanned as after a
    comment (C46), or the scanner does not end (C16_unclosed). The same for CDATA sections. *)
Theorem C25_comment_alternative : forall l,
  (exists p q, l = p ++ q /\ closes_first 45 comment_run p) \/ never_closes 45 comment_run l.
Proof. intros l. apply section_alternative. discriminate. Qed.
Print Assumptions C25_comment_alternative.
Theorem C26_cdata_alternative : forall l,
  (exists p q, l = p ++ q /\ closes_first 93 cdata_run p) \/ never_closes 93 cdata_run l.
Proof. intros l. apply section_alternative. discriminate. Qed.
Print Assumptions C26_cdata_alternative.
