(** C59 for the other kinds of sources: std::istream and null terminated memory. *)
From Verif Require Import Base Iter CharMap CodePages Charset TextScanner Ideal
  CharsetSpec ReadSpec XmlScanner ScanSpec ScanProofs ChunkScan ScanTop PropsScan XmlSpec BytesSpec PropsXml BytesProofs PropsBytes SourceSim PropsSource.

(** ** An input stream, however it splits the text *)
Theorem C59_istream : forall incs outcs reads bufsize i els o, cs_constructible incs = true ->
  Forall (fun r => rd_err r = false /\ rd_data r <> [] /\ N.of_nat (length (rd_data r)) <= bufsize) reads ->
  let text := flat_map rd_data reads in
  Forall isByte text -> istrm_make reads bufsize = Ret i tt -> text_reads (letters incs text) els o ->
  let run n fuel := scan (ts_ops istrm_ops incs) (xml_config incs outcs None 0) fuel (calls n) (sc_make (ts_make i)) in
  (forall fuel, (3 * length text + 4 <= fuel)%nat -> exists s evs, run (length els) fuel = Ret s evs /\ map element evs = bytes_deliver incs outcs text els) /\
  (forall e, o = Broken e -> exists item, forall fuel, (3 * length text + 4 <= fuel)%nat -> exists s evs,
     run (S (length els)) fuel = Ret s evs /\ map element evs = bytes_deliver incs outcs text els ++ [(EErrorOccurred, item, e)]) /\
  (o = Endless -> forall fuel, run (S (length els)) fuel = Fuel).
Proof.
  intros incs outcs reads bufsize i els o Hcs Hg text Hb Hi H run.
  assert (K : forall n fuel, same_elements (run n fuel) (xml_scan incs outcs fuel (calls n) text)) by (intros n fuel; apply (C55_istream incs outcs None 0 fuel (calls n) reads bufsize i Hcs Hg Hb Hi)).
  assert (G : forall n fuel s evs, xml_scan incs outcs fuel (calls n) text = Ret s evs -> exists s' evs', run n fuel = Ret s' evs' /\ map element evs' = map element evs).
  { intros n fuel s evs E. specialize (K n fuel). rewrite E in K. destruct (run n fuel) as [s' evs'| | | |]; cbn [same_elements] in K; try contradiction. eauto. }
  split; [|split].
  - intros fuel Hf. destruct (proj1 (C59_bytes_elements incs outcs text els o Hcs Hb H) fuel Hf) as [s [evs [E1 E2]]].
    destruct (G _ _ _ _ E1) as [s' [evs' [E3 E4]]]. exists s', evs'. split; [exact E3|congruence].
  - intros e ->. destruct (C59_bytes_errors incs outcs text els e Hcs Hb H) as [item [E0 _]]. exists item. intros fuel Hf. destruct (E0 fuel Hf) as [s [evs [E1 E2]]].
    destruct (G _ _ _ _ E1) as [s' [evs' [E3 E4]]]. exists s', evs'. split; [exact E3|congruence].
  - intros -> fuel. specialize (K (S (length els)) fuel). rewrite (proj1 (C59_bytes_endless incs outcs text els Hcs Hb H) fuel) in K.
    destruct (run (S (length els)) fuel); cbn [same_elements] in K; try contradiction. reflexivity.
Qed.
Print Assumptions C59_istream.
(** The text of [C59_case_endless] and its hypotheses, split in two reads *)
Definition C59_reads : list rdres := [mkRd (str "<a>x<") false; mkRd (str "!-- -> -") false].
Example C59_istream_case : text_reads (letters UTF8 (flat_map rd_data C59_reads)) [(EOpenTag, str "a"); (EContent, str "x")] Endless /\
  Forall (fun r => rd_err r = false /\ rd_data r <> [] /\ N.of_nat (length (rd_data r)) <= 8) C59_reads /\
  exists i, istrm_make C59_reads 8 = Ret i tt /\
    exists s evs, scan (ts_ops istrm_ops UTF8) (xml_config UTF8 UTF8 None 0) 100 (calls 2) (sc_make (ts_make i)) = Ret s evs /\
      map element evs = [(EOpenTag, str "a", Ok); (EContent, str "x", Ok)].
Proof.
  split; [replace (letters UTF8 (flat_map rd_data C59_reads)) with (str "<a>x<!-- -> -") by (vm_compute; reflexivity); exact C59_case_endless|].
  split; [repeat constructor; discriminate|]. eexists. split; [reflexivity|]. eexists. eexists. split; vm_compute; reflexivity.
Qed.

(** ** A null terminated text. If the text has no end for the scanner, it reads behind the terminator. *)
Theorem C59_charptr : forall incs outcs text els o, cs_constructible incs = true -> Forall isByte text -> whole_text incs text -> text_reads (letters incs text) els o ->
  let run n fuel := scan (ts_ops cptr_ops incs) (xml_config incs outcs None 0) fuel (calls n) (sc_make (ts_make (mkCptr (text ++ repeat 0 (null_size incs)) 0))) in
  (forall fuel, (3 * length text + 4 <= fuel)%nat -> exists s evs, run (length els) fuel = Ret s evs /\ map element evs = bytes_deliver incs outcs text els) /\
  (forall e, o = Broken e -> exists item, forall fuel, (3 * length text + 4 <= fuel)%nat -> exists s evs,
     run (S (length els)) fuel = Ret s evs /\ map element evs = bytes_deliver incs outcs text els ++ [(EErrorOccurred, item, e)]) /\
  (o = Endless <-> exists n, (n <= S (length els))%nat /\ (o = Ends -> (n <= length els)%nat) /\ forall fuel, (3 * length text + 15 < fuel)%nat -> run n fuel = Undef).
Proof.
  intros incs outcs text els o Hcs Hb Hw H run.
  assert (G : forall n fuel s evs, xml_scan incs outcs fuel (calls n) text = Ret s evs -> exists s' evs', run n fuel = Ret s' evs' /\ map element evs' = map element evs).
  { intros n fuel s evs E. exact (C55_charptr incs outcs None 0 fuel (calls n) text s evs Hcs Hb Hw E). }
  split; [|split].
  - intros fuel Hf. destruct (proj1 (C59_bytes_elements incs outcs text els o Hcs Hb H) fuel Hf) as [s [evs [E1 E2]]].
    destruct (G _ _ _ _ E1) as [s' [evs' [E3 E4]]]. exists s', evs'. split; [exact E3|congruence].
  - intros e ->. destruct (C59_bytes_errors incs outcs text els e Hcs Hb H) as [item [E0 _]]. exists item. intros fuel Hf. destruct (E0 fuel Hf) as [s [evs [E1 E2]]].
    destruct (G _ _ _ _ E1) as [s' [evs' [E3 E4]]]. exists s', evs'. split; [exact E3|congruence].
  - rewrite (C16_bytes_exact incs outcs text els o Hcs Hb H). split; intros [n [H1 [H2 H3]]]; exists n; split; auto; split; auto.
    + intros fuel Hf. apply (C15_charptr_exact incs outcs None 0 (calls n) text fuel Hcs Hb Hw Hf). exact H3.
    + apply (C15_charptr_exact incs outcs None 0 (calls n) text (3 * length text + 16) Hcs Hb Hw ltac:(lia)). apply H3. lia.
Qed.
Print Assumptions C59_charptr.
Example C59_charptr_case : let text := str "<a>x<!-- -> -" in
  text_reads (letters UTF8 text) [(EOpenTag, str "a"); (EContent, str "x")] Endless /\ whole_text UTF8 text /\
  (exists s evs, scan (ts_ops cptr_ops UTF8) (xml_config UTF8 UTF8 None 0) 100 (calls 2) (sc_make (ts_make (mkCptr (text ++ [0]) 0))) = Ret s evs /\
      map element evs = [(EOpenTag, str "a", Ok); (EContent, str "x", Ok)]) /\
  scan (ts_ops cptr_ops UTF8) (xml_config UTF8 UTF8 None 0) 100 (calls 3) (sc_make (ts_make (mkCptr (text ++ [0]) 0))) = Undef.
Proof.
  intros text. split; [replace (letters UTF8 text) with (str "<a>x<!-- -> -") by (vm_compute; reflexivity); exact C59_case_endless|].
  split; [cbn; repeat (apply us_single; [reflexivity|]); constructor|]. split; [eexists; eexists; split; vm_compute; reflexivity|vm_compute; reflexivity].
Qed.
