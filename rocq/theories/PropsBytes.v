(** Texts of arbitrary bytes, in every character set: C62, and with it C04, C07, C16, C46, C59. *)
From Verif Require Import Base Iter CharMap CodePages Charset TextScanner Ideal
  CharsetSpec CharsetProofs CharsetMore ReadSpec ReadProofs ChunkRead XmlScanner ScanSpec ScanProofs CharReader ChunkScan ChunkTop ScanTop PropsScan
  DocSpec SectSpec XmlSpec DocProofs DocScan DocTop DocCheck PropsDoc OpenScan FuelMono Term XmlRuns XmlTop XmlTotal PropsXml
  BytesSpec BytesProofs.

(** ** C62: what is read from arbitrary bytes *)
Theorem C62_characters : forall cs n l, cs_constructible cs = true -> Forall isByte l ->
  exists t, readChars src_ops cs n (ts_make (src_make l false)) = Ret t (chars_at cs n l) /\
    ts_position src_ops t = N.of_nat (size_at cs n l) mod 2 ^ 64.
Proof.
  intros cs n l Hcs Hl.
  destruct (readChars_any _ _ _ _ _ _ (src_rsim cs Hcs) n l _ _ (src_make_rel cs l false Hl)) as [t [E H]].
  destruct (vals_ok cs n l Hcs Hl) as [E1 E2]. rewrite E1 in E. exists t. split; [exact E|].
  pose proof (rs_pos _ _ _ _ _ _ (src_rsim cs Hcs) _ _ H) as Hp. cbn [ir_ops ts_ops r_pos ir_p] in Hp. rewrite Hp, E2. reflexivity.
Qed.
Print Assumptions C62_characters.
Example C62_case : chars_at UTF8 4 [0x80; 0xC0; 0x80; 0xC1; 0x81; 60] = [0x7FFFFFFF; 0; 65; 60]
  /\ chars_at (UTF16 true) 3 [0xD8; 0; 0; 65; 0xDC; 0; 0xD8] = [0x2441; 0xDC00; 0x2400] /\ size_at (UTF16 true) 3 [0xD8; 0; 0; 65; 0xDC; 0; 0xD8] = 10%nat.
Proof. repeat split; vm_compute; reflexivity. Qed.

(** *** C04: the character of every byte in every code page, ISO-8859-3 included *)
Lemma chars_iso : forall p l, chars_at (IsoLatin p) (length l) l = map (iso_read p) l.
Proof. intros p l. induction l as [|b l IH]; [reflexivity|]. cbn [length chars_at char_at fst snd skipn map]. rewrite IH. reflexivity. Qed.
Theorem C04_isolatin_exact : forall p l, 1 <= p <= 9 -> Forall isByte l ->
  exists t, readChars src_ops (IsoLatin p) (length l) (ts_make (src_make l false)) = Ret t (map (iso_read p) l).
Proof.
  intros p l Hp Hl. destruct (C62_characters (IsoLatin p) (length l) l ltac:(cbn [cs_constructible]; lia) Hl) as [t [E _]].
  rewrite chars_iso in E. exists t. exact E.
Qed.
Print Assumptions C04_isolatin_exact.
(** a byte of ISO-8859-3 before the first gap, bytes behind it, the last one *)
Example C04_isolatin3_case : map (iso_read 3) [0xA4; 0xA6; 0xA7; 0xFF] = [0xA4; 0xA7; 0xA8; 0] /\ map (iso8859_char 3) [0xA4; 0xA6; 0xA7; 0xFF] = [0xA4; 0x124; 0xA7; 0x2D9].
Proof. split; vm_compute; reflexivity. Qed.

(** ** C59 for texts of arbitrary bytes *)
Definition bytes_deliver (incs outcs : charset) (text : list N) (els : list (etype * list N)) : list (etype * list N * xerror) :=
  map (fun p => (fst p, flat_map (written incs outcs text) (snd p), Ok)) els.
Lemma delivered_written : forall incs outcs text els, map (delivered (letter_out incs outcs text)) els = bytes_deliver incs outcs text els.
Proof. reflexivity. Qed.
Lemma bytes_to_chunks : forall incs outcs masks text els, cs_constructible incs = true -> Forall isByte text -> complete_text incs text ->
  (forall f, (3 * length text + 4 <= f)%nat -> exists s evs, xml_scan incs outcs f masks text = Ret s evs /\ map element evs = els) ->
  forall c0 chunks f, text = concat (c0 :: chunks) -> (3 * length text + 13 <= f)%nat ->
  exists st evs, scanChunked incs (xml_config incs outcs None 0) feed_new f masks (sc_make (ts_make (src_make c0 (more chunks))), chunks) = Ret st evs /\
    map element evs = els.
Proof.
  intros incs outcs masks text els Hcs Hb Hc H c0 chunks f E Hf.
  destruct (H (f - 9)%nat ltac:(lia)) as [s [evs [H1 H2]]].
  rewrite E in H1, Hb, Hc. destruct (chunked_scan incs outcs false (f - 9) masks c0 chunks s evs Hcs Hb Hc H1) as [st' [evs' [H3 [H4 _]]]].
  exists st', evs'. replace (f - 9 + 9)%nat with f in H3 by lia. split; [exact H3|congruence].
Qed.

Theorem C59_bytes_elements : forall incs outcs text els o, cs_constructible incs = true -> Forall isByte text -> text_reads (letters incs text) els o ->
  (forall fuel, (3 * length text + 4 <= fuel)%nat -> exists s evs,
     xml_scan incs outcs fuel (calls (length els)) text = Ret s evs /\ map element evs = bytes_deliver incs outcs text els) /\
  (complete_text incs text -> forall c0 chunks fuel, text = concat (c0 :: chunks) -> (3 * length text + 13 <= fuel)%nat -> exists st evs,
     scanChunked incs (xml_config incs outcs None 0) feed_new fuel (calls (length els)) (sc_make (ts_make (src_make c0 (more chunks))), chunks) = Ret st evs /\
     map element evs = bytes_deliver incs outcs text els).
Proof.
  intros incs outcs text els o Hcs Hb H. set (k := letter_out incs outcs text).
  assert (S1 : forall f, (3 * length text + 4 <= f)%nat -> exists s evs, xml_scan incs outcs f (calls (length els)) text = Ret s evs /\ map element evs = bytes_deliver incs outcs text els).
  { apply (codes_to_xml incs k _ text (letters incs text)); auto; [apply letters_code; auto|]. rewrite <- delivered_written.
    exact (first_elements k mask_all mask_all_full _ _ _ _ (x_text k mask_all mask_all_full _ _ _ H) (repeat 0 16) eq_refl). }
  split; [exact S1|]. intros Hc c0 chunks f E Hf. apply (bytes_to_chunks incs outcs _ text); auto.
Qed.
Print Assumptions C59_bytes_elements.

Theorem C59_bytes_errors : forall incs outcs text els e, cs_constructible incs = true -> Forall isByte text -> text_reads (letters incs text) els (Broken e) ->
  exists item,
  (forall fuel, (3 * length text + 4 <= fuel)%nat -> exists s evs,
     xml_scan incs outcs fuel (calls (S (length els))) text = Ret s evs /\ map element evs = bytes_deliver incs outcs text els ++ [(EErrorOccurred, item, e)]) /\
  (complete_text incs text -> forall c0 chunks fuel, text = concat (c0 :: chunks) -> (3 * length text + 13 <= fuel)%nat -> exists st evs,
     scanChunked incs (xml_config incs outcs None 0) feed_new fuel (calls (S (length els))) (sc_make (ts_make (src_make c0 (more chunks))), chunks) = Ret st evs /\
     map element evs = bytes_deliver incs outcs text els ++ [(EErrorOccurred, item, e)]).
Proof.
  intros incs outcs text els e Hcs Hb H. set (k := letter_out incs outcs text).
  destruct (first_fails k mask_all mask_all_full _ _ _ _ (x_text k mask_all mask_all_full _ _ _ H) (repeat 0 16) eq_refl) as [n [s [evs [item [E1 E2]]]]].
  exists item.
  assert (S1 : forall f, (3 * length text + 4 <= f)%nat -> exists s evs, xml_scan incs outcs f (calls (S (length els))) text = Ret s evs /\
     map element evs = bytes_deliver incs outcs text els ++ [(EErrorOccurred, item, e)]).
  { apply (codes_to_xml incs k _ text (letters incs text)); auto; [apply letters_code; auto|]. rewrite <- delivered_written. exists n, s, evs. split; [exact E1|exact E2]. }
  split; [exact S1|]. intros Hc c0 chunks f E Hf. apply (bytes_to_chunks incs outcs _ text); auto.
Qed.
Print Assumptions C59_bytes_errors.

Theorem C59_bytes_endless : forall incs outcs text els, cs_constructible incs = true -> Forall isByte text -> text_reads (letters incs text) els Endless ->
  (forall fuel, xml_scan incs outcs fuel (calls (S (length els))) text = Fuel) /\
  (complete_text incs text -> forall c0 chunks fuel, text = concat (c0 :: chunks) ->
    scanChunked incs (xml_config incs outcs None 0) feed_new fuel (calls (S (length els))) (sc_make (ts_make (src_make c0 (more chunks))), chunks) = Fuel).
Proof.
  intros incs outcs text els Hcs Hb H.
  assert (S1 : forall fuel, xml_scan incs outcs fuel (calls (S (length els))) text = Fuel).
  2:{ split; [exact S1|]. intros Hc c0 chunks fuel E. rewrite E in S1, Hb, Hc. exact (chunks_hang incs outcs false _ c0 chunks Hcs Hb Hc S1 fuel). }
  intros f. set (k := letter_out incs outcs text).
  pose proof (xml_scan_codes incs k f (calls (S (length els))) text _ Hcs Hb (letters_code incs outcs text Hcs Hb)) as HS.
  assert (E : k_scan k f (calls (S (length els))) (letters incs text) = Fuel) by exact (first_hang k mask_all mask_all_full _ _ _ (x_text k mask_all mask_all_full _ _ _ H) (repeat 0 16) eq_refl f).
  rewrite E in HS. inversion HS. reflexivity.
Qed.
Print Assumptions C59_bytes_endless.

Lemma bytes_read_as : forall incs outcs text els o, cs_constructible incs = true -> Forall isByte text -> text_reads (letters incs text) els o ->
  reads_as incs outcs text (written incs outcs text) els o.
Proof.
  intros incs outcs text els o Hcs Hb H. split; [exact (proj1 (C59_bytes_elements incs outcs text els o Hcs Hb H))|]. split.
  - intros e ->. destruct (C59_bytes_errors incs outcs text els e Hcs Hb H) as [item [E _]]. intros f Hf. destruct (E f Hf) as [s [evs X]]. exists s, evs, item. exact X.
  - intros ->. apply (C59_bytes_endless incs outcs text els); assumption.
Qed.

(** a byte sequence that is not complete takes the '<' behind it: the end tag is part of the content then *)
Definition C59_text2 : list N := str "<a>" ++ [0xE2; 0x82] ++ str "</a>".
Example C59_case_bytes : letters UTF8 C59_text2 = str "<a>" ++ [2 ^ 32 + 3] ++ str "/a>" /\
  text_reads (letters UTF8 C59_text2) [(EOpenTag, str "a"); (EContent, (2 ^ 32 + 3) :: str "/a>"); (EExit, [])] Ends /\ Forall isByte C59_text2 /\
  bytes_deliver UTF8 UTF8 C59_text2 [(EContent, (2 ^ 32 + 3) :: str "/a>")] = [(EContent, [0xE2; 0x82] ++ str "</a>", Ok)] /\
  bytes_deliver UTF8 (IsoLatin 1) C59_text2 [(EContent, (2 ^ 32 + 3) :: str "/a>")] = [(EContent, str "&#x7fffffff;/a>", Ok)].
Proof.
  assert (L : letters UTF8 C59_text2 = str "<a>" ++ [2 ^ 32 + 3] ++ str "/a>") by (vm_compute; reflexivity).
  split; [exact L|]. rewrite L. split; [|split; [vm_compute; repeat constructor|split; vm_compute; reflexivity]].
  refine (tx_text [] [] (tl (str "<a>" ++ [2 ^ 32 + 3] ++ str "/a>")) [(EOpenTag, str "a")] false ([2 ^ 32 + 3] ++ str "/a>") [(EContent, (2 ^ 32 + 3) :: str "/a>"); (EExit, [])] Ends _ _ _ _).
  - constructor.
  - apply longest_dec. reflexivity.
  - apply mk_tag; [discriminate|discriminate|discriminate|].
    apply (tg_tag _ (str "a") (str ">" ++ [2 ^ 32 + 3] ++ str "/a>") [] false (str ">" ++ [2 ^ 32 + 3] ++ str "/a>") []); [apply (tr_end CName (str "a")); [apply longest_dec; reflexivity|discriminate]|reflexivity| |apply te_gt].
    apply (ar_end false []); [constructor|reflexivity].
  - apply (ct_text false _ ((2 ^ 32 + 3) :: str "/a>") [] [(EExit, [])]); [discriminate|discriminate|discriminate| |].
    + apply (tr_end CText ((2 ^ 32 + 3) :: str "/a>") []); [apply longest_dec; reflexivity|discriminate].
    + apply ct_end. reflexivity.
Qed.
Example C59_case_bytes_run : exists s evs, xml_scan UTF8 UTF8 100 (calls 3) C59_text2 = Ret s evs /\
  map element evs = [(EOpenTag, str "a", Ok); (EContent, [0xE2; 0x82] ++ str "</a>", Ok); (EExit, [], Ok)].
Proof. do 2 eexists. split; vm_compute; reflexivity. Qed.

(** *** C16: texts of bytes for which the calls do not all end *)
Theorem C16_bytes_exact : forall incs outcs text els o, cs_constructible incs = true -> Forall isByte text -> text_reads (letters incs text) els o ->
  o = Endless <-> exists n, (n <= S (length els))%nat /\ (o = Ends -> (n <= length els)%nat) /\ forall fuel, xml_scan incs outcs fuel (calls n) text = Fuel.
Proof. intros incs outcs text els o Hcs Hb H. eapply exact_gen. apply bytes_read_as; eassumption. Qed.
Print Assumptions C16_bytes_exact.

(** *** C46: the texts of bytes scanned up to Exit without an error *)
Theorem C46_bytes_accepted : forall incs outcs text fuel n s evs ev, cs_constructible incs = true -> Forall isByte text ->
  xml_scan incs outcs fuel (calls n) text = Ret s (evs ++ [ev]) ->
  Forall (fun e => ev_type e <> EExit /\ ev_type e <> EErrorOccurred) evs -> ev_type ev = EExit ->
  exists els, text_reads (letters incs text) els Ends /\ map element (evs ++ [ev]) = bytes_deliver incs outcs text els.
Proof.
  intros incs outcs text fuel n s evs ev Hcs Hb HS Hev Hx. destruct (C59_total (letters incs text)) as [els [o H]]. exists els.
  destruct (accepted_gen _ _ _ _ _ _ (bytes_read_as incs outcs text els o Hcs Hb H) (text_exits _ _ _ H) _ _ _ _ _ HS Hev Hx) as [-> E]. split; assumption.
Qed.
Print Assumptions C46_bytes_accepted.
Example C46_bytes_case : exists s evs ev, xml_scan UTF8 UTF8 100 (calls 3) C59_text2 = Ret s (evs ++ [ev]) /\
  map ev_type evs = [EOpenTag; EContent] /\ ev_type ev = EExit.
Proof. eexists. eexists [_; _]. eexists. split; [vm_compute; reflexivity|]. split; reflexivity. Qed.
