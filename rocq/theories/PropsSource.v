(** C55: the kind of the source does not change what is scanned. *)
From Verif Require Import Base Iter CharMap CodePages Charset TextScanner XmlScanner CharsetSpec ReadSpec ScanSpec Ideal ReaderSim IterSim ChunkScan TokenSpec SourceSim SourceCstr SourceBack FuelMono Term ChunkTop ScanTop PropsScan.

(** texts that end with a complete character *)
Inductive utf16_sequences (be : bool) : list N -> Prop :=
| u16_nil : utf16_sequences be []
| u16_unit : forall a b l, ~ (0xD8 <= (if be then a else b) <= 0xDB) -> utf16_sequences be l -> utf16_sequences be (a :: b :: l)
| u16_pair : forall a b c d l, 0xD8 <= (if be then a else b) <= 0xDB -> utf16_sequences be l -> utf16_sequences be (a :: b :: c :: d :: l).
Definition whole_text (cs : charset) (l : list N) : Prop :=
  match cs with
  | UTF8 => utf8_sequences l
  | UTF16 be => utf16_sequences be l
  | UCS2 _ => exists n, length l = (2 * n)%nat
  | UCS4 _ => exists n, length l = (4 * n)%nat
  | IsoLatin _ => True
  end.
(** number of bytes of the null character that terminates a text *)
Definition null_size (cs : charset) : nat := match cs with UTF8 => 1 | UTF16 _ => 2 | UCS2 _ => 2 | UCS4 _ => 4 | IsoLatin _ => 1 end.

(** the same elements, or the same failure *)
Definition same_elements {S T} (x : out S (list event)) (y : out T (list event)) : Prop :=
  match x, y with
  | Ret _ evs1, Ret _ evs2 => map element evs1 = map element evs2
  | Fuel, Fuel | Undef, Undef => True
  | Jump _, Jump _ | Throw _, Throw _ => True
  | _, _ => False
  end.

Lemma whole_text_whole : forall cs l, Forall isByte l -> whole_text cs l -> whole cs l.
Proof.
  intros cs l Hb H. destruct cs as [|be|be|be|p]; cbn [whole_text] in H.
  - induction H as [|b l Hlt Hl IH|b conts l Hge Hlen Hf Hl IH]; [constructor| |].
    + inversion Hb; subst. apply whole_char; rewrite utf8_clen; destruct (N.ltb_spec b 0xC0); try lia; cbn [length skipn]; [lia|auto].
    + inversion Hb as [|? ? Hb1 Hb2]; subst. apply Forall_app in Hb2. destruct Hb2 as [Hb2 Hb3].
      apply whole_char; rewrite utf8_clen; destruct (N.ltb_spec b 0xC0); try lia; destruct (N.ltb_spec b 256); try lia; cbn [length skipn]; rewrite ?app_length, ?Hlen; [cbn; lia|].
      rewrite skipn_app, <- Hlen, skipn_all, Nat.sub_diag. auto.
  - assert (Hsz : forall b, b < 256 -> utf16_size_of b = if (0xD8 <=? b) && (b <=? 0xDB) then 4%nat else 2%nat).
    { assert (Hall : forallb (fun n => Nat.eqb (utf16_size_of (N.of_nat n)) (if (0xD8 <=? N.of_nat n) && (N.of_nat n <=? 0xDB) then 4 else 2)) (seq 0 256) = true) by (vm_compute; reflexivity).
      intros b Hbb. rewrite forallb_forall in Hall. specialize (Hall (N.to_nat b)). rewrite N2Nat.id in Hall. apply Nat.eqb_eq. apply Hall. apply in_seq. lia. }
    induction H as [|a b l Hn Hl IH|a b c d l Hn Hl IH]; [constructor| |].
    + inversion Hb as [|? ? Ha Hb1]; subst. inversion Hb1 as [|? ? Hbb Hb2]; subst. unfold isByte in *.
      assert (E : clen (UTF16 be) (a :: b :: l) = 2%nat).
      { cbn [clen]. rewrite Hsz by (destruct be; cbn; lia). destruct be; cbn in *;
        [destruct (N.leb_spec 216 a), (N.leb_spec a 219)|destruct (N.leb_spec 216 b), (N.leb_spec b 219)]; cbn; try reflexivity; lia. }
      apply whole_char; rewrite E; cbn [length skipn]; [lia|auto].
    + inversion Hb as [|? ? Ha Hb1]; subst. inversion Hb1 as [|? ? Hbb Hb2]; subst. inversion Hb2 as [|? ? Hc Hb3]; subst. inversion Hb3 as [|? ? Hd Hb4]; subst. unfold isByte in *.
      assert (E : clen (UTF16 be) (a :: b :: c :: d :: l) = 4%nat).
      { cbn [clen]. rewrite Hsz by (destruct be; cbn; lia). destruct be; cbn in *;
        [destruct (N.leb_spec 216 a), (N.leb_spec a 219)|destruct (N.leb_spec 216 b), (N.leb_spec b 219)]; cbn; try reflexivity; lia. }
      apply whole_char; rewrite E; cbn [length skipn]; [lia|auto].
  - destruct H as [n H]. revert l Hb H. induction n as [|n IH]; intros l Hb H; [destruct l; [constructor|discriminate]|].
    destruct l as [|a [|b l]]; cbn [length] in H; try lia. apply whole_char; cbn [clen length skipn]; [lia|]. inversion Hb as [|? ? _ Hb1]; subst. inversion Hb1; subst. apply IH; [assumption|lia].
  - destruct H as [n H]. revert l Hb H. induction n as [|n IH]; intros l Hb H; [destruct l; [constructor|discriminate]|].
    destruct l as [|a [|b [|c [|d l]]]]; cbn [length] in H; try lia. apply whole_char; cbn [clen length skipn]; [lia|].
    inversion Hb as [|? ? _ Hb1]; subst. inversion Hb1 as [|? ? _ Hb2]; subst. inversion Hb2 as [|? ? _ Hb3]; subst. inversion Hb3; subst. apply IH; [assumption|lia].
  - clear H. induction Hb as [|b l Hb1 Hb IH]; [constructor|]. apply whole_char; cbn [clen length skipn]; [lia|exact IH].
Qed.

(** ** C55. An input stream delivers the same as the text in memory, however the stream splits it. *)
Theorem C55_istream : forall incs outcs entitymap addr fuel masks reads bufsize i, cs_constructible incs = true ->
  Forall (fun r => rd_err r = false /\ rd_data r <> [] /\ N.of_nat (length (rd_data r)) <= bufsize) reads ->
  Forall isByte (flat_map rd_data reads) -> istrm_make reads bufsize = Ret i tt ->
  let cfg := xml_config incs outcs entitymap addr in
  same_elements (scan (ts_ops istrm_ops incs) cfg fuel masks (sc_make (ts_make i)))
    (scan (ts_ops src_ops incs) cfg fuel masks (sc_make (ts_make (src_make (flat_map rd_data reads) false)))).
Proof. intros incs outcs m addr fuel masks reads bufsize i Hcs Hg Hb Hi cfg. exact (istream_scan incs outcs m addr Hcs fuel masks reads bufsize i Hg Hb Hi). Qed.
Print Assumptions C55_istream.

(** A null terminated text in memory. Nothing behind the terminator is read: the memory ends there. *)
Theorem C55_charptr : forall incs outcs entitymap addr fuel masks text s evs, cs_constructible incs = true -> Forall isByte text -> whole_text incs text ->
  let cfg := xml_config incs outcs entitymap addr in
  scan (ts_ops src_ops incs) cfg fuel masks (sc_make (ts_make (src_make text false))) = Ret s evs ->
  exists s' evs', scan (ts_ops cptr_ops incs) cfg fuel masks (sc_make (ts_make (mkCptr (text ++ repeat 0 (null_size incs)) 0))) = Ret s' evs' /\ map element evs' = map element evs.
Proof.
  intros incs outcs m addr fuel masks text s evs Hcs Hb Hw cfg E.
  replace (repeat 0 (null_size incs)) with (term incs) by (destruct incs as [|[]|[]|[]|p]; reflexivity).
  eapply cptr_scan; eauto. apply whole_text_whole; assumption.
Qed.
Print Assumptions C55_charptr.
(** The other direction *)
Theorem C55_charptr_only : forall incs outcs entitymap addr fuel masks text s' evs', cs_constructible incs = true -> Forall isByte text -> whole_text incs text ->
  let cfg := xml_config incs outcs entitymap addr in
  scan (ts_ops cptr_ops incs) cfg fuel masks (sc_make (ts_make (mkCptr (text ++ repeat 0 (null_size incs)) 0))) = Ret s' evs' ->
  exists s evs, scan (ts_ops src_ops incs) cfg fuel masks (sc_make (ts_make (src_make text false))) = Ret s evs /\ map element evs' = map element evs.
Proof.
  intros incs outcs m addr fuel masks text s' evs' Hcs Hb Hw cfg E.
  replace (repeat 0 (null_size incs)) with (term incs) in E by (destruct incs as [|[]|[]|[]|p]; reflexivity).
  eapply cptr_back; eauto. apply whole_text_whole; assumption.
Qed.
Print Assumptions C55_charptr_only.

(** ** C15: the memory behind the terminator is read exactly if the scan of the text with its known end does not come to an end. *)
Theorem C15_charptr_exact : forall incs outcs entitymap addr masks text fuel, cs_constructible incs = true -> Forall isByte text -> whole_text incs text ->
  (3 * length text + 15 < fuel)%nat ->
  let cfg := xml_config incs outcs entitymap addr in
  scan (ts_ops cptr_ops incs) cfg fuel masks (sc_make (ts_make (mkCptr (text ++ repeat 0 (null_size incs)) 0))) = Undef <->
  forall fuel', scan (ts_ops src_ops incs) cfg fuel' masks (sc_make (ts_make (src_make text false))) = Fuel.
Proof.
  intros incs outcs m addr masks text fuel Hcs Hb Hw Hf cfg.
  replace (repeat 0 (null_size incs)) with (term incs) by (destruct incs as [|[]|[]|[]|p]; reflexivity).
  apply (whole_text_whole _ _ Hb) in Hw. split; [|intros H; apply (cptr_hang incs outcs m addr Hcs); auto; lia].
  intros H f'. pose proof (chunked_safe incs outcs m addr false f' masks text [] Hcs) as C. cbn [concat] in C. rewrite app_nil_r in C. specialize (C Hb).
  cbn [more] in C. rewrite scanChunked_nil in C. fold cfg in C.
  destruct (scan (ts_ops src_ops incs) cfg f' masks (sc_make (ts_make (src_make text false)))) as [s evs| | | |] eqn:E; cbn [omap clean] in C; try contradiction; [|reflexivity].
  exfalso. pose proof (fle_ret _ _ _ _ (mono_scan (ts_ops src_ops incs) cfg f' (max f' fuel) masks _ (Nat.le_max_l _ _)) E) as E2.
  destruct (cptr_scan incs outcs m addr Hcs _ masks text s evs Hb Hw E2) as [s' [evs' [E3 _]]].
  destruct (mono_scan (ts_ops cptr_ops incs) cfg fuel (max f' fuel) masks (sc_make (ts_make (mkCptr (text ++ term incs) 0))) (Nat.le_max_r _ _)) as [M|M]; fold cfg in E3; [rewrite H in M; discriminate|rewrite H, E3 in M; discriminate].
Qed.
Print Assumptions C15_charptr_exact.
Example C15_charptr_case : whole_text UTF8 (str "<a>x<!-- y") /\
  scan (ts_ops cptr_ops UTF8) (xml_config UTF8 UTF8 None 0) 100 (calls 3) (sc_make (ts_make (mkCptr (str "<a>x<!-- y" ++ [0]) 0))) = Undef /\
  exists s evs, scan (ts_ops cptr_ops UTF8) (xml_config UTF8 UTF8 None 0) 100 (calls 4) (sc_make (ts_make (mkCptr (str "<a>x<!-- y--></a" ++ [0]) 0))) = Ret s evs.
Proof.
  split; [cbn; repeat (apply us_single; [reflexivity|]); constructor|]. split; [vm_compute; reflexivity|]. eexists. eexists. vm_compute. reflexivity.
Qed.
(** Without the condition on the last character this is not so. *)
Theorem C55_charptr_refuted : exists text s evs, Forall isByte text /\ xml_scan UTF8 UTF8 100 (calls 3) text = Ret s evs /\
  scan (ts_ops cptr_ops UTF8) (xml_config UTF8 UTF8 None 0) 100 (calls 3) (sc_make (ts_make (mkCptr (text ++ [0]) 0))) = Undef.
Proof. exists (str "<a>" ++ [0xC3]). eexists. eexists. split; [repeat constructor|]. split; vm_compute; reflexivity. Qed.
Print Assumptions C55_charptr_refuted.

(** A string; its iterator counts in 32 bits. *)
Theorem C55_cstring : forall incs outcs entitymap addr fuel masks text s evs, cs_constructible incs = true -> Forall isByte text -> N.of_nat (length text) + 16 < 2 ^ 32 ->
  let cfg := xml_config incs outcs entitymap addr in
  scan (ts_ops src_ops incs) cfg fuel masks (sc_make (ts_make (src_make text false))) = Ret s evs ->
  exists s' evs', scan (ts_ops cstr_ops incs) cfg fuel masks (sc_make (ts_make (cstr_make text))) = Ret s' evs' /\ map element evs' = map element evs.
Proof. intros incs outcs m addr fuel masks text s evs Hcs Hb Hl cfg E. eapply cstr_scan; eauto. Qed.
Print Assumptions C55_cstring.

Definition C55_text : list N := str "<a b='&#228;'>x" ++ [0xC3; 0xA4] ++ str "</a>".
Example C55_case : whole_text UTF8 C55_text /\ Forall isByte C55_text /\
  (exists s evs, xml_scan UTF8 UTF8 100 (calls 6) C55_text = Ret s evs /\
     elements evs = [(EOpenTag, str "a"); (ETagAttribName, str "b"); (ETagAttribValue, [0xC3; 0xA4]); (EContent, str "x" ++ [0xC3; 0xA4]); (ECloseTag, str "a"); (EExit, [])]) /\
  (exists s evs, scan (ts_ops cptr_ops UTF8) (xml_config UTF8 UTF8 None 0) 100 (calls 6) (sc_make (ts_make (mkCptr (C55_text ++ [0]) 0))) = Ret s evs /\
     elements evs = [(EOpenTag, str "a"); (ETagAttribName, str "b"); (ETagAttribValue, [0xC3; 0xA4]); (EContent, str "x" ++ [0xC3; 0xA4]); (ECloseTag, str "a"); (EExit, [])]) /\
  (exists i s evs, istrm_make [mkRd (firstn 9 C55_text) false; mkRd (skipn 9 C55_text) false] 64 = Ret i tt /\
     scan (ts_ops istrm_ops UTF8) (xml_config UTF8 UTF8 None 0) 100 (calls 6) (sc_make (ts_make i)) = Ret s evs /\
     elements evs = [(EOpenTag, str "a"); (ETagAttribName, str "b"); (ETagAttribValue, [0xC3; 0xA4]); (EContent, str "x" ++ [0xC3; 0xA4]); (ECloseTag, str "a"); (EExit, [])]).
Proof.
  split.
  { unfold C55_text. cbv [str]. cbn. repeat (apply us_single; [reflexivity|]). apply (us_multi 0xC3 [0xA4]); [lia|reflexivity|reflexivity|].
    repeat (apply us_single; [reflexivity|]). constructor. }
  split; [repeat constructor|]. split; [eexists; eexists; split; vm_compute; reflexivity|].
  split; [eexists; eexists; split; vm_compute; reflexivity|]. eexists. eexists. eexists. split; [vm_compute; reflexivity|]. split; vm_compute; reflexivity.
Qed.
