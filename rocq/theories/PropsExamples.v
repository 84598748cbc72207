(** C74: what the example programs print. *)
From Coq Require Import Lia ZifyBool ZifyNat.
From Verif Require Import Base Iter CharMap Charset CharsetSpec CharsetProofs TextScanner Ideal ReaderSim XmlScanner ReadSpec ScanSpec FuelMono ScanTop PropsScan XmlSpec PropsXml BytesSpec BytesProofs PropsBytes PropsSource
  IterSim ChunkTop CstrSim PrintChars PathAtm PathSelect PathSpec PathProg PathRun9 PropsPath PropsPipe XmlIter Names Examples ExampleSpec ExampleProofs ExampleSelect.

(** how the loops end: with the end of the text or an exception *)
Definition ends_as (o : outcome) (e : ended) : Prop :=
  match o with Ends => e = EndOfLoop | Broken _ => exists msg, e = Thrown (str "xml error: " ++ msg) | Endless => False end.
(** the element at the end of the text is not printed *)
Definition last_element (o : outcome) : list (etype * list N) := match o with Ends => [(EExit, [])] | _ => [] end.

Lemma example_scan : forall text els o, Forall isByte text -> o <> Endless -> text_reads (letters UTF8 text) (els ++ last_element o) o ->
  exists e, ends_as o e /\ forall fuel, (3 * length text + 4 <= fuel)%nat -> exists s evs ev, xml_scan UTF8 UTF8 fuel (calls (S (length els))) text = Ret s (evs ++ [ev]) /\
    map visited evs = as_bytes text els /\ Forall (fun e => goes_on (ev_type e) = true) evs /\ goes_on (ev_type ev) = false /\ end_with ev = e.
Proof.
  intros text els o Hb Ho H. pose proof (text_exits _ _ _ H) as X.
  assert (Hgo : forall evs, noexit els -> map element evs = bytes_deliver UTF8 UTF8 text els -> map visited evs = as_bytes text els /\ Forall (fun e => goes_on (ev_type e) = true) evs).
  { clear. intros evs Hn He. revert evs He. induction Hn as [|[t v] els Ht Hn IH]; intros [|e evs] He; try discriminate; [split; constructor|]. cbn [bytes_deliver map] in He. injection He as E1 E2 E3 E4.
    destruct (IH evs E4) as [I1 I2]. split; [cbn [map as_bytes]; unfold visited at 1; rewrite I1, E1, E2; reflexivity|]. constructor; [|exact I2]. cbn [fst] in Ht. rewrite E1. destruct t; try reflexivity; discriminate Ht. }
  destruct o as [|e|]; [| |congruence]; cbn [last_element exits] in *.
  - exists EndOfLoop. split; [reflexivity|]. destruct X as [els0 [E X]]. apply app_inj_tail in E. destruct E as [<- _].
    intros fuel Hf. destruct (proj1 (C59_bytes_elements UTF8 UTF8 text _ _ eq_refl Hb H) fuel Hf) as [s [evs [E1 E2]]].
    rewrite app_length, Nat.add_1_r in E1. unfold bytes_deliver in E2. rewrite map_app in E2. apply map_eq_app in E2. destruct E2 as [evs1 [evs2 [-> [E2 E3]]]]. destruct evs2 as [|ev [|? ?]]; try discriminate.
    cbn [map fst snd flat_map] in E3. injection E3 as F1 F2 F3. exists s, evs1, ev. split; [exact E1|]. destruct (Hgo evs1 X E2) as [G1 G2]. split; [exact G1|]. split; [exact G2|]. unfold end_with. rewrite F1. split; reflexivity.
  - rewrite app_nil_r in *. destruct (C59_bytes_errors UTF8 UTF8 text _ _ eq_refl Hb H) as [item [E1 _]]. exists (Thrown (str "xml error: " ++ before_null item)). split; [eexists; reflexivity|].
    intros fuel Hf. destruct (E1 fuel Hf) as [s [evs [E2 E3]]]. apply map_eq_app in E3. destruct E3 as [evs1 [evs2 [-> [E3 E4]]]]. destruct evs2 as [|ev [|? ?]]; try discriminate.
    cbn [map] in E4. injection E4 as F1 F2 F3. exists s, evs1, ev. split; [exact E2|]. destruct (Hgo evs1 X E3) as [G1 G2]. split; [exact G1|]. split; [exact G2|]. unfold end_with. rewrite F1, F2. split; reflexivity.
Qed.
Lemma cstring_scan : forall text els o, Forall isByte text -> N.of_nat (length text) + 16 < 2 ^ 32 -> o <> Endless -> text_reads (letters UTF8 text) (els ++ last_element o) o ->
  exists e, ends_as o e /\ forall fuel, (3 * length text + 4 <= fuel)%nat -> exists s evs ev,
    scan (ts_ops cstr_ops UTF8) utf8_config fuel (calls (S (length els))) (sc_make (ts_make (cstr_make text))) = Ret s (evs ++ [ev]) /\
    map visited evs = as_bytes text els /\ Forall (fun e => goes_on (ev_type e) = true) evs /\ goes_on (ev_type ev) = false /\ end_with ev = e.
Proof.
  intros text els o Hb Hl Ho H. destruct (example_scan text els o Hb Ho H) as [e [He S]]. exists e. split; [exact He|]. intros fuel Hf. destruct (S fuel Hf) as [s [evs [ev [E1 [E2 [E3 [E4 E5]]]]]]].
  destruct (C55_cstring UTF8 UTF8 None 0 fuel _ text s _ eq_refl Hb Hl E1) as [s' [evs' [F1 F2]]].
  rewrite map_app in F2. apply map_eq_app in F2. destruct F2 as [evs1 [evs2 [-> [F2 F3]]]]. destruct evs2 as [|ev2 [|? ?]]; try discriminate. cbn [map] in F3. injection F3 as K1 K2 K3.
  exists s', evs1, ev2. split; [exact F1|]. split; [rewrite <- E2; apply elements_visited; exact F2|]. split; [eapply elements_go; eauto|]. split; [congruence|]. rewrite <- E5. apply elements_end. unfold element. congruence.
Qed.

(** ** examples/XMLScanner.cpp: for every text of bytes a line for each of the elements read, up to the end of the text or the first error. *)
Theorem C74_scanner : forall text els o, Forall isByte text -> N.of_nat (length text) + 16 < 2 ^ 32 -> o <> Endless -> text_reads (letters UTF8 text) (els ++ last_element o) o ->
  exists e, ends_as o e /\ forall fuel n, (3 * length text + 4 <= fuel)%nat -> (length els < n)%nat ->
    exists st, scanner_example fuel n text = Ret (st, flat_map element_line (as_bytes text els)) e.
Proof.
  intros text els o Hb Hl Ho H. destruct (cstring_scan text els o Hb Hl Ho H) as [e [He S]]. exists e. split; [exact He|]. intros fuel n Hf Hn. destruct (S fuel Hf) as [s [evs [ev [E1 [E2 [E3 [E4 E5]]]]]]].
  assert (Hlen : length els = length evs) by (rewrite <- (map_length visited evs), E2; unfold as_bytes; rewrite map_length; reflexivity). rewrite Hlen in E1, Hn.
  eexists. unfold scanner_example. rewrite (print_scan _ _ evs ev n fuel _ s 0%nat [] Hn E1 E3 E4), E2, E5. reflexivity.
Qed.
Print Assumptions C74_scanner.

(** ** examples/XMLScanner_chunkwise.cpp: the same for a text in chunks, the last one with a null character at its end. All calls before the last one return false. *)
Theorem C74_chunks : forall chunks c els o, let text := concat chunks ++ c in
  Forall isByte text -> complete_text UTF8 text -> o <> Endless -> text_reads (letters UTF8 text) (els ++ last_element o) o ->
  exists e, ends_as o e /\ forall fuel n, (3 * length text + 13 <= fuel)%nat -> (length els < n)%nat ->
    exists st m, (m <= length chunks)%nat /\ chunk_example fuel n (chunks ++ [c ++ [0]]) = Ret (st, flat_map element_line (as_bytes text els)) (repeat None m ++ [Some e]).
Proof.
  intros chunks c els o text Hb Hc Ho H. destruct (example_scan text els o Hb Ho H) as [e [He S]]. exists e. split; [exact He|]. intros fuel n Hf Hn.
  destruct (S (fuel - 9)%nat ltac:(lia)) as [s [evs [ev [E1 [E2 [E3 [E4 E5]]]]]]].
  assert (Hlen : length els = length evs) by (rewrite <- (map_length visited evs), E2; unfold as_bytes; rewrite map_length; reflexivity). rewrite Hlen in E1, Hn.
  destruct (SourceSim.src_ir_scan UTF8 UTF8 None 0 eq_refl _ _ text s _ Hb E1) as [t Et].
  destruct (example_chunks chunks c evs ev (fuel - 9) n t Hn Hb Hc Et E3 E4) as [m [st [Hm G]]]. replace (fuel - 9 + 9)%nat with fuel in G by lia.
  exists st, m. split; [exact Hm|]. rewrite G, E2, E5. reflexivity.
Qed.
Print Assumptions C74_chunks.

(** ** examples/XMLPathSelect.cpp: the attributes "name" and "street" of tags "address" not inside of other tags *)
Theorem C74_select : forall text els o, Forall isByte text -> N.of_nat (length text) + 16 < 2 ^ 32 -> o <> Endless -> text_reads (letters UTF8 text) (els ++ last_element o) o ->
  closes_open 0 els = true ->
  exists e fs, ends_as o e /\ forall fuel n f, (3 * length text + 4 <= fuel)%nat -> (length els < n)%nat -> (fs <= f)%nat ->
    exists st, select_example fuel f n text = Ret (st, address_lines (as_bytes text els) (addresses [] None (as_bytes text els))) e.
Proof.
  intros text els o Hb Hl Ho H Hc. destruct (cstring_scan text els o Hb Hl Ho H) as [e [He S]].
  assert (Hcl : closes_open 0 (els ++ last_element o) = true).
  { revert Hc. generalize 0%nat. clear. induction els as [|[t v] els IH]; intros n Hc; [destruct o; reflexivity|]. cbn [app closes_open] in *. destruct t; auto; destruct n; auto. }
  destruct (text_selects text _ _ _ H Hcl) as [a [Ea [fs [sl Hs]]]].
  assert (HA : forall t u x y, addresses t u (x ++ y) = addresses t u x ++ skipn (length x) (addresses t u (x ++ y))).
  { clear. intros t u x. revert t u. induction x as [|[k v] x IH]; intros t u y; [reflexivity|]. cbn [app addresses length skipn]. f_equal. destruct k; apply IH. }
  exists e, fs. split; [exact He|]. intros fuel n f Hf Hn Hfs. destruct (S fuel Hf) as [s [evs [ev [E1 [E2 [E3 [E4 E5]]]]]]].
  assert (Hlen : length els = length evs) by (rewrite <- (map_length visited evs), E2; unfold as_bytes; rewrite map_length; reflexivity). rewrite Hlen in E1, Hn.
  specialize (Hs (Datatypes.S f) f ltac:(lia) Hfs). unfold select in Hs. destruct (sel_new a) as [sl0 []| | | |] eqn:En; cbn [bind] in Hs; try discriminate Hs.
  assert (Hrun : exists sl1, sel_run (Datatypes.S f) f a (as_bytes text els) sl0 = Ret sl1 (addresses [] None (as_bytes text els))).
  { unfold as_bytes in Hs |- *. rewrite map_app in Hs. rewrite (HA [] None) in Hs.
    set (D := map (fun e0 : etype * list N => (fst e0, flat_map (written UTF8 UTF8 text) (snd e0))) els) in *.
    assert (Hr : forall x y s0 s1 rs, sel_run (Datatypes.S f) f a (x ++ y) s0 = Ret s1 rs -> exists s2, sel_run (Datatypes.S f) f a x s0 = Ret s2 (firstn (length x) rs)).
    { clear. induction x as [|[t v] x IH]; intros y s0 s1 rs E; [exists s0; reflexivity|]. cbn [app sel_run] in *.
      destruct (sel_element (Datatypes.S f) f a t (Some v) s0) as [s3 r| | | |]; cbn [bind] in *; try discriminate.
      destruct (sel_run (Datatypes.S f) f a (x ++ y) s3) as [s4 rs4| | | |] eqn:E4; cbn [bind] in E; try discriminate. injection E as <- <-.
      destruct (IH _ _ _ _ E4) as [s5 E5]. rewrite E5. cbn [bind]. eexists. reflexivity. }
    destruct (Hr _ _ _ _ _ Hs) as [s2 E]. exists s2. rewrite E. f_equal. rewrite <- (addresses_length D [] None), firstn_app, firstn_all, Nat.sub_diag, app_nil_r. reflexivity. }
  destruct Hrun as [sl1 Hrun]. pose proof (run_post _ _ _ _ _ _ _ Hrun (addresses_close _ [] None)) as Hp. rewrite <- E2 in Hp at 1.
  pose proof (select_scan _ _ a evs ev n fuel f _ s 0%nat sl0 sl1 _ [] Hn E1 E3 E4 Hp) as G.
  rewrite E2, E5, lines_numbers in G by apply addresses_numbers.
  eexists. unfold select_example. rewrite Ea, En. unfold select_all in G. rewrite G. reflexivity.
Qed.
Print Assumptions C74_select.

(** ** examples/TextScanner.cpp: a line with a number for each character before the first null character *)
Theorem C74_text : forall text fuel, Forall isByte text -> N.of_nat (length text) + 16 < 2 ^ 32 -> (length text < fuel)%nat ->
  exists t lines, text_example fuel text = Ret (t, flat_map (fun l => l ++ [10]) lines) tt /\ Forall2 hex_number lines (until_null (map snd (characters UTF8 text))).
Proof.
  intros text fuel Hb Hl Hf. assert (Hl' : N.of_nat (length text) < 2 ^ 32) by (change (2 ^ 32) with 4294967296 in *; lia).
  destruct (text_loop_ok fuel text 0 (ts_make (cstr_make text)) text [] Hl (creads_make UTF8 text Hb Hl') (or_introl (N.le_refl _)) Hf) as [t E].
  set (cl := until_null (map u_val (units UTF8 text))) in E.
  assert (Ec : until_null (map snd (characters UTF8 text)) = cl).
  { unfold cl. rewrite characters_ok by auto. rewrite map_map. reflexivity. }
  rewrite Ec. exists t, (map (show_unsigned 16) cl). split.
  - unfold text_example. rewrite E. cbn [app]. do 2 f_equal. clear. induction cl as [|c cl IH]; [reflexivity|]. cbn [map flat_map]. rewrite IH. reflexivity.
  - assert (Hcl : Forall (fun c => c < 2 ^ 32) cl).
    { unfold cl. assert (Hu : Forall (fun c => c < 2 ^ 32) (map u_val (units UTF8 text))) by (apply Forall_map; apply units_bound; auto).
      revert Hu. generalize (map u_val (units UTF8 text)). clear. induction l as [|c l IH]; intros H; [constructor|]. inversion H; subst. cbn [until_null]. destruct (c =? 0); constructor; auto. }
    clear - Hcl. induction Hcl as [|c cl Hc H IH]; [constructor|]. constructor; [apply show_hex; exact Hc|exact IH].
Qed.
Print Assumptions C74_text.

(** ** Cases *)
(** the addresses of a text: an address inside of another tag is not printed. The readings of the texts are those of C59. *)
Definition C74_address : list N := str "<address name='x' nr='4' street='yz'></address>".
Definition C74_elements : list (etype * list N) :=
  [(EOpenTag, str "address"); (ETagAttribName, str "name"); (ETagAttribValue, str "x"); (ETagAttribName, str "nr"); (ETagAttribValue, str "4"); (ETagAttribName, str "street"); (ETagAttribValue, str "yz"); (ECloseTag, str "address")].
Lemma ascii_sequences : forall l, forallb (fun b => b <? 192) l = true -> utf8_sequences l.
Proof. induction l as [|b l IH]; intros H; [constructor|]. cbn [forallb] in H. apply andb_prop in H. destruct H as [H1 H2]. apply us_single; [lia|auto]. Qed.
Example C74_case_reads : letters UTF8 C74_address = C74_address /\ text_reads C74_address (C74_elements ++ last_element Ends) Ends /\ closes_open 0 C74_elements = true /\
  Forall isByte C74_address /\ complete_text UTF8 C74_address /\ as_bytes C74_address C74_elements = C74_elements.
Proof.
  split; [vm_compute; reflexivity|]. split.
  - refine (tx_text [] [] (tl C74_address) [(EOpenTag, str "address"); (ETagAttribName, str "name"); (ETagAttribValue, str "x"); (ETagAttribName, str "nr"); (ETagAttribValue, str "4"); (ETagAttribName, str "street"); (ETagAttribValue, str "yz")] false (str "</address>") [(ECloseTag, str "address"); (EExit, [])] Ends _ _ _ _).
    + constructor.
    + apply longest_dec. reflexivity.
    + apply mk_tag; [discriminate|discriminate|discriminate|].
      refine (tg_tag _ (str "address") _ [(ETagAttribName, str "name"); (ETagAttribValue, str "x"); (ETagAttribName, str "nr"); (ETagAttribValue, str "4"); (ETagAttribName, str "street"); (ETagAttribValue, str "yz")] false (62 :: str "</address>") [] _ _ _ _ (te_gt _)); [| |].
      * apply (tr_end CName (str "address")); [apply longest_dec; reflexivity|discriminate].
      * reflexivity.
      * apply (ar_attr false (str " ") (str "name='x' nr='4' street='yz'></address>") [(ETagAttribName, str "name"); (ETagAttribValue, str "x")] false (str " nr='4' street='yz'></address>") [(ETagAttribName, str "nr"); (ETagAttribValue, str "4"); (ETagAttribName, str "street"); (ETagAttribValue, str "yz")]); [discriminate|apply longest_dec; reflexivity|reflexivity| |].
        { apply (tr_attr false _ (str "name") [] [] (str "'x' nr='4' street='yz'></address>") [(ETagAttribValue, str "x")]); [apply (tr_end CName (str "name")); [apply longest_dec; reflexivity|discriminate]|constructor|apply longest_dec; reflexivity|].
          apply (vr_quoted false 39 (str "x' nr='4' street='yz'></address>") (str "x")); [reflexivity| |reflexivity]. apply (tr_end (CValue 39) (str "x")); [apply longest_dec; reflexivity|discriminate]. }
        apply (ar_attr false (str " ") (str "nr='4' street='yz'></address>") [(ETagAttribName, str "nr"); (ETagAttribValue, str "4")] false (str " street='yz'></address>") [(ETagAttribName, str "street"); (ETagAttribValue, str "yz")]); [discriminate|apply longest_dec; reflexivity|reflexivity| |].
        { apply (tr_attr false _ (str "nr") [] [] (str "'4' street='yz'></address>") [(ETagAttribValue, str "4")]); [apply (tr_end CName (str "nr")); [apply longest_dec; reflexivity|discriminate]|constructor|apply longest_dec; reflexivity|].
          apply (vr_quoted false 39 (str "4' street='yz'></address>") (str "4")); [reflexivity| |reflexivity]. apply (tr_end (CValue 39) (str "4")); [apply longest_dec; reflexivity|discriminate]. }
        apply (ar_attr false (str " ") (str "street='yz'></address>") [(ETagAttribName, str "street"); (ETagAttribValue, str "yz")] false (str "></address>") []); [discriminate|apply longest_dec; reflexivity|reflexivity| |].
        { apply (tr_attr false _ (str "street") [] [] (str "'yz'></address>") [(ETagAttribValue, str "yz")]); [apply (tr_end CName (str "street")); [apply longest_dec; reflexivity|discriminate]|constructor|apply longest_dec; reflexivity|].
          apply (vr_quoted false 39 (str "yz'></address>") (str "yz")); [reflexivity| |reflexivity]. apply (tr_end (CValue 39) (str "yz")); [apply longest_dec; reflexivity|discriminate]. }
        apply (ar_end false []); [constructor|reflexivity].
    + apply (ct_markup false [] (str "/address>") [(ECloseTag, str "address")] false []); [apply longest_dec; reflexivity| |apply ct_end; reflexivity].
      apply mk_close; [reflexivity|]. apply (cl_close _ (str "address") []); [|constructor]. apply (tr_end CName (str "address")); [apply longest_dec; reflexivity|discriminate].
  - split; [reflexivity|]. split; [vm_compute; repeat constructor|]. split; [intros _; apply ascii_sequences; vm_compute; reflexivity|vm_compute; reflexivity].
Qed.
Example C74_case_run : exists st1 st2 st3,
  scanner_example 300 20 C74_address = Ret (st1, flat_map element_line C74_elements) EndOfLoop /\
  chunk_example 300 20 [str "<addre"; []; str "ss name='x' n"; str "r='4' street='yz'></address" ; str ">" ++ [0]] = Ret (st2, flat_map element_line C74_elements) [None; None; None; None; Some EndOfLoop] /\
  select_example 300 50 20 C74_address = Ret (st3, str "1: TagAttribValuex" ++ [10] ++ str "2: TagAttribValueyz" ++ [10]) EndOfLoop.
Proof. do 3 eexists. split; [vm_compute; reflexivity|]. split; vm_compute; reflexivity. Qed.
(** without the null character the end of the text is not seen: the last call returns false as well *)
Example C74_case_no_null : exists st, chunk_example 300 20 [C74_address] = Ret (st, flat_map element_line C74_elements) [None].
Proof. eexists. vm_compute. reflexivity. Qed.
(** UTF-8: a, LATIN SMALL LETTER A WITH DIAERESIS, EURO SIGN *)
Example C74_case_text : exists t, text_example 20 [97; 0xC3; 0xA4; 0xE2; 0x82; 0xAC; 0; 98] = Ret (t, str "61" ++ [10] ++ str "e4" ++ [10] ++ str "20ac" ++ [10]) tt.
Proof. eexists. vm_compute. reflexivity. Qed.

(** ** The exception does not tell the error: its text are the bytes of the item read when the error was found. The
    name of an attribute for one text, and nothing at all for two others with different errors. *)
Theorem C74_message_refuted : exists s1 s2 s3 ev1 ev2 ev3 st1 st2 st3,
  xml_scan UTF8 UTF8 100 (calls 2) (str "<a b/>") = Ret s1 ev1 /\ map element ev1 = [(EOpenTag, str "a", Ok); (EErrorOccurred, str "b", ErrExpectedEqual)] /\
  xml_scan UTF8 UTF8 100 (calls 1) (str "<") = Ret s2 ev2 /\ map element ev2 = [(EErrorOccurred, [], ErrExpectedTagAttribute)] /\
  xml_scan UTF8 UTF8 100 (calls 2) (str "<a /b>") = Ret s3 ev3 /\ map element ev3 = [(EOpenTag, str "a", Ok); (EErrorOccurred, [], ErrExpectedTagEnd)] /\
  scanner_example 100 20 (str "<a b/>") = Ret st1 (Thrown (str "xml error: b")) /\
  scanner_example 100 20 (str "<") = Ret st2 (Thrown (str "xml error: ")) /\
  scanner_example 100 20 (str "<a /b>") = Ret st3 (Thrown (str "xml error: ")).
Proof. do 9 eexists. do 8 (split; [vm_compute; reflexivity|]). vm_compute. reflexivity. Qed.
Print Assumptions C74_message_refuted.
