(** C82, C83: the test programs with texts and files of arbitrary bytes. *)
From Coq Require Import Lia ZifyBool ZifyNat.
From Verif Require Import Base Iter CharMap Charset CharsetSpec TextScanner Ideal ReaderSim XmlScanner ReadSpec ScanSpec PropsScan XmlSpec XmlRuns XmlTop PropsXml BytesSpec PropsBytes PropsSource PropsKinds
  XmlIter Names Examples ExampleSpec ExampleProofs PropsExamples ClientSpec TestProgs TestSpec TestProgsProofs.

(** ** C82. tests/test_XMLScanner.cpp *)
(** The text is written with ten characters in each line. This reads only the text and its terminator exactly if the last line has ten or nine characters. *)
Theorem C82_dump : forall fuel text, Forall (fun c => c <> 0) text -> N.of_nat (length text) < 2 ^ 31 -> (length text < fuel)%nat ->
  (dump fuel text = Undef <-> ~ In (length text mod 10)%nat [0; 9]%nat) /\
  (In (length text mod 10)%nat [0; 9]%nat -> exists lines, dump fuel text = Ret (concat lines) tt /\ dump_says text 0 lines).
Proof.
  intros fuel text Hz Hl Hf. pose proof (dump_ok fuel text Hz Hl Hf) as D. unfold fits in D. cbn [In].
  destruct (Nat.eqb_spec (length text mod 10) 0) as [E|E]; [|destruct (Nat.eqb_spec (length text mod 10) 9) as [E9|E9]]; cbn [orb] in D.
  - destruct D as [lines [D1 D2]]. split; [|intros _; exists lines; auto]. rewrite D1. split; [discriminate|]. intros H. exfalso. apply H. left. auto.
  - destruct D as [lines [D1 D2]]. split; [|intros _; exists lines; auto]. rewrite D1. split; [discriminate|]. intros H. exfalso. apply H. right. left. auto.
  - split; [split; [intros _; intuition congruence|auto]|intros H; intuition congruence].
Qed.
Print Assumptions C82_dump.
Example C82_dump_case : dump 100 (str "<a>" ++ [10] ++ str "1234567890</a>" ++ [13]) = Ret (str "0: [<a>.123456]" ++ [10] ++ str "10: [7890</a>..]" ++ [10]) tt.
Proof. vm_compute. reflexivity. Qed.
(** The text of the program has 135 characters: bytes behind the string literal are read before anything is scanned. *)
Theorem C82_refuted : forall fuel n, (14 <= fuel)%nat -> scanner_test fuel n scanner_text = Undef.
Proof.
  intros fuel n Hf. unfold scanner_test. assert (E : dump fuel scanner_text = Undef); [|rewrite E; reflexivity].
  do 14 (destruct fuel as [|fuel]; [lia|]). vm_compute. reflexivity.
Qed.
Print Assumptions C82_refuted.

(** how the loop ends: the message of the exception is the item of the element *)
Definition loop_end (o : outcome) (e : ended) : Prop :=
  match o with Ends => e = EndOfLoop | Broken _ => exists msg, e = Thrown msg | Endless => False end.
(** For every other text, whatever is in it: the lines with the text, an empty one, and a line with the positions, type and content of every element. *)
Theorem C82_lines : forall text els o, Forall isByte text -> Forall (fun c => c <> 0) text -> N.of_nat (length text) < 2 ^ 31 -> In (length text mod 10)%nat [0; 9]%nat ->
  o <> Endless -> text_reads (letters (IsoLatin 1) text) (els ++ last_element o) o ->
  exists e, loop_end o e /\ forall fuel n, (3 * length text + 4 <= fuel)%nat -> (length els < n)%nat ->
    exists st dumped evs lines, scanner_test fuel n text = Ret (st, concat dumped ++ [10] ++ concat lines) e /\ dump_says text 0 dumped /\
      Forall2 line_says (filter (fun e => has_line (ev_type e)) evs) lines /\
      map element evs = bytes_deliver (IsoLatin 1) (IsoLatin 1) text els /\
      exists s ev, scan (ts_ops cptr_ops (IsoLatin 1)) (xml_config (IsoLatin 1) (IsoLatin 1) None 0) fuel (calls (S (length els))) (sc_make (ts_make (mkCptr (text ++ [0]) 0))) = Ret s (evs ++ [ev]).
Proof.
  intros text els o Hb Hz Hl Hm Ho H. pose proof (text_exits _ _ _ H) as X.
  assert (Hgo : forall evs, noexit els -> map element evs = bytes_deliver (IsoLatin 1) (IsoLatin 1) text els -> Forall (fun e => goes_on (ev_type e) = true) evs).
  { clear. intros evs Hn He. revert evs He. induction Hn as [|[t v] els Ht Hn IH]; intros [|e evs] He; try discriminate; [constructor|]. cbn [bytes_deliver map] in He. injection He as E1 E2 E3 E4.
    constructor; [|exact (IH evs E4)]. cbn [fst] in Ht. rewrite E1. destruct t; try reflexivity; discriminate Ht. }
  assert (Run : forall evs ev fuel n s, (3 * length text + 4 <= fuel)%nat -> (length els < n)%nat ->
     scan (ts_ops cptr_ops (IsoLatin 1)) (xml_config (IsoLatin 1) (IsoLatin 1) None 0) fuel (calls (S (length els))) (sc_make (ts_make (mkCptr (text ++ [0]) 0))) = Ret s (evs ++ [ev]) ->
     noexit els -> map element evs = bytes_deliver (IsoLatin 1) (IsoLatin 1) text els -> goes_on (ev_type ev) = false ->
     exists st dumped evs lines, scanner_test fuel n text = Ret (st, concat dumped ++ [10] ++ concat lines) (end_at ev) /\ dump_says text 0 dumped /\
      Forall2 line_says (filter (fun e => has_line (ev_type e)) evs) lines /\
      map element evs = bytes_deliver (IsoLatin 1) (IsoLatin 1) text els /\
      exists s ev, scan (ts_ops cptr_ops (IsoLatin 1)) (xml_config (IsoLatin 1) (IsoLatin 1) None 0) fuel (calls (S (length els))) (sc_make (ts_make (mkCptr (text ++ [0]) 0))) = Ret s (evs ++ [ev])).
  { intros evs ev fuel n s Hf Hn E Hne Hel Hev. destruct (proj2 (C82_dump fuel text Hz Hl ltac:(lia)) Hm) as [dumped [D1 D2]].
    assert (Hlen : length els = length evs) by (rewrite <- (map_length element evs), Hel; unfold bytes_deliver; rewrite map_length; reflexivity).
    pose proof (scan_tokpos _ _ _ _ _ _ _ (ts_pos_bound cptr_ops (IsoLatin 1)) E) as HT. apply Forall_app in HT. destruct HT as [HT _].
    pose proof E as E'. rewrite Hlen in E', Hn.
    destruct (positions_scan _ _ evs ev n fuel _ s 0%nat (concat dumped ++ endl) Hn E' (Hgo evs Hne Hel) Hev (ts_pos_bound cptr_ops (IsoLatin 1)) HT) as [st [lines [P1 P2]]].
    exists st, dumped, evs, lines. split; [|split; [exact D2|split; [exact P2|split; [exact Hel|eauto]]]].
    unfold scanner_test. rewrite D1. cbn [omap bind fst snd]. unfold scanner_start, latin_config. rewrite P1, <- app_assoc. reflexivity. }
  destruct (C59_charptr (IsoLatin 1) (IsoLatin 1) text _ _ eq_refl Hb I H) as [C1 [C2 _]]. cbn [null_size repeat] in C1, C2.
  destruct o as [|e|]; [| |congruence]; cbn [last_element exits] in *.
  - exists EndOfLoop. split; [reflexivity|]. destruct X as [els0 [E X]]. apply app_inj_tail in E. destruct E as [<- _].
    intros fuel n Hf Hn. destruct (C1 fuel Hf) as [s [evs [E1 E2]]].
    rewrite app_length, Nat.add_1_r in E1. unfold bytes_deliver in E2. rewrite map_app in E2. apply map_eq_app in E2. destruct E2 as [evs1 [evs2 [-> [E2 E3]]]]. destruct evs2 as [|ev [|? ?]]; try discriminate.
    cbn [map fst snd flat_map] in E3. injection E3 as F1 F2 F3. replace EndOfLoop with (end_at ev) by (unfold end_at; rewrite F1; reflexivity).
    apply (Run evs1 ev fuel n s Hf Hn E1 X E2). rewrite F1. reflexivity.
  - rewrite app_nil_r in *. destruct (C2 e eq_refl) as [item E1]. exists (Thrown (before_null item)). split; [eexists; reflexivity|].
    intros fuel n Hf Hn. destruct (E1 fuel Hf) as [s [evs [E2 E3]]]. apply map_eq_app in E3. destruct E3 as [evs1 [evs2 [-> [E3 E4]]]]. destruct evs2 as [|ev [|? ?]]; try discriminate.
    cbn [map] in E4. injection E4 as F1 F2 F3. replace (Thrown (before_null item)) with (end_at ev) by (unfold end_at; rewrite F1, F2; reflexivity).
    apply (Run evs1 ev fuel n s Hf Hn E2 X E3). rewrite F1. reflexivity.
Qed.
Print Assumptions C82_lines.
Example C82_case_reads : let text := str "   <a b >" in letters (IsoLatin 1) text = text /\ text_reads text [(EOpenTag, str "a"); (ETagAttribName, str "b")] (Broken ErrExpectedEqual) /\ (length text mod 10 = 9)%nat /\
  Forall isByte text /\ Forall (fun c => c <> 0) text.
Proof.
  cbv zeta. split; [vm_compute; reflexivity|]. split; [|split; [reflexivity|split; repeat constructor; discriminate]].
  apply (tx_fails (str "   ") [] (str "a b >")); [apply all_dec; reflexivity|apply longest_dec; reflexivity|]. apply mk_tag; [discriminate|discriminate|discriminate|].
  apply (tg_attrs _ (str "a") (str " b >")); [apply (tr_end CName (str "a")); [apply longest_dec; reflexivity|discriminate]|reflexivity|].
  apply (ar_fails false (str " ") (str "b >")); [discriminate|apply longest_dec; reflexivity|reflexivity|].
  apply (tr_noequal false _ (str "b") (str " ") (str ">")); [apply (tr_end CName (str "b")); [apply longest_dec; reflexivity|discriminate]|discriminate|apply longest_dec; reflexivity|discriminate].
Qed.
Example C82_case_run : exists st1 st2,
  scanner_test 100 20 (str "   <a b >") = Ret (st1, str "0: [   <a b >.]" ++ [10; 10] ++ str "4:2 element (OpenTag)open tag: a" ++ [10] ++ str "6:2 element (TagAttribName)attribute name: b" ++ [10]) (Thrown (str "b")) /\
  scanner_test 100 20 (str "<a b='1'>hello</a>" ++ [10]) = Ret (st2, str "0: [<a b='1'>h]" ++ [10] ++ str "10: [ello</a>..]" ++ [10; 10] ++
    str "1:2 element (OpenTag)open tag: a" ++ [10] ++ str "3:2 element (TagAttribName)attribute name: b" ++ [10] ++ str "6:2 element (TagAttribValue)attribute value: 1" ++ [10] ++
    str "9:6 element (Content)content: hello" ++ [10] ++ str "16:2 element (CloseTag)close tag: a" ++ [10] ++ str "18:2 element (Content)content: " ++ [10; 10]) EndOfLoop.
Proof. do 2 eexists. split; vm_compute; reflexivity. Qed.

(** ** C83. tests/readStdinIterator.cpp *)
(** The loop of the program counts the bytes before the first null character or the end of the file. *)
Theorem C83_loop : forall file fuel, (length file < fuel)%nat -> exists i, stdin_test fuel file = Ret i (length (before_null file)).
Proof.
  assert (L : forall l fuel i c n, (S (length l) < fuel)%nat -> in_reads i l -> exists i1, stdin_loop fuel n (i, c) = Ret i1 (n + length (before_null (c :: l)))%nat).
  { induction l as [|b l IH]; intros fuel i c n Hf Hi; (destruct fuel as [|fuel]; [cbn [length] in Hf; lia|]); cbn [stdin_loop init_deref snd bind before_null].
    - destruct (c =? 0); [eexists; rewrite Nat.add_0_r; reflexivity|]. destruct (getchar_end i Hi) as [i1 [E _]]. unfold init_incr. cbn [fst]. rewrite E. cbn [bind].
      destruct fuel as [|fuel]; [cbn [length] in Hf; lia|]. cbn [stdin_loop init_deref snd bind N.eqb length]. eexists. rewrite Nat.add_1_r. reflexivity.
    - destruct (c =? 0); [eexists; rewrite Nat.add_0_r; reflexivity|]. destruct (getchar_next i b l Hi) as [i1 [E [Hi1 _]]]. unfold init_incr. cbn [fst]. rewrite E. cbn [bind].
      cbn [length] in Hf. destruct (IH fuel i1 b (S n) ltac:(lia) Hi1) as [i2 E2]. exists i2. rewrite E2. cbn [before_null length]. f_equal. lia. }
  intros file fuel Hf. unfold stdin_test, in_begin, init_incr. cbn [fst].
  destruct file as [|c l].
  - destruct (getchar_end (in_new []) (in_start _)) as [i1 [E _]]. rewrite E. cbn [bind]. destruct fuel as [|fuel]; [cbn [length] in Hf; lia|]. eexists. reflexivity.
  - destruct (getchar_next (in_new (c :: l)) c l (in_start _)) as [i1 [E [Hi1 _]]]. rewrite E. cbn [bind]. cbn [length] in Hf. destruct (L l fuel i1 c 0%nat ltac:(lia) Hi1) as [i2 E2]. exists i2. exact E2.
Qed.
Print Assumptions C83_loop.
Example C83_loop_case : exists i, stdin_test 10 (str "<a>" ++ [0; 98]) = Ret i 3%nat.
Proof. eexists. vm_compute. reflexivity. Qed.

(** The iterator after [k] increments: the byte [k] of the file, and a null character behind the last one. *)
Fixpoint in_steps (k : nat) (i : init) : out init unit := match k with O => Ret i tt | S k => let! (i, _) := init_incr i in in_steps k i end.
Lemma in_steps_go : forall k i, in_steps k i = in_go k i.
Proof. induction k as [|k IH]; intros i; cbn [in_steps in_go]; [reflexivity|]. destruct (init_incr i); cbn [bind]; auto. Qed.
Theorem C83_bytes : forall file k, (k <= length file)%nat -> exists i0 i, in_begin file = Ret i0 tt /\ in_steps k i0 = Ret i tt /\ init_deref i = Ret i (nth k file 0).
Proof.
  intros file k Hk. destruct (in_at file k Hk) as [i0 [i [E0 [E1 E2]]]]. exists i0, i. split; [exact E0|]. rewrite in_steps_go. split; [exact E1|]. unfold init_deref. rewrite E2. reflexivity.
Qed.
Print Assumptions C83_bytes.
(** One increment more reads memory of the buffer that is not initialised or behind it, *)
Theorem C83_behind_undefined : forall file i0, in_begin file = Ret i0 tt ->
  (in_steps (S (length file)) i0 = Undef <-> file <> [] /\ (N.of_nat (length file) <= 8192 \/ N.of_nat (length file) mod 8192 = 0)).
Proof.
  intros file i0 E. rewrite in_steps_go, (in_behind file i0 E). destruct in_chunk_range as [C1 C2]. unfold in_max in C2.
  assert (Hm : N.of_nat (length file mod in_chunk) = N.of_nat (length file) mod 8192) by (rewrite Nat2N.inj_mod, C2; reflexivity).
  split; intros [H1 H2]; (split; [exact H1|]); destruct H2; [left|right|left|right]; lia.
Qed.
Print Assumptions C83_behind_undefined.
(** or delivers a byte of the chunk before again. *)
Theorem C83_behind_stale : forall file i0, in_begin file = Ret i0 tt -> 8192 < N.of_nat (length file) -> N.of_nat (length file) mod 8192 <> 0 ->
  exists i, in_steps (S (length file)) i0 = Ret i tt /\ init_deref i = Ret i (nth (N.to_nat (N.of_nat (length file) - 8192)) file 0).
Proof.
  intros file i0 E H1 H2. rewrite in_steps_go. destruct in_chunk_range as [C1 C2]. unfold in_max in C2.
  assert (Hm : N.of_nat (length file mod in_chunk) = N.of_nat (length file) mod 8192) by (rewrite Nat2N.inj_mod, C2; reflexivity).
  destruct (in_behind_value file i0 E ltac:(lia) ltac:(lia)) as [i [F1 F2]]. exists i. split; [exact F1|]. unfold init_deref. rewrite F2.
  replace (length file - in_chunk)%nat with (N.to_nat (N.of_nat (length file) - 8192)) by lia. reflexivity.
Qed.
Print Assumptions C83_behind_stale.
Example C83_case : exists i0 i, in_begin (str "<a>") = Ret i0 tt /\ in_steps 2 i0 = Ret i tt /\ init_deref i = Ret i 62 /\ in_steps 4 i0 = Undef.
Proof. do 2 eexists. split; [vm_compute; reflexivity|]. split; [vm_compute; reflexivity|]. split; vm_compute; reflexivity. Qed.
(** Therefore it is no iterator for the scanner: the scanner goes on behind the null character at the end of a text. *)
Theorem C83_scanner_refuted : exists file i0 s evs, in_begin file = Ret i0 tt /\ xml_scan UTF8 UTF8 100 (calls 3) file = Ret s evs /\
  scan (ts_ops init_ops UTF8) (xml_config UTF8 UTF8 None 0) 100 (calls 3) (sc_make (ts_make i0)) = Undef.
Proof. exists (str "<a></a>"). do 3 eexists. split; [vm_compute; reflexivity|]. split; vm_compute; reflexivity. Qed.
Print Assumptions C83_scanner_refuted.
