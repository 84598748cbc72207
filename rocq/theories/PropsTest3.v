(** C64 for the results of elements, C86: tests/test_XMLPathSelect.cpp with any paths and any text. *)
From Coq Require Import Lia ZifyBool ZifyNat.
From Verif Require Import Base Iter CharMap Charset CharsetSpec TextScanner Ideal ReaderSim XmlScanner ReadSpec ScanSpec FuelMono PropsScan XmlSpec XmlRuns XmlTop PropsXml BytesSpec PropsBytes PropsSource PropsKinds
  XmlIter Names PathAtm PathSelect PathProg InspectSpec InspectSafe SelSafe AtmMemory AtmValue AtmPrint PropsAtmPrint Examples ExampleSpec ExampleProofs PropsExamples TestProgs TestSpec TestProgsProofs
  SelectTestSpec TestSelect TestSelectProofs.

(** ** C64: the results of elements, fetched with prefix or with postfix increments, for any paths and any elements in any order: there are finitely many, and nothing outside of the
    stacks of the selector is accessed. *)
Theorem C64_elements : forall cs ps, (forall n, In n (prog_names ps) -> name_read cs n) -> Forall (Forall op_fits) ps ->
  exists a s0, add_paths cs ps [] = Ret a tt /\ sel_new a = Ret s0 tt /\ forall evs, exists N s rs s' rs', length rs = length evs /\ length rs' = length evs /\
    forall f ff, (N <= f)%nat -> (N <= ff)%nat -> sel_run f ff a evs s0 = Ret s rs /\ sel_run_post f ff a evs s0 = Ret s' rs'.
Proof.
  intros cs ps Hn Hf. destruct (add_up cs ps [] up_new Hn Hf) as [a [E W]]. destruct (sel_new_safe a (up_nrm a W)) as [s0 [E0 S0]]. exists a, s0. split; [exact E|]. split; [exact E0|]. intros evs.
  destruct (run_total a (up_nrm a W) evs s0 S0) as [N1 [s [rs [_ [L1 R1]]]]]. destruct (run_post_total a (up_nrm a W) evs s0 S0) as [N2 [s' [rs' [_ [L2 R2]]]]].
  exists (N1 + N2)%nat, s, rs, s', rs'. split; [exact L1|]. split; [exact L2|]. intros f ff Hff Hff'. split; [apply R1; lia|apply R2; lia].
Qed.
Print Assumptions C64_elements.

Lemma integer_ok : forall z, number_says z (show_int z).
Proof.
  intros z Hz. change (2 ^ 31)%Z with 2147483648%Z in Hz. unfold show_int. destruct (Z.ltb_spec z 0).
  - replace z with (- Z.of_N (Z.abs_N z))%Z at 2 by lia. apply in_negative; [apply show_dec; change (2 ^ 64) with 18446744073709551616; lia|lia].
  - replace z with (Z.of_N (Z.to_N z)) at 2 by lia. apply in_natural. apply show_dec. change (2 ^ 64) with 18446744073709551616. lia.
Qed.
Lemma tries_ok : forall els rs, length els = length rs -> tries els rs (all_lines els rs).
Proof.
  induction els as [|[t v] els IH]; intros [|r rs] H; try discriminate; [constructor|]. unfold all_lines. cbn [combine flat_map fst snd]. unfold try_lines. cbn [fst snd]. rewrite <- !app_assoc. cbn [app]. rewrite flat_map_concat_map.
  apply (try_one t v els r rs (before_null v)); [apply before_null_says| |apply IH; cbn in H; congruence].
  clear. induction r as [|z r IH]; constructor; [|exact IH]. exists (show_int z). split; [apply integer_ok|reflexivity].
Qed.
Lemma tries_length : forall f ff a evs s s' rs, sel_run_post f ff a evs s = Ret s' rs -> length evs = length rs.
Proof.
  intros f ff a. induction evs as [|[t k] evs IH]; intros s s' rs H; cbn [sel_run_post] in H; [injection H as <- <-; reflexivity|].
  destruct (sel_element_post f ff a t (Some k) s) as [s1 r| | | |]; try discriminate. cbn [bind] in H. destruct (sel_run_post f ff a evs s1) as [s2 rs2| | | |] eqn:E; try discriminate. cbn [bind] in H. injection H as <- <-. cbn [length]. f_equal. eauto.
Qed.

(** ** C86. The scanner of the program *)
Definition latin_scan (fuel n : nat) (text : list N) := scan (ts_ops cptr_ops (IsoLatin 1)) (xml_config (IsoLatin 1) (IsoLatin 1) None 0) fuel (calls n) (sc_make (ts_make (mkCptr (text ++ [0]) 0))).
(** what is printed before the elements *)
Definition heading (adr : nat -> list N) (v : vatm) : list N := str "AUTOMATON:" ++ [10] ++ atm_print adr v ++ [10].

(** *** The automaton printed is the one the elements are selected with; the names printed are those the keys were made of. *)
Theorem C86_automaton : forall cs ps v, v_paths cs ps [] = Ret v tt -> add_paths cs ps [] = Ret (map fst v) tt /\
  Forall (fun s => match snd s, st_key (fst s) with Some n, Some k => static_key cs n = Ret tt k | None, None => True | _, _ => False end) v.
Proof.
  intros cs ps v E. split; [|eapply named_paths; [constructor|exact E]]. change (@nil pstate) with (map fst (@nil vstate)). rewrite paths_map, E. reflexivity.
Qed.
Print Assumptions C86_automaton.

(** *** Whatever paths and text are given, the program never reports a failure. If it returns, it has printed the automaton and lines for all elements up to the end of the text, with
    errors as elements. *)
Theorem C86_returns : forall adr ps fuel fs n text st sl put v, select_test adr ps fuel fs n text = Ret (st, sl, put) v -> v = SaysOk /\
  exists va a s0 evs ev s rs out, v_paths UTF8 ps [] = Ret va tt /\ add_paths UTF8 ps [] = Ret a tt /\ sel_new a = Ret s0 tt /\
    latin_scan fuel (S (length evs)) text = Ret s (evs ++ [ev]) /\ Forall (fun e => ev_type e <> EExit) evs /\ ev_type ev = EExit /\
    sel_run_post fs fs a (map visited evs) s0 = Ret sl rs /\ tries (map visited evs) rs out /\ put = heading adr va ++ out.
Proof.
  intros adr ps fuel fs n text st sl put v H. unfold select_test in H. destruct (v_paths UTF8 ps []) as [va []| | | |] eqn:Ea; try discriminate.
  destruct (sel_new (map fst va)) as [s0 []| | | |] eqn:E0; try discriminate. destruct (C86_automaton UTF8 ps va Ea) as [Eb _].
  apply (try_only (ts_ops cptr_ops (IsoLatin 1)) latin_config (map fst va)) in H. destruct H as [-> [evs [ev [s [rs [K1 [K2 [K3 [K4 [K5 [K6 K7]]]]]]]]]]]. split; [reflexivity|].
  exists va, (map fst va), s0, evs, ev, s, rs, (all_lines (map visited evs) rs). split; [reflexivity|]. split; [exact Eb|]. split; [exact E0|]. split; [exact K2|]. split; [exact K3|]. split; [exact K4|]. split; [exact K5|].
  split; [apply tries_ok; eapply tries_length; eauto|]. rewrite K6. reflexivity.
Qed.
Print Assumptions C86_returns.

(** *** For every text that is read to its end it returns and prints the elements of the text. *)
Theorem C86_prints : forall ps va text els, (forall n, In n (prog_names ps) -> name_read UTF8 n) -> Forall (Forall op_fits) ps -> v_paths UTF8 ps [] = Ret va tt ->
  Forall isByte text -> text_reads (letters (IsoLatin 1) text) (els ++ [(EExit, [])]) Ends ->
  exists N, forall adr fuel fs n, (3 * length text + 4 <= fuel)%nat -> (N <= fs)%nat -> (length els < n)%nat ->
    exists st sl a s0 rs out, add_paths UTF8 ps [] = Ret a tt /\ sel_new a = Ret s0 tt /\ select_test adr ps fuel fs n text = Ret (st, sl, heading adr va ++ out) SaysOk /\
      let said := map (fun e => (fst e, flat_map (written (IsoLatin 1) (IsoLatin 1) text) (snd e))) els in sel_run_post fs fs a said s0 = Ret sl rs /\ tries said rs out.
Proof.
  intros ps va text els Hn Hf Ev Hb H. destruct (C86_automaton UTF8 ps va Ev) as [Ea _]. set (a := map fst va) in *.
  destruct (add_up UTF8 ps [] up_new Hn Hf) as [a' [E' W]]. rewrite Ea in E'. injection E' as <-. destruct (sel_new_safe a (up_nrm a W)) as [s0 [E0 S0]].
  set (said := map (fun e => (fst e, flat_map (written (IsoLatin 1) (IsoLatin 1) text) (snd e))) els).
  destruct (run_post_total a (up_nrm a W) said s0 S0) as [N [sl [rs [_ [Lr R]]]]]. exists N. intros adr fuel fs n Hfuel Hfs Hlt.
  pose proof (text_exits _ _ _ H) as X. cbn [exits] in X. destruct X as [els0 [EX X]]. apply app_inj_tail in EX. destruct EX as [<- _].
  destruct (C59_charptr (IsoLatin 1) (IsoLatin 1) text _ _ eq_refl Hb I H) as [C1 _]. cbn [null_size repeat] in C1. destruct (C1 fuel Hfuel) as [s [evs [E1 E2]]].
  rewrite app_length, Nat.add_1_r in E1. unfold bytes_deliver in E2. rewrite map_app in E2. apply map_eq_app in E2. destruct E2 as [evs1 [evs2 [-> [E2 E3]]]]. destruct evs2 as [|ev [|? ?]]; try discriminate.
  cbn [map fst snd flat_map] in E3. injection E3 as F1 F2 F3.
  assert (V : map visited evs1 = said /\ Forall (fun e => ev_type e <> EExit) evs1).
  { unfold said. clear -E2 X. revert evs1 E2. induction X as [|[t v] els Ht X IH]; intros [|e evs] E; try discriminate; [split; constructor|]. cbn [map fst snd] in *. injection E as G1 G2 G3 G4.
    destruct (IH evs G4) as [I1 I2]. split; [unfold visited at 1; rewrite I1, G1, G2; reflexivity|]. constructor; [|exact I2]. rewrite G1. destruct t; discriminate. }
  destruct V as [V1 V2]. assert (Hlen : length els = length evs1) by (rewrite <- (map_length visited evs1), V1; unfold said; rewrite map_length; reflexivity). rewrite Hlen in E1, Hlt.
  pose proof (try_scan (ts_ops cptr_ops (IsoLatin 1)) latin_config a evs1 ev n fuel fs _ s 0%nat s0 sl rs (heading adr va) Hlt E1 V2 F1 ltac:(rewrite V1; apply R; assumption)) as T. rewrite V1 in T.
  eexists. exists sl, a, s0, rs, (all_lines said rs). split; [exact Ea|]. split; [exact E0|]. split; [|split; [apply R; assumption|apply tries_ok; congruence]].
  unfold select_test. rewrite Ev. fold a. rewrite E0. exact T.
Qed.
Print Assumptions C86_prints.

(** *** The paths of the program are among these, and what is printed for them does not depend on addresses. *)
Theorem C86_program : (forall n, In n (prog_names test_paths) -> name_read UTF8 n) /\ Forall (Forall op_fits) test_paths /\
  exists va, v_paths UTF8 test_paths [] = Ret va tt /\ length va = 50%nat /\ forall adr adr', heading adr va = heading adr' va.
Proof.
  split; [intros n H; cbn in H; repeat (destruct H as [<-|H]; [eexists; vm_compute; reflexivity|]); contradiction|]. split; [repeat constructor|].
  eexists. split; [vm_compute; reflexivity|]. split; [reflexivity|]. intros adr adr'. unfold heading.
  match goal with |- context [atm_print adr ?va] => rewrite (proj2 (C84_address va)) with (adr := adr) (adr' := adr') end; [reflexivity|]. repeat (constructor; [discriminate|]). constructor.
Qed.
Print Assumptions C86_program.

(* a text after which the scanner does not move *)
Lemma stuck : forall text s1, let next := nextItem (ts_ops cptr_ops (IsoLatin 1)) (xml_config (IsoLatin 1) (IsoLatin 1) None 0) in
  next 100%nat mask_all (sc_make (ts_make (mkCptr (text ++ [0]) 0))) = Ret s1 EErrorOccurred -> next 100%nat mask_all s1 = Ret s1 EErrorOccurred ->
  forall fuel n s evs, latin_scan fuel n text = Ret s evs -> Forall (fun e => ev_type e = EErrorOccurred) evs.
Proof.
  intros text s1 next H0 H1.
  assert (G : forall fuel s s' t, next 100%nat mask_all s = Ret s1 EErrorOccurred -> next fuel mask_all s = Ret s' t -> s' = s1 /\ t = EErrorOccurred).
  { intros fuel s s' t A B. pose proof (mono_nextItem (ts_ops cptr_ops (IsoLatin 1)) (xml_config (IsoLatin 1) (IsoLatin 1) None 0) 100 (100 + fuel) mask_all s ltac:(lia)) as M1.
    pose proof (mono_nextItem (ts_ops cptr_ops (IsoLatin 1)) (xml_config (IsoLatin 1) (IsoLatin 1) None 0) fuel (100 + fuel) mask_all s ltac:(lia)) as M2.
    fold next in M1, M2. rewrite A in M1. rewrite B in M2.
    destruct M1 as [M1|M1]; [discriminate|]. destruct M2 as [M2|M2]; [discriminate|]. rewrite <- M2 in M1. injection M1 as -> ->. split; reflexivity. }
  assert (K : forall n fuel s s' evs, next 100%nat mask_all s = Ret s1 EErrorOccurred -> scan (ts_ops cptr_ops (IsoLatin 1)) (xml_config (IsoLatin 1) (IsoLatin 1) None 0) fuel (calls n) s = Ret s' evs ->
    Forall (fun e => ev_type e = EErrorOccurred) evs).
  { induction n as [|n IH]; intros fuel s s' evs A B; [injection B as _ <-; constructor|]. change (calls (S n)) with (mask_all :: calls n) in B. cbn [scan] in B. fold next in B.
    destruct (next fuel mask_all s) as [s2 t| | | |] eqn:E; try discriminate. destruct (G _ _ _ _ A E) as [-> ->]. cbn [bind] in B.
    destruct (scan (ts_ops cptr_ops (IsoLatin 1)) (xml_config (IsoLatin 1) (IsoLatin 1) None 0) fuel (calls n) s1) as [s3 evs2| | | |] eqn:E2; try discriminate. cbn [bind] in B. injection B as _ <-.
    constructor; [reflexivity|]. exact (IH fuel s1 s3 evs2 H1 E2). }
  intros fuel n s evs. apply K. exact H0.
Qed.
(** *** With an error in the text the program either goes on and says in the end that everything is right, *)
Definition C86_paths : list (list pathop) := [[BTag (Some (str "a")); BOut 1]; [BFollow; BAttr (Some (str "c")); BOut (-2)]].
Theorem C86_error_refuted : exists text e st sl put, text_reads (letters (IsoLatin 1) text) [] (Broken e) /\ select_test (fun _ => []) C86_paths 100 100 20 text = Ret (st, sl, put) SaysOk.
Proof.
  exists (str "<?x ='a'?><a></a>"), ErrSyntaxToken. eexists. eexists. eexists. split; [|vm_compute; reflexivity].
  replace (letters (IsoLatin 1) (str "<?x ='a'?><a></a>")) with (str "<?x ='a'?><a></a>") by (vm_compute; reflexivity).
  apply (tx_fails [] [] (str "?x ='a'?><a></a>")); [constructor|apply longest_dec; reflexivity|]. apply mk_header; [reflexivity|]. apply hd_key. apply ky_next. apply ky_other; discriminate.
Qed.
Print Assumptions C86_error_refuted.
(** or it does not end: *)
Theorem C86_endless_refuted : exists text e, text_reads (letters (IsoLatin 1) text) [] (Broken e) /\ forall adr ps fuel fs n st v, select_test adr ps fuel fs n text <> Ret st v.
Proof.
  exists (str "x"), ErrExpectedOpenTag. split.
  - replace (letters (IsoLatin 1) (str "x")) with (str "x") by (vm_compute; reflexivity). apply (tx_bad [] (str "x")); [apply longest_dec; reflexivity|discriminate|discriminate].
  - intros adr ps fuel fs n [[st sl] put] v H. apply C86_returns in H. destruct H as [_ [va [a [s0 [evs [ev [s [rs [out [_ [_ [_ [K [_ [E _]]]]]]]]]]]]]]].
    assert (X : exists s1, let next := nextItem (ts_ops cptr_ops (IsoLatin 1)) (xml_config (IsoLatin 1) (IsoLatin 1) None 0) in
      next 100%nat mask_all (sc_make (ts_make (mkCptr (str "x" ++ [0]) 0))) = Ret s1 EErrorOccurred /\ next 100%nat mask_all s1 = Ret s1 EErrorOccurred).
    { eexists. split; [vm_compute; reflexivity|vm_compute; reflexivity]. }
    destruct X as [s1 [X1 X2]]. pose proof (stuck (str "x") s1 X1 X2 _ _ _ _ K) as F. apply Forall_app in F. destruct F as [_ F]. inversion F; subst. congruence.
Qed.
Print Assumptions C86_endless_refuted.

Example C86_case : (forall n, In n (prog_names C86_paths) -> name_read UTF8 n) /\ Forall (Forall op_fits) C86_paths /\ (exists va, v_paths UTF8 C86_paths [] = Ret va tt) /\
  text_reads (letters (IsoLatin 1) (str "<a c='5'>")) ([(EOpenTag, str "a"); (ETagAttribName, str "c"); (ETagAttribValue, str "5")] ++ [(EExit, [])]) Ends /\
  exists st, select_test (fun _ => []) C86_paths 100 100 10 (str "<a c='5'>") = Ret (st, str "AUTOMATON:" ++ [10] ++
    str "0:  ~1 /None (null)" ++ [10] ++ str "1:  ->2 ~4 /OpenTag 'a'" ++ [10] ++ str "2:  ~3 /None (null)" ++ [10] ++ str "3:  /None (null) =>1" ++ [10] ++
    str "4:  ->5 //Attribute 'c'" ++ [10] ++ str "5:  ~6 /None (null)" ++ [10] ++ str "6:  /AttributeValue (null) =>-2" ++ [10; 10] ++
    str "Try OpenTag 'a'" ++ [10] ++ str "Element 1: a" ++ [10] ++ str "Try TagAttribName 'c'" ++ [10] ++ str "Try TagAttribValue '5'" ++ [10] ++ str "Element -2: 5" ++ [10]) SaysOk.
Proof.
  split; [intros n H; cbn in H; repeat (destruct H as [<-|H]; [eexists; vm_compute; reflexivity|]); contradiction|].
  split; [repeat constructor; discriminate|]. split; [eexists; vm_compute; reflexivity|]. split; [|eexists; vm_compute; reflexivity].
  replace (letters (IsoLatin 1) (str "<a c='5'>")) with (str "<a c='5'>") by (vm_compute; reflexivity).
  apply (tx_text [] [] (str "a c='5'>") [(EOpenTag, str "a"); (ETagAttribName, str "c"); (ETagAttribValue, str "5")] false [] [(EExit, [])]); [constructor|apply longest_dec; reflexivity| |apply ct_end; reflexivity].
  apply mk_tag; [discriminate|discriminate|discriminate|].
  apply (tg_tag _ (str "a") (str " c='5'>") [(ETagAttribName, str "c"); (ETagAttribValue, str "5")] false (str ">") [] (Goes false [])).
  - apply (tr_end CName (str "a")); [apply longest_dec; reflexivity|discriminate].
  - reflexivity.
  - apply (ar_attr false (str " ") (str "c='5'>") [(ETagAttribName, str "c"); (ETagAttribValue, str "5")] false (str ">") []); [discriminate|apply longest_dec; reflexivity|reflexivity| |apply (ar_end false [] (str ">")); [constructor|reflexivity]].
    apply (tr_attr false _ (str "c") [] [] (str "'5'>") [(ETagAttribValue, str "5")]); [apply (tr_end CName (str "c")); [apply longest_dec; reflexivity|discriminate]|constructor|apply longest_dec; reflexivity|].
    apply (vr_quoted false 39 (str "5'>") (str "5") (str ">")); [reflexivity| |reflexivity]. apply (tr_end (CValue 39) (str "5")); [apply longest_dec; reflexivity|discriminate].
  - apply te_gt.
Qed.
