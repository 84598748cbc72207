(** C86: which numbers tests/test_XMLPathSelect.cpp prints for an element. *)
From Coq Require Import Lia ZifyBool ZifyNat.
From Verif Require Import Base Iter Charset CharsetSpec ReadSpec XmlScanner ScanSpec XmlSpec BytesSpec PropsBytes PropsKinds Names PathAtm PathSelect PathSpec PathProg PathDesc PathTrie PathBuild PathBuild2 PathBuild3 PathRun3 PathRun9 PathTags PathNames PathRun2 PathRun10
  InspectSpec PathDescSep AtmValue TestProgs SelectTestSpec TestSelect PropsPath PropsDesc ExampleSelect PropsTest3.

(** paths that do not end or go on with a close tag *)
Definition no_close (x : expr) : bool := forallb (fun ed => match e_op ed with SClose => false | _ => true end) (x_edges x).
Lemma close_step ed d ev : kind_of (fst ev) = KClose -> e_op ed <> SClose -> step_at ed d ev = false.
Proof. intros H Hn. unfold step_at. rewrite H. destruct (e_op ed); try contradiction; rewrite andb_false_r; reflexivity. Qed.
Lemma hits_close : forall evs x d i ev, no_close x = true -> nth_error evs i = Some ev -> kind_of (fst ev) = KClose -> hits_d x d evs i = O.
Proof.
  induction evs as [|ev0 l IH]; intros x d i ev Hx Hi Hk; destruct i as [|i]; cbn [nth_error hits_d] in *; try discriminate.
  - injection Hi as ->. unfold now, report_at. rewrite Hk. unfold no_close in Hx. destruct (x_edges x) as [|ed es]; [destruct (x_rep x); cbn [reports]; rewrite andb_false_r; reflexivity|].
    cbn [forallb] in Hx. apply andb_prop in Hx. destruct Hx as [Hx _]. rewrite close_step; [destruct es; [destruct (x_rep x)|]; reflexivity|exact Hk|destruct (e_op ed); discriminate].
  - assert (A : forall y d', no_close y = true -> hits_d y d' l i = O) by (intros y d' Hy; eapply IH; eauto).
    assert (Hw : no_close (wait_on x d ev0) = true) by (unfold no_close in *; rewrite wait_edges; exact Hx).
    destruct (depth_after d ev0); [destruct (_ || _)|]; rewrite ?(A _ _ Hw);
    (destruct (x_edges x) as [|ed es] eqn:E; [reflexivity|]; destruct (step_at ed d ev0); [|reflexivity];
     assert (Hr : no_close (rest_of x es) = true) by (unfold no_close in *; rewrite E in Hx; cbn [forallb rest_of x_edges] in *; apply andb_prop in Hx; apply Hx);
     destruct (kind_of (fst ev0)); rewrite ?(A _ _ Hr); reflexivity).
Qed.
Lemma visible_close E (evs : list event) i ev : nth_error evs i = Some ev -> kind_of (fst ev) = KClose -> exists ev', nth_error (visible E evs) i = Some ev' /\ kind_of (fst ev') = KClose.
Proof.
  intros H Hk. exists (blank1 (nth i (looks E evs (length evs)) true) ev). unfold visible. rewrite blank_nth, H. split; [reflexivity|].
  destruct (blank1_kind (nth i (looks E evs (length evs)) true) ev) as [->|(X & _)]; [exact Hk|]. rewrite X in Hk. discriminate.
Qed.

(** *** Which numbers are printed for an element, for all paths that do not look at close tags and all texts with tags opened and closed in order: those of C89. *)
Theorem C86_selects : forall ps va E text els, (forall n, In n (prog_names ps) -> usable UTF8 n) -> Forall (Forall op_fits) ps -> paths_of ps = Some E ->
  Forall (fun x => wf_expr_d x = true) E -> Forall (fun x => no_close x = true) E -> v_paths UTF8 ps [] = Ret va tt ->
  Forall isByte text -> text_reads (letters (IsoLatin 1) text) (els ++ [(EExit, [])]) Ends ->
  let said := map (fun e => (fst e, flat_map (written (IsoLatin 1) (IsoLatin 1) text) (snd e))) els in
  ordered PStart 0 said = true ->
  exists N rs, length rs = length said /\ (forall t i, (i < length said)%nat -> reported t rs i = hits_d_of t E 0 (visible E said) i) /\
    forall adr fuel fs n, (3 * length text + 4 <= fuel)%nat -> (N <= fs)%nat -> (length els < n)%nat ->
      exists st sl out, select_test adr ps fuel fs n text = Ret (st, sl, heading adr va ++ out) SaysOk /\ tries said rs out.
Proof.
  intros ps va E text els Hn Hf HE Hw Hc Ev Hb H said Ho.
  assert (Hn' : forall n, In n (prog_names ps) -> name_read UTF8 n) by (intros n Hi; exists n; apply (Hn n Hi)).
  destruct (C86_prints ps va text els Hn' Hf Ev Hb H) as (M & P). fold said in P.
  destruct (C89_exact UTF8 ps E said Hn HE Hw Ho) as (a & rs & EA & (m & s & S1) & L & R).
  assert (Hcl : Forall2 (fun (e : etype * list N) (r : list Z) => fst e = ECloseTag \/ fst e = ECloseTagIm -> r = []) said rs).
  { assert (G : forall (l : list event) (q : list (list Z)), length q = length l -> (forall i ev, nth_error l i = Some ev -> kind_of (fst ev) = KClose -> nth i q [] = []) ->
      Forall2 (fun (e : etype * list N) (r : list Z) => fst e = ECloseTag \/ fst e = ECloseTagIm -> r = []) l q).
    { induction l as [|e l IH]; intros [|r q] Hl Hq; try discriminate; constructor.
      - intro He. apply (Hq O e eq_refl). destruct He as [-> | ->]; reflexivity.
      - apply IH; [cbn in Hl; congruence|]. intros i ev Hi Hk. exact (Hq (S i) ev Hi Hk). }
    apply G; [exact L|]. intros i ev Hi Hk. destruct (nth i rs []) as [|t r] eqn:Er; [reflexivity|exfalso].
    assert (Hlt : (i < length said)%nat) by (eapply nth_error_lt; exact Hi). specialize (R t i Hlt). unfold reported in R. rewrite Er in R. cbn [count_occ] in R. destruct (Z.eq_dec t t); [|contradiction].
    destruct (visible_close E said i ev Hi Hk) as (ev' & Hv & Hk'). unfold hits_d_of in R. rewrite list_sum_0 in R; [discriminate|].
    intros x Hx. destruct (_ =? _)%Z; [|reflexivity]. eapply hits_close; eauto. rewrite Forall_forall in Hc. apply Hc. exact Hx. }
  exists (M + m)%nat, rs. split; [exact L|]. split; [exact R|].
  intros adr fuel fs n H1 H2 H3. destruct (P adr fuel fs n H1 ltac:(lia) H3) as (st & sl & a' & s0 & rs' & out & A1 & A2 & A3 & A4 & A5).
  rewrite EA in A1. injection A1 as <-. specialize (S1 (S fs) fs ltac:(lia) ltac:(lia)). unfold select in S1. rewrite A2 in S1. cbn [bind] in S1.
  pose proof (run_post fs fs a said s0 s rs S1 Hcl) as Er. rewrite Er in A4. injection A4 as <- <-. exists st, s, out. split; [exact A3|exact A5].
Qed.
Print Assumptions C86_selects.
(** The paths of the program are among these. *)
Theorem C86_program_selects : (forall n, In n (prog_names test_paths) -> usable UTF8 n) /\ exists E, paths_of test_paths = Some E /\ Forall (fun x => wf_expr_d x = true) E /\ Forall (fun x => no_close x = true) E /\
  map x_type E = [6; 7; 8; 9; 10; 11; 12; 13; 14; 15; 16; 17; 18]%Z.
Proof.
  split; [intros n Hn; apply good_usable; [reflexivity|]; apply good_nameb_ok; revert n Hn; apply forallb_forall; vm_compute; reflexivity|].
  eexists. split; [vm_compute; reflexivity|]. split; [repeat constructor|]. split; [repeat constructor|reflexivity].
Qed.
Print Assumptions C86_program_selects.
(** A part of the text of the program: [<Y><mm u='8'>16</mm></Y><Y><z><zz e='2' u='8'>18</zz></z></Y>]. The numbers of the paths of the program for the elements: *)
Definition own_text : list event :=
  [(EOpenTag, str "Y"); (EOpenTag, str "mm"); (ETagAttribName, str "u"); (ETagAttribValue, str "8"); (EContent, str "16"); (ECloseTag, str "mm"); (ECloseTag, str "Y");
   (EOpenTag, str "Y"); (EOpenTag, str "z"); (EOpenTag, str "zz"); (ETagAttribName, str "e"); (ETagAttribValue, str "2"); (ETagAttribName, str "u"); (ETagAttribValue, str "8");
   (EContent, str "18"); (ECloseTag, str "zz"); (ECloseTag, str "z"); (ECloseTag, str "Y")].
Example C86_selects_case : ordered PStart 0 own_text = true /\ exists E, paths_of test_paths = Some E /\
  map (hits_d_of 16 E 0 (visible E own_text)) (seq 0 18) = [0;0;0;1;0;0;0;0;0;0;0;0;0;1;0;0;0;0]%nat /\
  map (hits_d_of 18 E 0 (visible E own_text)) (seq 0 18) = [0;0;0;0;0;0;0;0;0;0;0;0;0;0;1;0;0;0]%nat.
Proof. split; [vm_compute; reflexivity|]. eexists. split; [vm_compute; reflexivity|]. split; vm_compute; reflexivity. Qed.
