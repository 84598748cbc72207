(** Properties of several ranges of a path and of ranges without end: C90. *)
From Coq Require Import Lia ZifyBool ZifyNat.
From Verif Require Import Base Charset CharsetSpec ReadSpec XmlScanner DocSpec DocCheck PathAtm PathSelect PathSpec PathProg PathRun1 PathRun3 PathRun8 PathRun9 PathBuild3 PathNames
  PathMatch PathTags PathContext PathAfter ParseTop PropsPath.

(** The range of a call: the first index and the one the range ends before, -1 for a range without end *)
Definition call_range (o : pathop) : option (Z * Z) :=
  match o with
  | BTo j => if (j <? 2 ^ 31 - 1)%Z then Some (0, if (0 <=? j) then j + 1 else -1)%Z else None
  | BFrom i => Some (i, 2 ^ 31 - 1)%Z
  | BRange i j => if (j <? 2 ^ 31 - 1)%Z then Some (i, if (0 <=? j) then j + 1 else -1)%Z else None
  | BIndex i => if (i <? 2 ^ 31 - 1)%Z then Some (i, i + 1)%Z else None
  | _ => None
  end.
(** The range kept after some calls: the first call sets it. A later call changes the end, if its own is smaller, and otherwise the start, if its own is larger.
    With the end -1 there is no range. *)
Fixpoint kept (b e : Z) (os : list pathop) : option (Z * Z) :=
  match os with
  | [] => Some (b, e)
  | o :: os => match call_range o with
               | None => None
               | Some (b', e') => if (e =? -1)%Z then kept b' e' os else if (e' <? e)%Z then kept b e' os else kept (Z.max b b') e os
               end
  end.
(** whether the content with the index [k] is reported with the range *)
Definition within (b e : Z) (k : Z) : bool := (e =? -1)%Z || (b - 1 <=? 2 * k)%Z && (2 * k <=? e - 2)%Z.

Lemma call_op o b e q : call_range o = Some (b, e) -> pp_op o q = Some (pp_ranged b e q, []).
Proof.
  intro H. destruct o; cbn [call_range] in H; try discriminate; cbn [pp_op]; try (match type of H with (if ?c then _ else _) = _ => destruct c eqn:C end; [|discriminate]);
    injection H as <- <-; reflexivity.
Qed.
Definition as_range (b e : Z) : option (Z * Z) := if (e =? -1)%Z then None else Some (b, e).
Lemma kept_ops os2 : forall os b e b' e' ed rp fo, kept b e os = Some (b', e') ->
  pp_ops (os ++ os2) (mkPp ed rp fo (as_range b e)) = pp_ops os2 (mkPp ed rp fo (as_range b' e')).
Proof.
  induction os as [|o os IH]; intros b e b' e' ed rp fo H; cbn [kept] in H; [injection H as <- <-; reflexivity|].
  destruct (call_range o) as [[b1 e1]|] eqn:C; [|discriminate]. cbn [app pp_ops]. rewrite (call_op o b1 e1 _ C). unfold pp_ranged. cbn [pp_edges pp_rep pp_follow pp_range].
  assert (R : forall q, match pp_ops (os ++ os2) q with Some F => Some ([] ++ F) | None => None end = pp_ops (os ++ os2) q) by (intro q; destruct (pp_ops (os ++ os2) q); reflexivity).
  rewrite R. unfold as_range at 1. destruct (e =? -1)%Z eqn:E.
  - change (if (e1 =? -1)%Z then None else Some (b1, e1)) with (as_range b1 e1). apply IH. exact H.
  - destruct (e1 <? e)%Z.
    + change (if (e1 =? -1)%Z then None else Some (b, e1)) with (as_range b e1). apply IH. exact H.
    + assert (X : Some (Z.max b1 b, e) = as_range (Z.max b b1) e) by (unfold as_range; rewrite E, Z.max_comm; reflexivity). rewrite X. apply IH. exact H.
Qed.
Lemma kept_names : forall os b e r, kept b e os = Some r -> flat_map op_names os = [].
Proof.
  induction os as [|o os IH]; intros b e r H; [reflexivity|]. cbn [kept flat_map] in *. destruct (call_range o) as [[b1 e1]|] eqn:C; [|discriminate].
  assert (N : op_names o = []) by (destruct o; try discriminate C; reflexivity). rewrite N. cbn [app].
  destruct (e =? -1)%Z; [|destruct (e1 <? e)%Z]; eapply IH; exact H.
Qed.
Lemma hits_unranged t deep : forall l i d, (i < length l)%nat ->
  hits (mkExpr [] RContent deep None t) d l i = if content_at deep d l i then 1%nat else 0%nat.
Proof.
  induction l as [|ev l IH]; intros i d Hi; [cbn in Hi; lia|]. destruct i as [|i].
  - cbn [hits]. unfold now, report_at. cbn [x_edges x_follow x_rep x_range range_now]. unfold content_at. cbn [nth_error firstn levels]. rewrite andb_true_r. reflexivity.
  - cbn [length] in Hi. cbn [hits]. unfold transient. cbn [x_edges x_rep]. rewrite Nat.add_0_r, depth_level. rewrite content_S.
    destruct (level_after d (kind_of (fst ev))) as [d'|] eqn:E; [|reflexivity].
    unfold wait_on. cbn [x_edges]. unfold report_at. cbn [x_follow x_rep x_range x_type].
    destruct (near d deep && reports RContent (kind_of (fst ev))); cbn [range_next]; rewrite IH by lia; reflexivity.
Qed.

(** The content of the root element (or [deep], of all its descendants) with any number of range calls in a row. Exactly the content with an index [within] the range [kept] is reported.
    It is missing: that the content reported is what each of the calls alone reports, and that an end of -1 leaves the start. Both is wrong. *)
Theorem C90_kept_partial : forall cs m deep os b e t root l i, t <> 0%Z -> (forall n, m = Some n -> usable cs n) -> kept 0 (-1) os = Some (b, e) ->
  ordered PStart 0 ((EOpenTag, root) :: l) = true -> (i < length l)%nat -> levels 0 (firstn i l) <> None ->
  exists a rs, add_paths cs [[BTag m] ++ follow_call deep ++ [BContent] ++ os ++ [BOut t]] [] = Ret a tt /\ selects a ((EOpenTag, root) :: l) rs /\
    reported t rs (S i) = if names m root && content_at deep 0 l i && within b e (Z.of_nat (before deep 0 l i)) then 1%nat else 0%nat.
Proof.
  intros cs m deep os b e t root l i Ht Hm Ho Hd Hi Hl. set (p := [BTag m] ++ follow_call deep ++ [BContent] ++ os ++ [BOut t]).
  set (x := mkExpr [mkEdge SOpen false m] RContent deep (as_range b e) t).
  assert (Hp : paths_of [p] = Some [x]).
  { apply Z.eqb_neq in Ht. unfold p. cbn [paths_of]. destruct deep; cbn [follow_call app pp_ops pp_op];
      [change (pp_range _) with (as_range 0 (-1))|change (pp_range _) with (as_range 0 (-1))].
    all: cbn [pp_root pp_edges pp_rep pp_follow pp_range]. all: change (@None (Z * Z)) with (as_range 0 (-1)). all: rewrite (kept_ops [BOut t] os 0 (-1) b e _ _ _ Ho).
    all: cbn [pp_ops pp_op]. all: rewrite Ht. all: reflexivity. }
  assert (Hne : match m with Some [] => false | _ => true end = true) by (destruct m as [[|c n]|]; try reflexivity; exfalso; exact (usable_ne _ _ (Hm [] eq_refl) eq_refl)).
  destruct (C36_programs cs [p] [x] ((EOpenTag, root) :: l)) as (a & rs & EA & S1 & L1 & R1); [|exact Hp| |exact Hd|].
  - intros n Hn. unfold prog_names, p in Hn. cbn [flat_map] in Hn. rewrite app_nil_r, !flat_map_app, (kept_names os _ _ _ Ho), !in_app_iff in Hn. destruct Hn as [Hn|[Hn|Hn]].
    + cbn [flat_map op_names] in Hn. destruct m as [m|]; [|destruct Hn]. cbn [app In] in Hn. destruct Hn as [<-|[]]. apply Hm. reflexivity.
    + destruct deep; destruct Hn.
    + cbn in Hn. intuition.
  - constructor; [|constructor]. unfold wf_expr, x. cbn [x_edges x_rep x_follow x_type wf_edges e_op e_name andb]. rewrite Hne. apply Z.eqb_neq in Ht. rewrite Ht. reflexivity.
  - exists a, rs. split; [exact EA|]. split; [exact S1|]. rewrite R1 by (cbn [length]; apply -> Nat.succ_lt_mono; exact Hi). unfold hits_of. cbn [map list_sum fold_right].
    assert (Et : (x_type x =? t)%Z = true) by apply Z.eqb_refl. rewrite Et, Nat.add_0_r. unfold x. rewrite hits_root by (auto; reflexivity). cbn [snd].
    destruct (names m root); [|reflexivity]. cbn [andb]. unfold as_range, within. destruct (e =? -1)%Z eqn:E.
    + rewrite hits_unranged by exact Hi. cbn [orb]. rewrite andb_true_r. reflexivity.
    + rewrite hits_range by exact Hi. cbn [orb]. set (k := Z.of_nat (before deep 0 l i)).
      assert (E1 : (b - 2 * k <=? 1)%Z = (b - 1 <=? 2 * k)%Z) by lia. assert (E2 : (2 <=? e - 2 * k)%Z = (2 * k <=? e - 2)%Z) by lia. rewrite E1, E2, andb_assoc. reflexivity.
Qed.
Print Assumptions C90_kept_partial.
Example C90_kept_case : kept 0 (-1) [BFrom 1; BTo 3; BFrom 2] = Some (2, 4)%Z /\ kept 0 (-1) [BRange 1 (-1); BIndex 2; BRange 1 6] = Some (2, 3)%Z /\
  usable UTF8 (str "a") /\ ordered PStart 0 ((EOpenTag, str "a") :: numbers) = true /\ levels 0 (firstn 3 numbers) = Some 0%nat /\
  content_at false 0 numbers 3 = true /\ before false 0 numbers 3 = 1%nat /\ within 2 4 1 = true /\ content_at false 0 numbers 6 = true /\ within 2 4 (Z.of_nat (before false 0 numbers 6)) = false.
Proof.
  split; [reflexivity|]. split; [reflexivity|]. split; [apply good_usable; [reflexivity|apply good_nameb_ok; vm_compute; reflexivity]|]. repeat (split; [vm_compute; reflexivity|]). vm_compute. reflexivity.
Qed.

(** A lower and an upper bound given with two calls, in any order, build the same automaton as one call with both, for paths without other ranges before. *)
Definition is_range (o : pathop) : bool := match o with BTo _ | BFrom _ | BRange _ _ | BIndex _ => true | _ => false end.
Lemma op_end cs o p a a' p' : is_range o = false -> pe_op cs o p a = Ret a' p' -> pe_end p' = pe_end p.
Proof.
  intros Ho H. assert (D : forall op v p a a' p', pe_doSelect cs op v p a = Ret a' p' -> pe_end p' = pe_end p).
  { clear. intros op v p a a' p' H. unfold pe_doSelect in H. apply bind_ret in H. destruct H as (s1 & k & _ & H). apply bind_ret in H. destruct H as (s2 & i & _ & H).
    injection H as _ <-. reflexivity. }
  destruct o; try discriminate Ho; cbn [pe_op] in H.
  - unfold pe_selectTag, pe_selectCloseTag in H. exact (D _ _ _ _ _ _ H).
  - unfold pe_selectTag, pe_selectCloseTag in H. exact (D _ _ _ _ _ _ H).
  - unfold pe_selectAttribute in H. apply bind_ret in H. destruct H as (s1 & p1 & H1 & H2). injection H2 as _ <-. cbn [pe_output pe_end]. exact (D _ _ _ _ _ _ H1).
  - unfold pe_ifAttribute in H. apply bind_ret in H. destruct H as (s1 & p1 & H1 & H2). rewrite (D _ _ _ _ _ _ H2). exact (D _ _ _ _ _ _ H1).
  - injection H as _ <-. reflexivity.
  - injection H as _ <-. reflexivity.
  - unfold pe_assignType in H. apply bind_ret in H. destruct H as (s1 & p1 & _ & H2). injection H2 as _ <-. reflexivity.
Qed.
Lemma ops_end cs : forall os p a a' p', existsb is_range os = false -> pe_ops cs os p a = Ret a' p' -> pe_end p' = pe_end p.
Proof.
  induction os as [|o os IH]; intros p a a' p' Ho H; cbn [pe_ops existsb] in *; [injection H as _ <-; reflexivity|]. apply orb_false_elim in Ho. destruct Ho as [Ho1 Ho2].
  apply bind_ret in H. destruct H as (a1 & p1 & H1 & H2). rewrite (IH _ _ _ _ Ho2 H2). exact (op_end _ _ _ _ _ _ Ho1 H1).
Qed.
Lemma bind_ext_ret {S A B} (m : out S A) (k k' : S -> A -> out S B) : (forall s x, m = Ret s x -> k s x = k' s x) -> bind m k = bind m k'.
Proof. intro H. destruct m; cbn [bind]; auto. Qed.
Theorem C90_bounds : forall cs os1 os2 i j a, existsb is_range os1 = false -> (0 <= i < 2 ^ 31)%Z -> (0 <= j < 2 ^ 31 - 1)%Z ->
  add_paths cs [os1 ++ [BFrom i; BTo j] ++ os2] a = add_paths cs [os1 ++ [BRange i j] ++ os2] a /\
  add_paths cs [os1 ++ [BTo j; BFrom i] ++ os2] a = add_paths cs [os1 ++ [BRange i j] ++ os2] a.
Proof.
  intros cs os1 os2 i j a Ho Hi Hj. change (2 ^ 31)%Z with 2147483648%Z in *.
  assert (G : forall p a, pe_end p = (-1)%Z -> pe_ops cs ([BFrom i; BTo j] ++ os2) p a = pe_ops cs ([BRange i j] ++ os2) p a /\ pe_ops cs ([BTo j; BFrom i] ++ os2) p a = pe_ops cs ([BRange i j] ++ os2) p a).
  { clear -Hi Hj. intros p a He. cbn [app pe_ops pe_op]. unfold pe_TO, pe_FROM, pe_RANGE, pe_doCount, pe_doStart, int_max.
    replace (0 <=? j)%Z with true by lia. replace (j =? 2147483647)%Z with false by lia. unfold pe_opt. cbn [bind].
    assert (R : pe_doRange i (j + 1) p = mkPe (pe_idx p) i (j + 1) (pe_follow p) (pe_print p)) by (unfold pe_doRange; rewrite He; reflexivity). rewrite R. split.
    - assert (F : pe_doRange 0 (j + 1) (pe_doRange i 2147483647 p) = mkPe (pe_idx p) i (j + 1) (pe_follow p) (pe_print p)); [|rewrite F; reflexivity].
      unfold pe_doRange. rewrite He, Z.eqb_refl. cbn [pe_end pe_start pe_idx pe_follow pe_print]. change (2147483647 =? -1)%Z with false. destruct (j + 1 <? 2147483647)%Z eqn:L; [reflexivity|].
      replace (i <? 0)%Z with false by lia. f_equal. lia.
    - assert (F : pe_doRange i 2147483647 (pe_doRange 0 (j + 1) p) = mkPe (pe_idx p) i (j + 1) (pe_follow p) (pe_print p)); [|rewrite F; reflexivity].
      unfold pe_doRange. rewrite He, Z.eqb_refl. cbn [pe_end pe_start pe_idx pe_follow pe_print]. replace (j + 1 =? -1)%Z with false by lia. replace (2147483647 <? j + 1)%Z with false by lia.
      destruct (0 <? i)%Z eqn:L; [reflexivity|]. f_equal. lia. }
  cbn [add_paths]. rewrite !(pe_ops_app cs os1). split; f_equal; apply bind_ext_ret; intros s p Hp; apply G; exact (ops_end _ _ _ _ _ _ Ho Hp).
Qed.
Print Assumptions C90_bounds.
Example C90_bounds_case : exists a, add_paths UTF8 [[BTag (nm "a"); BContent] ++ [BTo 5; BFrom 2] ++ [BOut 7]] [] = Ret a tt /\ existsb is_range [BTag (nm "a"); BContent] = false.
Proof. eexists. split; [vm_compute; reflexivity|reflexivity]. Qed.

(** [RANGE(0,8)] and then [RANGE(5,7)] reports content that [RANGE(5,7)] alone does not. *)
Definition with_ranges (os : list pathop) : list pathop := [BTag (nm "a"); BContent] ++ os ++ [BOut 7].
Theorem C90_twice_refuted : exists r1 r2 a a2 rs rs2 evs i,
  add_paths UTF8 [with_ranges [r1; r2]] [] = Ret a tt /\ add_paths UTF8 [with_ranges [r2]] [] = Ret a2 tt /\ ordered PStart 0 evs = true /\
  selects a evs rs /\ selects a2 evs rs2 /\ reported 7 rs i = 1%nat /\ reported 7 rs2 i = 0%nat.
Proof.
  exists (BRange 0 8), (BRange 5 7). eexists. eexists. eexists. eexists. exists ((EOpenTag, str "a") :: numbers), 1%nat. split; [vm_compute; reflexivity|]. split; [vm_compute; reflexivity|]. split; [vm_compute; reflexivity|].
  split; [apply (selects_run 100) with (s := match select 100 100 (match add_paths UTF8 [with_ranges [BRange 0 8; BRange 5 7]] [] with Ret a _ => a | _ => [] end) ((EOpenTag, str "a") :: numbers) with Ret s _ => s | _ => sample_state end); vm_compute; reflexivity|].
  split; [apply (selects_run 100) with (s := match select 100 100 (match add_paths UTF8 [with_ranges [BRange 5 7]] [] with Ret a _ => a | _ => [] end) ((EOpenTag, str "a") :: numbers) with Ret s _ => s | _ => sample_state end); vm_compute; reflexivity|].
  split; vm_compute; reflexivity.
Qed.
Print Assumptions C90_twice_refuted.
(** [RANGE(5,-1)] reports content that [FROM(5)] does not, and [INDEX(-2)] reports content. *)
Theorem C90_unlimited_refuted : exists a a2 a3 rs rs2 rs3 evs i,
  add_paths UTF8 [with_ranges [BRange 5 (-1)]] [] = Ret a tt /\ add_paths UTF8 [with_ranges [BFrom 5]] [] = Ret a2 tt /\ add_paths UTF8 [with_ranges [BIndex (-2)]] [] = Ret a3 tt /\
  ordered PStart 0 evs = true /\ selects a evs rs /\ selects a2 evs rs2 /\ selects a3 evs rs3 /\ reported 7 rs i = 1%nat /\ reported 7 rs2 i = 0%nat /\ reported 7 rs3 i = 1%nat.
Proof.
  eexists. eexists. eexists. eexists. eexists. eexists. exists ((EOpenTag, str "a") :: numbers), 1%nat. split; [vm_compute; reflexivity|]. split; [vm_compute; reflexivity|]. split; [vm_compute; reflexivity|]. split; [vm_compute; reflexivity|].
  split; [apply (selects_run 100) with (s := match select 100 100 (match add_paths UTF8 [with_ranges [BRange 5 (-1)]] [] with Ret a _ => a | _ => [] end) ((EOpenTag, str "a") :: numbers) with Ret s _ => s | _ => sample_state end); vm_compute; reflexivity|].
  split; [apply (selects_run 100) with (s := match select 100 100 (match add_paths UTF8 [with_ranges [BFrom 5]] [] with Ret a _ => a | _ => [] end) ((EOpenTag, str "a") :: numbers) with Ret s _ => s | _ => sample_state end); vm_compute; reflexivity|].
  split; [apply (selects_run 100) with (s := match select 100 100 (match add_paths UTF8 [with_ranges [BIndex (-2)]] [] with Ret a _ => a | _ => [] end) ((EOpenTag, str "a") :: numbers) with Ret s _ => s | _ => sample_state end); vm_compute; reflexivity|].
  split; [|split]; vm_compute; reflexivity.
Qed.
Print Assumptions C90_unlimited_refuted.
