(** Properties of the path selection: C36-C40. *)
From Coq Require Import Lia ZifyBool ZifyNat.
From Verif Require Import Base Charset CharsetSpec ReadSpec XmlScanner DocSpec DocCheck PathAtm PathSelect PathSpec PathProg PathRun1 PathRun3 PathRun8 PathRun9 PathBuild3 PathNames
  PathMatch PathTags PathContext PathAfter.

(** The results of a selector for the elements of a document, with fuel enough *)
Definition selects (a : atm) (evs : list event) (rs : list (list Z)) : Prop :=
  exists n s, forall f ff, (n <= f)%nat -> (n <= ff)%nat -> select f ff a evs = Ret s rs.
(** How often a type is reported with the [i]-th element *)
Definition reported (t : Z) (rs : list (list Z)) (i : nat) : nat := count_occ Z.eq_dec (nth i rs []) t.
Lemma selects_fun a evs rs rs' : selects a evs rs -> selects a evs rs' -> rs = rs'.
Proof.
  intros (n & s & H) (n' & s' & H'). specialize (H (n + n')%nat (n + n')%nat ltac:(lia) ltac:(lia)). specialize (H' (n + n')%nat (n + n')%nat ltac:(lia) ltac:(lia)). congruence.
Qed.

Lemma run_mono a : forall evs f ff s s' rs, sel_run f ff a evs s = Ret s' rs -> forall f' ff', (f <= f')%nat -> (ff <= ff')%nat -> sel_run f' ff' a evs s = Ret s' rs.
Proof.
  induction evs as [|[e k] l IH]; intros f ff s s' rs H f' ff' Hf Hff; cbn [sel_run] in *; [exact H|]. apply bind_ret in H. destruct H as (s1 & r & H1 & H2).
  unfold sel_element in *. apply bind_ret in H1. destruct H1 as (s2 & l2 & H1 & H3). rewrite (fetch_all_mono _ _ _ _ _ _ H1 f' ff' Hf Hff). cbn [bind]. rewrite H3. cbn [bind].
  apply bind_ret in H2. destruct H2 as (s4 & l4 & H4 & H5). rewrite (IH _ _ _ _ _ H4 f' ff' Hf Hff). exact H5.
Qed.
Lemma selects_run f a evs rs s : select f f a evs = Ret s rs -> selects a evs rs.
Proof.
  intro H. exists f, s. intros f' ff' Hf Hff. unfold select in *. apply bind_ret in H. destruct H as (s0 & u & H1 & H2). rewrite H1. cbn [bind]. eapply run_mono; eauto.
Qed.

(** ** C36: path selection is exact.
    [matching]: in how many ways the path leads to the element, see PathMatch.v. [ordered]: the order of elements in a document. *)
Theorem C36_exact : forall cs P evs, bytewise cs = true -> Forall (good_path cs) P -> no_header evs = true -> ordered PStart 0 evs = true ->
  exists a rs, add_paths cs (map tag_calls P) [] = Ret a tt /\ selects a evs rs /\ length rs = length evs /\
    forall t i, (i < length evs)%nat -> reported t rs i = matches_of t P evs i.
Proof.
  intros cs P evs Hb HP Hh Ho. destruct (tags_select cs P evs Hb HP Hh Ho) as (a & E & n & s & rs & H1 & H2 & H3). exists a, rs. split; [exact E|]. split; [exists n, s; exact H1|]. split; [exact H2|]. exact H3.
Qed.
Print Assumptions C36_exact.
(** The same for all method calls with attributes, conditions on attributes and documents with a header, where the meaning of the calls is
    [paths_of] and the number of reports is [hits_of]. *)
Theorem C36_programs : forall cs ps E evs, (forall m, In m (prog_names ps) -> usable cs m) -> paths_of ps = Some E -> Forall (fun x => wf_expr x = true) E ->
  ordered PStart 0 evs = true ->
  exists a rs, add_paths cs ps [] = Ret a tt /\ selects a evs rs /\ length rs = length evs /\
    forall t i, (i < length evs)%nat -> reported t rs i = hits_of t E 0 evs i.
Proof.
  intros cs ps E evs Hn HE Hw Ho. destruct (paths_select cs ps E evs Hn HE Hw Ho) as (a & EA & n & s & rs & H1 & H2 & H3). exists a, rs. split; [exact EA|]. split; [exists n, s; exact H1|]. split; [exact H2|]. exact H3.
Qed.
Print Assumptions C36_programs.

(** ["/a//b", "//*", "//b()", "/a~", "/a/b@x"] and [<a>t<b x="1">u<b>v</b></b></a>] *)
Definition nm (s : string) : option (list N) := Some (str s).
Definition sample_paths : list tagpath :=
  [mkTagpath [(false, nm "a"); (true, nm "b")] TOpen 1; mkTagpath [(true, None)] TOpen 2; mkTagpath [(true, nm "b")] (TContent false) 3;
   mkTagpath [(false, nm "a")] (TClose false) 4; mkTagpath [(false, nm "a"); (false, nm "b")] (TAttr (nm "x")) 5; mkTagpath [(true, None); (true, nm "b")] (TContent true) 6].
Definition sample_doc : list event :=
  [(EOpenTag, str "a"); (EContent, str "t"); (EOpenTag, str "b"); (ETagAttribName, str "x"); (ETagAttribValue, str "1"); (EContent, str "u");
   (EOpenTag, str "b"); (EContent, str "v"); (ECloseTag, str "b"); (ECloseTag, str "b"); (ECloseTag, str "a")].
Definition good_nameb (n : list N) : bool := forallb (fun c => name_charb c && (c <? 128)) n && nonempty n && Nat.leb (length n) 1024.
Lemma good_nameb_ok n : good_nameb n = true -> good_name UTF8 n.
Proof.
  unfold good_nameb. intro H. apply andb_prop in H. destruct H as [H Hl]. apply andb_prop in H. destruct H as [H Hne]. apply Nat.leb_le in Hl. rewrite forallb_forall in H. exists n.
  split; [|split; [|split; [|split; [|exact Hl]]]].
  - assert (E : forall l, (forall c, In c l -> c < 128) -> l = flat_map (cs_print UTF8) l).
    { induction l as [|c l IH]; intro Hc; [reflexivity|]. cbn [flat_map]. rewrite <- IH by (intros x Hx; apply Hc; right; exact Hx).
      assert (Hc1 : c < 128) by (apply Hc; left; reflexivity). unfold cs_print, utf8_print. destruct (c <=? 127) eqn:E; [reflexivity|lia]. }
    apply E. intros c Hc. specialize (H c Hc). apply andb_prop in H. destruct H as [_ H]. lia.
  - intros ->. discriminate Hne.
  - apply Forall_forall. intros c Hc. specialize (H c Hc). apply andb_prop in H. destruct H as [_ H]. cbn [representable]. lia.
  - apply Forall_forall. intros c Hc. specialize (H c Hc). apply andb_prop in H. destruct H as [H _]. apply name_charb_ok. exact H.
Qed.
Definition opt_goodb (n : option (list N)) : bool := match n with None => true | Some n => good_nameb n end.
Definition good_pathb (p : tagpath) : bool :=
  negb (tp_type p =? 0)%Z && forallb (fun s => opt_goodb (snd s)) (tp_steps p) && match tp_rep p with TAttr n => opt_goodb n | TOpen => nonempty (tp_steps p) | _ => true end.
Lemma good_pathb_ok p : good_pathb p = true -> good_path UTF8 p.
Proof.
  assert (Ho : forall n, opt_goodb n = true -> opt_good UTF8 n) by (intros [n|] H; [apply good_nameb_ok; exact H|exact Logic.I]).
  unfold good_pathb. intro H. apply andb_prop in H. destruct H as [H H3]. apply andb_prop in H. destruct H as [H1 H2]. constructor.
  - intro E. rewrite E in H1. discriminate H1.
  - apply Forall_forall. intros s Hs. rewrite forallb_forall in H2. apply Ho, (H2 s Hs).
  - destruct (tp_rep p); try exact Logic.I. apply Ho. exact H3.
  - intros E E'. rewrite E, E' in H3. discriminate H3.
Qed.
Example C36_case : Forall (good_path UTF8) sample_paths /\ no_header sample_doc = true /\ ordered PStart 0 sample_doc = true /\
  map (fun i => map (fun t => matches_of t sample_paths sample_doc i) [1; 2; 3; 4; 5; 6]%Z) (seq 0 11)
  = [[0; 1; 0; 0; 0; 0]; [0; 0; 0; 0; 0; 0]; [1; 1; 0; 0; 0; 0]; [0; 0; 0; 0; 0; 0]; [0; 0; 0; 0; 1; 0]; [0; 0; 1; 0; 0; 1];
     [1; 1; 0; 0; 0; 0]; [0; 0; 1; 0; 0; 3]; [0; 0; 0; 0; 0; 0]; [0; 0; 0; 0; 0; 0]; [0; 0; 0; 1; 0; 0]]%nat.
Proof.
  split; [|split; [vm_compute; reflexivity|split; [vm_compute; reflexivity|vm_compute; reflexivity]]].
  apply Forall_forall. intros p Hp. apply good_pathb_ok. assert (E : forallb good_pathb sample_paths = true) by (vm_compute; reflexivity). rewrite forallb_forall in E. exact (E p Hp).
Qed.
(** a condition on an attribute and a header *)
Definition sample_programs : list (list pathop) :=
  [[BTag (nm "a"); BCond (nm "x") (nm "1"); BContent; BOut 1]; [BTag None; BAttr None; BOut 2]; [BFollow; BTag (nm "b"); BContent; BIndex 1; BOut 3]].
Example C36_programs_case : exists E, paths_of sample_programs = Some E /\ Forall (fun x => wf_expr x = true) E /\ (forall m, In m (prog_names sample_programs) -> usable UTF8 m) /\
  ordered PStart 0 ((EHeaderStart, str "xml") :: (EHeaderAttribName, str "version") :: (EHeaderAttribValue, str "1.0") :: (EHeaderEnd, []) :: sample_doc) = true.
Proof.
  eexists. split; [vm_compute; reflexivity|]. split; [repeat constructor|]. split; [|vm_compute; reflexivity].
  intros m Hm. cbn in Hm. repeat (destruct Hm as [<-|Hm]; [apply good_usable; [reflexivity|apply good_nameb_ok; vm_compute; reflexivity]|]). destruct Hm.
Qed.

(** ** C37: closing a tag restores the selection context, for every automaton, in every state.
    [same_context]: for the next element everything is the same, besides of the counters and refusals of tokens; [whole]: an element with its content. *)
Theorem C37_context : forall f ff a evs s s' rs, whole evs -> sel_run f ff a evs s = Ret s' rs -> same_context s s'.
Proof. intros f ff a evs s s' rs Hw H. apply (whole_context _ _ _ _ _ _ _ Hw H). Qed.
Print Assumptions C37_context.
(** Without tokens that count or refuse elements, all following elements are treated as if there had been no element. *)
Theorem C37_plain : forall f ff a evs s s' rs, whole evs -> s_trig s = [] -> Forall (fun tk => plain (t_core tk)) (s_toks s) -> sel_run f ff a evs s = Ret s' rs ->
  forall f' ff' e k l, sel_run f' ff' a ((e, k) :: l) s' = sel_run f' ff' a ((e, k) :: l) s.
Proof. exact whole_plain. Qed.
Print Assumptions C37_plain.
Definition sample_atm : atm := match add_paths UTF8 (map tag_calls sample_paths) [] with Ret a _ => a | _ => [] end.
Definition sample_sub : list event := [(EOpenTag, str "b"); (EContent, str "u"); (EOpenTag, str "b"); (EContent, str "v"); (ECloseTag, str "b"); (ECloseTag, str "b")].
Definition sample_state : sel := match select 100 100 sample_atm (firstn 2 sample_doc) with Ret s _ => s | _ => mkSel [] [] [] [] EExit None scope_new 0 end.
Example C37_case : whole sample_sub /\ length (s_toks sample_state) = 12%nat /\ s_trig sample_state = [] /\ Forall (fun tk => plain (t_core tk)) (s_toks sample_state) /\
  exists s' rs, sel_run 100 100 sample_atm sample_sub sample_state = Ret s' rs.
Proof.
  split; [exists (EOpenTag, str "b"), [(EContent, str "u"); (EOpenTag, str "b"); (EContent, str "v"); (ECloseTag, str "b")], (ECloseTag, str "b"); repeat split|].
  split; [vm_compute; reflexivity|]. split; [vm_compute; reflexivity|]. split; [vm_compute; repeat constructor|]. eexists. eexists. vm_compute. reflexivity.
Qed.
(** What is reported for the elements behind does not depend on the element. Attributes are looked for where the path has arrived only ([wf_expr]). *)
Theorem C37_after : forall cs ps E pre sub post, (forall m, In m (prog_names ps) -> usable cs m) -> paths_of ps = Some E -> Forall (fun x => wf_expr x = true) E ->
  Forall (fun x => x_range x = None) E -> whole sub -> ordered PStart 0 (pre ++ sub ++ post) = true ->
  exists a rs rs', add_paths cs ps [] = Ret a tt /\ selects a (pre ++ sub ++ post) rs /\ selects a (pre ++ post) rs' /\
    forall t i, (i < length post)%nat -> reported t rs (length pre + (length sub + i)) = reported t rs' (length pre + i).
Proof.
  intros cs ps E pre sub post Hn HE Hw Hr Hs Ho. destruct (ordered_removed pre sub post Hs Ho) as [Ho' Hv].
  destruct (C36_programs cs ps E _ Hn HE Hw Ho) as (a & rs & EA & H1 & L1 & R1). destruct (C36_programs cs ps E _ Hn HE Hw Ho') as (a' & rs' & EA' & H2 & L2 & R2).
  assert (a' = a) by congruence. subst a'. exists a, rs, rs'. split; [exact EA|]. split; [exact H1|]. split; [exact H2|]. intros t i Hi.
  rewrite R1 by (rewrite !app_length; lia). rewrite R2 by (rewrite app_length; lia). unfold hits_of. f_equal. apply map_ext_in. intros x Hx. destruct (_ =? _)%Z; [|reflexivity].
  apply hits_removed; auto. rewrite Forall_forall in Hr. exact (Hr x Hx).
Qed.
Print Assumptions C37_after.
Example C37_after_case : exists E, let ps := map tag_calls sample_paths in paths_of ps = Some E /\ Forall (fun x => wf_expr x = true) E /\ Forall (fun x => x_range x = None) E /\
  whole sample_sub /\ ordered PStart 0 (firstn 2 sample_doc ++ sample_sub ++ skipn 2 sample_doc) = true.
Proof.
  eexists. cbv zeta. split; [vm_compute; reflexivity|]. split; [repeat constructor|]. split; [repeat constructor|]. split; [apply C37_case|vm_compute; reflexivity].
Qed.

(** ** C38: expressions do not influence each other.
    It is missing: paths that look for attributes in all descendants. For these it is wrong. *)
Theorem C38_partial : forall cs ps1 ps2 E1 E2 evs, (forall m, In m (prog_names (ps1 ++ ps2)) -> usable cs m) -> paths_of ps1 = Some E1 -> paths_of ps2 = Some E2 ->
  Forall (fun x => wf_expr x = true) (E1 ++ E2) -> ordered PStart 0 evs = true ->
  exists a1 a12 rs1 rs12, add_paths cs ps1 [] = Ret a1 tt /\ add_paths cs (ps1 ++ ps2) [] = Ret a12 tt /\ selects a1 evs rs1 /\ selects a12 evs rs12 /\
    forall t i, (i < length evs)%nat -> ~ In t (map x_type E2) -> reported t rs12 i = reported t rs1 i.
Proof.
  intros cs ps1 ps2 E1 E2 evs Hn H1 H2 Hw Ho.
  assert (Hpo : paths_of (ps1 ++ ps2) = Some (E1 ++ E2)).
  { clear -H1 H2. revert E1 H1. induction ps1 as [|os ps IH]; intros E1 H1; cbn [paths_of app] in *; [injection H1 as <-; exact H2|].
    destruct (pp_ops os pp_root) as [E|]; [|discriminate]. destruct (paths_of ps) as [E'|]; [|discriminate]. injection H1 as <-. rewrite (IH _ eq_refl), app_assoc. reflexivity. }
  assert (Hn1 : forall m, In m (prog_names ps1) -> usable cs m) by (intros m Hm; apply Hn; unfold prog_names; rewrite flat_map_app, in_app_iff; left; exact Hm).
  pose proof Hw as Hw'. rewrite Forall_app in Hw'. destruct Hw' as [Hw1 Hw2].
  destruct (C36_programs cs ps1 E1 evs Hn1 H1 Hw1 Ho) as (a1 & rs1 & A1 & S1 & L1 & R1). destruct (C36_programs cs _ _ evs Hn Hpo Hw Ho) as (a12 & rs12 & A12 & S12 & L12 & R12).
  exists a1, a12, rs1, rs12. split; [exact A1|]. split; [exact A12|]. split; [exact S1|]. split; [exact S12|]. intros t i Hi Ht. rewrite R1, R12 by exact Hi.
  unfold hits_of. rewrite map_app, list_sum_app. rewrite <- (Nat.add_0_r (list_sum (map _ E1))) at 2. f_equal. clear -Ht.
  induction E2 as [|x E2 IH]; [reflexivity|]. cbn [map In] in Ht |- *. cbn [list_sum fold_right]. change (fold_right Nat.add 0%nat) with list_sum. rewrite IH by (intro; apply Ht; right; assumption).
  destruct (x_type x =? t)%Z eqn:E; [|reflexivity]. exfalso. apply Ht. left. apply Z.eqb_eq. exact E.
Qed.
Print Assumptions C38_partial.
Example C38_case : exists E1 E2, paths_of (firstn 2 sample_programs) = Some E1 /\ paths_of (skipn 2 sample_programs) = Some E2 /\
  Forall (fun x => wf_expr x = true) (E1 ++ E2) /\ ~ In 1%Z (map x_type E2) /\ In 1%Z (map x_type E1).
Proof. eexists. eexists. split; [vm_compute; reflexivity|]. split; [vm_compute; reflexivity|]. split; [repeat constructor|]. split; [vm_compute; intuition discriminate|vm_compute; auto]. Qed.
(** [Y--("u")] alone reports the attribute in [<Y>text<mm u="8"></mm></Y>], together with [Y()] it does not. *)
Definition all_attr : list pathop := [BTag (nm "Y"); BFollow; BAttr (nm "u"); BOut 1].
Definition its_content : list pathop := [BTag (nm "Y"); BContent; BOut 2].
Definition mixed_doc : list event :=
  [(EOpenTag, str "Y"); (EContent, str "text"); (EOpenTag, str "mm"); (ETagAttribName, str "u"); (ETagAttribValue, str "8"); (ECloseTag, str "mm"); (ECloseTag, str "Y")].
Theorem C38_refuted : exists p1 p2 evs a1 a12 rs1 rs12 t i, add_paths UTF8 [p1] [] = Ret a1 tt /\ add_paths UTF8 [p1; p2] [] = Ret a12 tt /\
  ordered PStart 0 evs = true /\ selects a1 evs rs1 /\ selects a12 evs rs12 /\ In (BOut t) p1 /\ ~ In (BOut t) p2 /\ reported t rs1 i = 1%nat /\ reported t rs12 i = 0%nat.
Proof.
  exists all_attr, its_content, mixed_doc. eexists. eexists. eexists. eexists. exists 1%Z, 4%nat. split; [vm_compute; reflexivity|]. split; [vm_compute; reflexivity|]. split; [vm_compute; reflexivity|].
  split; [apply (selects_run 100) with (s := match select 100 100 (match add_paths UTF8 [all_attr] [] with Ret a _ => a | _ => [] end) mixed_doc with Ret s _ => s | _ => sample_state end); vm_compute; reflexivity|].
  split; [apply (selects_run 100) with (s := match select 100 100 (match add_paths UTF8 [all_attr; its_content] [] with Ret a _ => a | _ => [] end) mixed_doc with Ret s _ => s | _ => sample_state end); vm_compute; reflexivity|].
  split; [cbn; auto|]. split; [cbn; intuition discriminate|]. split; vm_compute; reflexivity.
Qed.
Print Assumptions C38_refuted.

(** ** C39: index ranges.
    The indices a range call asks for, counted from 0, first and last; [2^31 - 2] is the last one that can be counted. *)
Definition asked (o : pathop) : option (Z * Z) :=
  match o with
  | BTo j => if (0 <=? j)%Z && (j <? 2 ^ 31 - 1)%Z then Some (0, j)%Z else None
  | BFrom i => Some (i, 2 ^ 31 - 2)%Z
  | BRange i j => if (0 <=? j)%Z && (j <? 2 ^ 31 - 1)%Z then Some (i, j) else None
  | BIndex i => if (0 <=? i)%Z && (i <? 2 ^ 31 - 1)%Z then Some (i, i) else None
  | _ => None
  end.
Lemma asked_op o b e q : asked o = Some (b, e) -> pp_range q = None -> pp_op o q = Some (mkPp (pp_edges q) (pp_rep q) (pp_follow q) (Some (b, e + 1)%Z), []).
Proof.
  intros Ho Hq. destruct o; cbn [asked] in Ho; try discriminate; cbn [pp_op]; unfold pp_ranged; rewrite Hq;
    try (match type of Ho with (if ?b then _ else _) = _ => destruct b eqn:B end; [|discriminate]; injection Ho as <- <-; apply andb_prop in B; destruct B as [B1 B2]; rewrite ?B1, B2;
         match goal with |- context [(?k =? -1)%Z] => replace (k =? -1)%Z with false by lia end; reflexivity).
  injection Ho as <- <-. reflexivity.
Qed.
(** The content of the root element (or [deep], of all its descendants) with a range: [content_at] is whether the element is meant, [before] is its index. The content
    with the index [k] is reported if and only if [first - 1 <= 2 * k <= last - 1] and not, as it should be, if [first <= k <= last].
    It is missing: that the indices are those asked for. This is wrong. *)
Theorem C39_counted_partial : forall cs m deep o first last t root l i, t <> 0%Z -> (forall n, m = Some n -> usable cs n) -> asked o = Some (first, last) ->
  ordered PStart 0 ((EOpenTag, root) :: l) = true -> (i < length l)%nat -> levels 0 (firstn i l) <> None ->
  exists a rs, add_paths cs [[BTag m] ++ follow_call deep ++ [BContent; o; BOut t]] [] = Ret a tt /\ selects a ((EOpenTag, root) :: l) rs /\
    let k := Z.of_nat (before deep 0 l i) in
    reported t rs (S i) = if names m root && content_at deep 0 l i && (first - 1 <=? 2 * k)%Z && (2 * k <=? last - 1)%Z then 1%nat else 0%nat.
Proof.
  intros cs m deep o first last t root l i Ht Hm Ho Hd Hi Hl.
  set (x := mkExpr [mkEdge SOpen false m] RContent deep (Some (first, last + 1)%Z) t).
  assert (Hp : paths_of [[BTag m] ++ follow_call deep ++ [BContent; o; BOut t]] = Some [x]).
  { apply Z.eqb_neq in Ht. cbn [paths_of app pp_ops pp_op]. destruct deep; cbn [follow_call app pp_ops]; cbn [pp_op]; rewrite (asked_op o first last _ Ho) by reflexivity; rewrite Ht; reflexivity. }
  assert (Hne : match m with Some [] => false | _ => true end = true) by (destruct m as [[|c n]|]; try reflexivity; exfalso; exact (usable_ne _ _ (Hm [] eq_refl) eq_refl)).
  destruct (C36_programs cs [[BTag m] ++ follow_call deep ++ [BContent; o; BOut t]] [x] ((EOpenTag, root) :: l)) as (a & rs & EA & S1 & L1 & R1); [|exact Hp| |exact Hd|].
  - intros n Hn. unfold prog_names in Hn. cbn [flat_map] in Hn. rewrite app_nil_r, !flat_map_app, !in_app_iff in Hn. destruct Hn as [Hn|[Hn|Hn]].
    + cbn [flat_map op_names] in Hn. destruct m as [m|]; [|destruct Hn]. cbn [app In] in Hn. destruct Hn as [<-|[]]. apply Hm. reflexivity.
    + destruct deep; destruct Hn.
    + destruct o; try discriminate Ho; destruct Hn.
  - constructor; [|constructor]. unfold wf_expr, x. cbn [x_edges x_rep x_follow x_type wf_edges e_op e_name andb]. rewrite Hne. apply Z.eqb_neq in Ht. rewrite Ht. reflexivity.
  - exists a, rs. split; [exact EA|]. split; [exact S1|]. cbv zeta. rewrite R1 by (cbn [length]; apply -> Nat.succ_lt_mono; exact Hi). unfold hits_of. cbn [map list_sum fold_right].
    assert (Et : (x_type x =? t)%Z = true) by apply Z.eqb_refl. rewrite Et, Nat.add_0_r. unfold x. rewrite hits_root by (auto; reflexivity). cbn [snd].
    destruct (names m root); [|reflexivity]. cbn [andb]. rewrite hits_range by exact Hi. set (k := Z.of_nat (before deep 0 l i)).
    assert (E1 : (first - 2 * k <=? 1)%Z = (first - 1 <=? 2 * k)%Z) by lia. assert (E2 : (2 <=? last + 1 - 2 * k)%Z = (2 * k <=? last - 1)%Z) by lia. rewrite E1, E2. reflexivity.
Qed.
Print Assumptions C39_counted_partial.
Definition numbers : list event := [(EContent, str "0"); (EOpenTag, str "b"); (ECloseTag, str "b"); (EContent, str "1"); (EOpenTag, str "b"); (ECloseTag, str "b"); (EContent, str "2"); (ECloseTag, str "a")].
Example C39_case : usable UTF8 (str "a") /\ asked (BRange 1 3) = Some (1, 3)%Z /\ ordered PStart 0 ((EOpenTag, str "a") :: numbers) = true /\ levels 0 (firstn 6 numbers) = Some 0%nat /\
  content_at false 0 numbers 6 = true /\ before false 0 numbers 6 = 2%nat.
Proof. split; [apply good_usable; [reflexivity|apply good_nameb_ok; vm_compute; reflexivity]|]. repeat (split; [vm_compute; reflexivity|]). vm_compute. reflexivity. Qed.
(** [a()[0]] reports nothing and [a()[1]] reports the content with the index 0 and not the one with the index 1. *)
Theorem C39_refuted : exists a0 rs0 a1 rs1 l,
  add_paths UTF8 [[BTag (nm "a"); BContent; BIndex 0; BOut 7]] [] = Ret a0 tt /\ add_paths UTF8 [[BTag (nm "a"); BContent; BIndex 1; BOut 7]] [] = Ret a1 tt /\
  ordered PStart 0 ((EOpenTag, str "a") :: l) = true /\ content_at false 0 l 0 = true /\ before false 0 l 0 = 0%nat /\ content_at false 0 l 3 = true /\ before false 0 l 3 = 1%nat /\
  selects a0 ((EOpenTag, str "a") :: l) rs0 /\ selects a1 ((EOpenTag, str "a") :: l) rs1 /\
  (forall i, reported 7 rs0 i = 0%nat) /\ reported 7 rs1 1 = 1%nat /\ reported 7 rs1 4 = 0%nat.
Proof.
  eexists. exists (repeat [] 9). eexists. exists [[]; [7%Z]; []; []; []; []; []; []; []]. exists numbers. split; [vm_compute; reflexivity|]. split; [vm_compute; reflexivity|].
  split; [vm_compute; reflexivity|]. split; [vm_compute; reflexivity|]. split; [vm_compute; reflexivity|]. split; [vm_compute; reflexivity|]. split; [vm_compute; reflexivity|].
  split; [|split; [|split; [|split; vm_compute; reflexivity]]].
  - apply (selects_run 100) with (s := match select 100 100 (match add_paths UTF8 [[BTag (nm "a"); BContent; BIndex 0; BOut 7]] [] with Ret a _ => a | _ => [] end) ((EOpenTag, str "a") :: numbers) with Ret s _ => s | _ => sample_state end). vm_compute. reflexivity.
  - apply (selects_run 100) with (s := match select 100 100 (match add_paths UTF8 [[BTag (nm "a"); BContent; BIndex 1; BOut 7]] [] with Ret a _ => a | _ => [] end) ((EOpenTag, str "a") :: numbers) with Ret s _ => s | _ => sample_state end). vm_compute. reflexivity.
  - intro i. unfold reported. assert (E : nth i (repeat (@nil Z) 9) [] = []); [|rewrite E; reflexivity].
    do 10 (destruct i as [|i]; [reflexivity|]). destruct i; reflexivity.
Qed.
Print Assumptions C39_refuted.

(** ** C40: prefix and postfix increments.
    For all elements but close tags they are the same. It is missing: close tags, where it is wrong if something is reported with them. *)
Theorem C40_partial : forall f ff a e k s, e <> ECloseTag -> e <> ECloseTagIm -> sel_element_post f ff a e k s = sel_element (S f) ff a e k s.
Proof. intros f ff a e k s H1 H2. apply element_post. destruct e; try reflexivity; contradiction. Qed.
Print Assumptions C40_partial.
Theorem C40_nothing : forall f ff a e k s s', sel_element (S f) ff a e k s = Ret s' [] -> sel_element_post f ff a e k s = Ret s' [].
Proof. exact element_post_none. Qed.
Print Assumptions C40_nothing.
Example C40_case : exists s, sel_element 100 100 sample_atm EOpenTag (Some (str "b")) sample_state = Ret s [2; 1]%Z.
Proof. eexists. vm_compute. reflexivity. Qed.
(** [/a/b~] and [/a/c]: after the close tag of [b] the path [/a/c] is lost. *)
Definition closing : list (list pathop) := [[BTag (nm "a"); BTag (nm "b"); BClose; BOut 1]; [BTag (nm "a"); BTag (nm "c"); BOut 2]].
Definition closing_doc : list event := [(EOpenTag, str "a"); (EOpenTag, str "b"); (ECloseTag, str "b"); (EOpenTag, str "c"); (ECloseTag, str "c"); (ECloseTag, str "a")].
Theorem C40_refuted : exists a s0 s1 s2, add_paths UTF8 closing [] = Ret a tt /\ sel_new a = Ret s0 tt /\ ordered PStart 0 closing_doc = true /\
  sel_run 100 100 a closing_doc s0 = Ret s1 [[]; []; [1]; [2]; []; []]%Z /\ sel_run_post 100 100 a closing_doc s0 = Ret s2 [[]; []; [1]; []; []; []]%Z.
Proof. eexists. eexists. eexists. eexists. split; [vm_compute; reflexivity|]. split; [vm_compute; reflexivity|]. split; [vm_compute; reflexivity|]. split; vm_compute; reflexivity. Qed.
Print Assumptions C40_refuted.
