(** C93: paths defined while a selector is in use. *)
From Coq Require Import Lia.
From Verif Require Import Base Charset XmlScanner PathAtm PathSelect PathProg InspectSpec InspectSafe PathBuild3 SelGrowSpec SelGrow SelGrow2.

(** Whatever paths are defined between the elements given to a selector, nothing outside of the automaton and of the stacks of the selector is accessed, every element has finitely many results,
    and the automaton is the same as if all paths had been defined at once. *)
Theorem C93_safe : forall cs ps l, (forall n, In n (prog_names (ps ++ g_paths l)) -> name_read cs n) -> Forall (Forall op_fits) (ps ++ g_paths l) ->
  exists a s a' s' rs N, add_paths cs ps [] = Ret a tt /\ sel_new a = Ret s tt /\ add_paths cs (ps ++ g_paths l) [] = Ret a' tt /\ length rs = length (g_elements l) /\
    forall f ff, (N <= f)%nat -> (N <= ff)%nat -> g_run f ff cs l a s = Ret (a', s') rs.
Proof.
  intros cs ps l Hn Hf. rewrite names_app in Hn. apply Forall_app in Hf. destruct Hf as [Hf1 Hf2].
  destruct (add_steps cs ps [] up_new) as (a & E & S); [intros n Q; apply Hn, in_or_app; left; exact Q|exact Hf1|]. destruct (csteps_any _ _ _ _ S _ up_new (same_refl _ _)) as [_ W].
  destruct (sel_new_safe a (up_nrm a W)) as (s & Es & Hs). destruct (g_total cs l a s W Hs) as (N & a' & s' & rs & E' & _ & L & R); [intros n Q; apply Hn, in_or_app; right; exact Q|exact Hf2|].
  exists a, s, a', s', rs, N. split; [exact E|]. split; [exact Es|]. split; [rewrite add_app, E; exact E'|]. split; [exact L|exact R].
Qed.
Print Assumptions C93_safe.

(** Paths whose first step is none of the first steps the automaton had when the selector was created have no effect on it: its results are those with the automaton as it was. A first step without
    name is never shared with another path. *)
Theorem C93_late : forall cs ps a l f ff s s' rs, (forall n, In n (prog_names (ps ++ g_paths l)) -> usable cs n) -> Forall (Forall op_fits) (ps ++ g_paths l) -> add_paths cs ps [] = Ret a tt ->
  (forall os op deep n, In os (g_paths l) -> begins os (LStep op deep (Some n)) -> ~ heads ps (LStep op deep (Some n))) ->
  sel_run f ff a (g_elements l) s = Ret s' rs -> exists a', add_paths cs (ps ++ g_paths l) [] = Ret a' tt /\ g_run f ff cs l a s = Ret (a', s') rs.
Proof.
  intros cs ps a l f ff s s' rs Hn Hf E Nw R. rewrite names_app in Hn. apply Forall_app in Hf. destruct Hf as [Hf1 Hf2].
  assert (HP : forall n, In n (prog_names ps) -> usable cs n) by (intros n Q; apply Hn, in_or_app; left; exact Q). destruct (first_built cs ps HP Hf1) as (b & mk & E' & _ & B & Rt). rewrite E in E'. injection E' as <-.
  destruct (late_run cs ps a mk f ff HP B Rt l a mk s s' rs) as (a' & Ea & Er); try assumption; [reflexivity|apply same_refl|auto|intros n Q; apply Hn, in_or_app; right; exact Q|].
  exists a'. split; [rewrite add_app, E; exact Ea|exact Er].
Qed.
Print Assumptions C93_late.

(** Paths that begin with a step a path defined before the creation of the selector begins with are, if they are defined before the first element, selected as if they had been defined before. *)
Theorem C93_early : forall cs ps qs, (forall n, In n (prog_names (ps ++ qs)) -> usable cs n) -> Forall (Forall op_fits) (ps ++ qs) ->
  (forall os, In os qs -> exists op deep n, begins os (LStep op deep (Some n)) /\ heads ps (LStep op deep (Some n))) ->
  exists a a' s, add_paths cs ps [] = Ret a tt /\ sel_new a = Ret s tt /\ add_paths cs (ps ++ qs) [] = Ret a' tt /\ sel_new a' = Ret s tt /\
    forall f ff evs s' rs, sel_run f ff a' evs s = Ret s' rs -> g_run f ff cs (map GPath qs ++ map (fun x => GElement (fst x) (snd x)) evs) a s = Ret (a', s') rs.
Proof.
  intros cs ps qs Hn Hf Hb. destruct (early_new cs ps qs Hn Hf Hb) as (a & a' & s & E & E' & Es & Es'). exists a, a', s. split; [exact E|]. split; [exact Es|]. split; [rewrite add_app, E; exact E'|]. split; [exact Es'|].
  intros f ff evs s' rs R. rewrite (g_paths_run _ _ _ _ _ _ _ _ E'). apply g_elements_run. exact R.
Qed.
Print Assumptions C93_early.

(** A path is not always selected as if it had been defined before the selector was created, even if no element has been given to the selector yet. *)
Theorem C93_refuted : exists ps qs evs a a' s s' rs rs' x y, add_paths UTF8 ps [] = Ret a tt /\ sel_new a = Ret s tt /\ add_paths UTF8 (ps ++ qs) [] = Ret a' tt /\ sel_new a' = Ret s' tt /\
  sel_run 20 20 a' evs s' = Ret x rs' /\ g_run 20 20 UTF8 (map GPath qs ++ map (fun x => GElement (fst x) (snd x)) evs) a s = Ret y rs /\ rs <> rs'.
Proof.
  exists [[BTag (Some (str "a")); BOut 1]], [[BTag (Some (str "b")); BOut 2]], [(EOpenTag, str "b")]. do 8 eexists. split; [vm_compute; reflexivity|]. split; [vm_compute; reflexivity|]. split; [vm_compute; reflexivity|].
  split; [vm_compute; reflexivity|]. split; [vm_compute; reflexivity|]. split; [vm_compute; reflexivity|]. discriminate.
Qed.
Print Assumptions C93_refuted.

(** A path with the first step of another one that is defined inside of the element of this step is only selected from the next such element on. *)
Theorem C93_inside_refuted : exists ps os l a s rs x, add_paths UTF8 ps [] = Ret a tt /\ sel_new a = Ret s tt /\ (exists op deep n, begins os (LStep op deep (Some n)) /\ heads ps (LStep op deep (Some n))) /\
  l = [GElement EOpenTag (str "a"); GPath os; GElement EOpenTag (str "c"); GElement ECloseTag (str "c"); GElement ECloseTag (str "a"); GElement EOpenTag (str "a"); GElement EOpenTag (str "c")] /\
  g_run 20 20 UTF8 l a s = Ret x rs /\ rs = [[]; []; []; []; []; [2%Z]].
Proof.
  exists [[BTag (Some (str "a")); BTag (Some (str "b")); BOut 1]], [BTag (Some (str "a")); BTag (Some (str "c")); BOut 2]. do 5 eexists. split; [vm_compute; reflexivity|]. split; [vm_compute; reflexivity|].
  split; [exists OpOpenTag, false, (str "a"); split; [eexists; reflexivity|eexists; split; [left; reflexivity|reflexivity]]|]. split; [reflexivity|]. split; [vm_compute; reflexivity|reflexivity].
Qed.
Print Assumptions C93_inside_refuted.

(** ** The hypotheses can be met. *)
Definition name (s : list N) : option (list N) := Some s.
Definition path_ab : list pathop := [BTag (name (str "a")); BTag (name (str "b")); BContent; BOut 1].
Definition path_ac : list pathop := [BTag (name (str "a")); BAttr (name (str "c")); BOut 2].
Definition path_deep : list pathop := [BFollow; BTag (name (str "a")); BRange 0 3; BOut 3].
Lemma usable1 c : In c (str "abcd") -> usable UTF8 [c].
Proof. intro H. split; [discriminate|]. destruct H as [<-|[<-|[<-|[<-|[]]]]]; vm_compute; reflexivity. Qed.
Example safe_case : let l := [GElement EOpenTag (str "a"); GPath path_ac; GElement ETagAttribName (str "c"); GPath [BTag None; BContent; BOut 5]; GElement EContent (str "x")] in
  (forall n, In n (prog_names ([path_ab] ++ g_paths l)) -> name_read UTF8 n) /\ Forall (Forall op_fits) ([path_ab] ++ g_paths l).
Proof.
  cbv zeta. split.
  - intros n H. cbn in H. destruct H as [<-|[<-|[<-|[<-|[]]]]]; eexists; vm_compute; reflexivity.
  - cbn. repeat constructor.
Qed.
(** the step [//a] is not the step [/a] *)
Example late_case : let l := [GElement EOpenTag (str "a"); GPath path_deep; GElement EOpenTag (str "b"); GPath [BTag (name (str "d")); BOut 4]; GElement EContent (str "x"); GElement EOpenTag (str "d")] in
  (forall n, In n (prog_names ([path_ab] ++ g_paths l)) -> usable UTF8 n) /\ Forall (Forall op_fits) ([path_ab] ++ g_paths l) /\
  (forall os op deep n, In os (g_paths l) -> begins os (LStep op deep (Some n)) -> ~ heads [path_ab] (LStep op deep (Some n))) /\
  exists a s s', add_paths UTF8 [path_ab] [] = Ret a tt /\ sel_new a = Ret s tt /\ sel_run 20 20 a (g_elements l) s = Ret s' [[]; []; [1%Z]; []].
Proof.
  cbv zeta. split; [|split; [|split]].
  - intros n H. cbn in H. destruct H as [<-|[<-|[<-|[<-|[]]]]]; apply usable1; cbn; auto.
  - cbn. repeat constructor; discriminate.
  - intros os op deep n [<-|[<-|[]]] [ls B] [p [[<-|[]] E]]; vm_compute in B, E; injection E as <- <- <-; discriminate B.
  - do 3 eexists. split; [vm_compute; reflexivity|]. split; [vm_compute; reflexivity|]. vm_compute. reflexivity.
Qed.
Example early_case : (forall n, In n (prog_names ([path_ab] ++ [path_ac])) -> usable UTF8 n) /\ Forall (Forall op_fits) ([path_ab] ++ [path_ac]) /\
  (forall os, In os [path_ac] -> exists op deep n, begins os (LStep op deep (Some n)) /\ heads [path_ab] (LStep op deep (Some n))) /\
  exists a s x, add_paths UTF8 ([path_ab] ++ [path_ac]) [] = Ret a tt /\ sel_new a = Ret s tt /\
    sel_run 20 20 a [(EOpenTag, str "a"); (ETagAttribName, str "c"); (ETagAttribValue, str "v"); (EOpenTag, str "b"); (EContent, str "x")] s = Ret x [[]; []; [2%Z]; []; [1%Z]].
Proof.
  split; [|split; [|split]].
  - intros n H. cbn in H. destruct H as [<-|[<-|[<-|[<-|[]]]]]; apply usable1; cbn; auto.
  - cbn. repeat constructor.
  - intros os [<-|[]]. exists OpOpenTag, false, (str "a"). split; [eexists; reflexivity|]. exists path_ab. split; [left; reflexivity|reflexivity].
  - do 3 eexists. split; [vm_compute; reflexivity|]. split; [vm_compute; reflexivity|]. vm_compute. reflexivity.
Qed.
