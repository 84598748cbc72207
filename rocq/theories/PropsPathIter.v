(** C94: the iterators of a path selection. *)
From Coq Require Import Lia.
From Verif Require Import Base Charset XmlScanner PathAtm PathSelect PathProg InspectSpec InspectSafe PathIter PathIterSpec PathIterProof.

(** Whatever is done with iterators that exist, in any order, with any paths and elements: nothing outside of the stacks of the selector is accessed and every call returns. *)
Theorem C94_safe : forall cs ps, (forall n, In n (prog_names ps) -> name_read cs n) -> Forall (Forall op_fits) ps ->
  exists a s, add_paths cs ps [] = Ret a tt /\ sel_new a = Ret s tt /\ forall l b, all_live l [] = Some b -> exists N g s' rs, forall ff, (N <= ff)%nat -> v_run ff a l [] s = Ret (g, s') rs.
Proof.
  intros cs ps Hn Hf. destruct (add_up cs ps [] up_new Hn Hf) as [a [E W]]. destruct (sel_new_safe a (up_nrm a W)) as [s [Es S]]. exists a, s. split; [exact E|]. split; [exact Es|]. intros l b H.
  destruct (all_total a (up_nrm a W) l [] s b S H) as (N & g & s' & r & _ & _ & R). eauto 6.
Qed.
Print Assumptions C94_safe.

(** The iterators read the results of the elements: those of an element are read by all its iterators together, one result with each increment, whichever iterator it is, and each iterator keeps the
    result it got; the end iterator is equal to all that have read the end. Required is that the results of an element are all read before the next element is given, and that of the iterators of a
    close tag exactly one is destroyed, after the end was read. *)
Theorem C94_reads : forall a f ff l s s' rs r ys, sel_run f ff a (pushed l) s = Ret s' rs -> r_run l (reading_of rs) = Some (r, ys) ->
  exists s1, v_run ff a l [] s = Ret (r_its r, s1) ys /\ (r_ready r = true -> s1 = s').
Proof.
  intros a f ff l s s' rs r ys E H. destruct (run_sim a f ff s' l (reading_of rs) s r ys) as (s1 & R & I); [|exact H|].
  - unfold Inv, reading_of. cbn [r_elem r_its r_ended r_todo]. split; [intros i x Q; destruct i; discriminate|]. split; [reflexivity|exact E].
  - exists s1. split; [exact R|]. intro K. pose proof (ready_rest _ _ _ _ _ _ _ I K) as X. unfold rest in X. cbn [sel_run] in X. injection X as X _. exact X.
Qed.
Print Assumptions C94_reads.

(** A copy of the iterator of a close tag that is destroyed changes what is selected later: the tag around the closed one is closed too. Instead of the copy another iterator is constructed for
    comparison. *)
Theorem C94_copy_refuted : exists ps a s pre i n post ys ys' x x', add_paths UTF8 ps [] = Ret a tt /\ sel_new a = Ret s tt /\
  all_live (pre ++ [VEnd; VDestroy n] ++ post) [] <> None /\ all_live (pre ++ [VCopy i; VDestroy n] ++ post) [] <> None /\
  v_run 20 a (pre ++ [VEnd; VDestroy n] ++ post) [] s = Ret x ys /\ v_run 20 a (pre ++ [VCopy i; VDestroy n] ++ post) [] s = Ret x' ys' /\ ys <> ys'.
Proof.
  exists [[BTag (Some (str "a")); BTag (Some (str "b")); BOut 1]]. do 2 eexists.
  exists [VPush EOpenTag (str "a"); VDestroy 0; VPush EOpenTag (str "b"); VNext 1; VDestroy 1; VPush ECloseTag (str "b")], 2%nat, 3%nat, [VDestroy 2; VPush EOpenTag (str "b"); VGet 4]. do 4 eexists.
  split; [vm_compute; reflexivity|]. split; [vm_compute; reflexivity|]. split; [vm_compute; discriminate|]. split; [vm_compute; discriminate|]. split; [vm_compute; reflexivity|]. split; [vm_compute; reflexivity|]. discriminate.
Qed.
Print Assumptions C94_copy_refuted.

(** The iterator of a close tag assigned to a variable, the one returned by push being destroyed, does not read all results, and a result is delivered with the next element. *)
Theorem C94_assign_refuted : exists ps a s evs rs l ys x y, add_paths UTF8 ps [] = Ret a tt /\ sel_new a = Ret s tt /\ evs = [(EOpenTag, str "a"); (ECloseTag, str "a"); (EOpenTag, str "a")] /\
  sel_run 20 20 a evs s = Ret x rs /\ rs = [[]; [2%Z; 1%Z]; []] /\ pushed l = evs /\
  l = [VEnd; VPush EOpenTag (str "a"); VAssign 0 1; VDestroy 1; VPush ECloseTag (str "a"); VAssign 0 2; VDestroy 2; VGet 0; VNext 0; VGet 0; VPush EOpenTag (str "a"); VAssign 0 3; VDestroy 3; VGet 0] /\
  v_run 20 a l [] s = Ret y ys /\ ys = [2%Z; 0%Z; 1%Z].
Proof.
  exists [[BTag (Some (str "a")); BClose; BOut 1]; [BTag (Some (str "a")); BClose; BOut 2]]. do 8 eexists. split; [vm_compute; reflexivity|]. split; [vm_compute; reflexivity|]. split; [reflexivity|]. split; [vm_compute; reflexivity|].
  split; [reflexivity|]. split; [|split; [reflexivity|]]. reflexivity. split; [vm_compute; reflexivity|reflexivity].
Qed.
Print Assumptions C94_assign_refuted.

(** ** The hypotheses can be met: copies, assignments and both increments, also with a close tag. *)
Definition two_paths : list (list pathop) := [[BTag (Some (str "a")); BTag (Some (str "b")); BOut 1]; [BTag (Some (str "a")); BTag (Some (str "b")); BOut 2]; [BTag (Some (str "a")); BTag (Some (str "b")); BClose; BOut 3]].
Definition some_calls : list vop :=
  [VEnd; VPush EOpenTag (str "a"); VEqual 0 1; VPush EOpenTag (str "b"); VAssign 1 2; VCopy 1; VDestroy 2; VGet 1; VPost 3; VGet 1; VGet 3; VNext 1; VGet 1; VGet 3; VEqual 0 1; VNext 1; VDestroy 1; VDestroy 3;
   VPush ECloseTag (str "b"); VGet 4; VNext 4; VGet 4; VEqual 4 0; VDestroy 4; VPush ECloseTag (str "a"); VEqual 5 0; VDestroy 5].
Example reads_case : exists a s s' rs r, add_paths UTF8 two_paths [] = Ret a tt /\ sel_new a = Ret s tt /\ sel_run 20 20 a (pushed some_calls) s = Ret s' rs /\ rs = [[]; [2%Z; 1%Z]; [3%Z]; []] /\
  r_run some_calls (reading_of rs) = Some (r, [1; 2; 2; 2; 1; 0; 1; 1; 3; 0; 1; 1]%Z) /\ r_ready r = true.
Proof.
  do 5 eexists. split; [vm_compute; reflexivity|]. split; [vm_compute; reflexivity|]. split; [vm_compute; reflexivity|]. split; [reflexivity|]. split; [vm_compute; reflexivity|]. vm_compute. reflexivity.
Qed.
Example safe_case : (forall n, In n (prog_names two_paths) -> name_read UTF8 n) /\ Forall (Forall op_fits) two_paths /\ all_live some_calls [] <> None.
Proof.
  split; [|split; [cbn; repeat constructor|vm_compute; discriminate]]. intros n H. cbn in H. repeat (destruct H as [<-|H]; [eexists; vm_compute; reflexivity|]). contradiction.
Qed.
