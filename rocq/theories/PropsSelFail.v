(** C95: the path selector when its stacks cannot be enlarged. *)
From Coq Require Import Lia.
From Verif Require Import Base Charset XmlScanner PathAtm PathSelect PathExtra PathProg PathInspect InspectSpec PathRun8 InspectSafe SelFail SelFailProof.

(** Whichever allocations fail, in the constructor or later, and whatever calls are made before and after the failures: nothing outside of the stacks is accessed and every call returns or throws,
    if the states are not listed with the follows. *)
Theorem C95_safe : forall cs ps o, (forall n, In n (prog_names ps) -> name_read cs n) -> Forall (Forall op_fits) ps ->
  exists a, add_paths cs ps [] = Ret a tt /\
  ((exists x, fx_new a o = Throw x) \/
   exists x, fx_new a o = Ret x tt /\ forall os, Forall (fun op => forall e, op <> PStates e true) os -> exists N x' rs, (forall ff, (N <= ff)%nat -> fx_ops ff a os x = Ret x' rs) /\ length rs = length os).
Proof.
  intros cs ps o Hn Hf. destruct (add_up cs ps [] up_new Hn Hf) as [a [E W]]. exists a. split; [exact E|]. apply up_nrm in W. pose proof (fx_new_held a W o) as H.
  destruct (fx_new a o) as [x []| |x| |]; try contradiction; [right|left; eauto]. exists x. split; [reflexivity|]. intros os Hos.
  destruct (fx_ops_held a W os x) as [F [x' [rs [R [_ L]]]]]; [|exact H|eauto 6].
  eapply Forall_impl; [|exact Hos]. intros [e k| | | |e [|]] Q; try exact I. exact (Q e eq_refl).
Qed.
Print Assumptions C95_safe.

(** What the calls deliver until the first one that throws is what they deliver when no allocation fails. *)
Theorem C95_until : forall a o s o' u ff os x rs, fx_new a o = Ret (s, o') u -> fx_ops ff a os (s, o') = Ret x rs ->
  forall k ys, firstn k rs = map Some ys -> exists s1, sel_session ff a (firstn k os) = Ret s1 ys.
Proof.
  intros a o s o' u ff os x rs E H k ys Hk. unfold sel_session. rewrite (fx_new_ret _ _ _ _ _ E). cbn [bind]. exact (fx_ops_until a ff os s o' x rs H k ys Hk).
Qed.
Print Assumptions C95_until.

(** If no allocation fails no call throws. *)
Theorem C95_enough : forall a ff os s' rs, sel_session ff a os = Ret s' rs -> exists s, fx_new a [] = Ret (s, []) tt /\ fx_ops ff a os (s, []) = Ret (s', []) (map Some rs).
Proof.
  intros a ff os s' rs H. unfold sel_session in H. apply bind_Ret in H. destruct H as [s [[] [E H]]]. exists s. rewrite fx_new_ok, E. split; [reflexivity|]. apply fx_ops_ok. exact H.
Qed.
Print Assumptions C95_enough.

(** The states listed with the follows after a failure: the token stack is accessed behind its end. The index of a token that could not be pushed is left in the follows. *)
Theorem C95_states_refuted : exists ps a x os, add_paths UTF8 ps [] = Ret a tt /\ fx_new a [true; true; true; true; true; false] = Ret x tt /\
  os = [PInit EOpenTag (Some (str "a")); PFetch; PInit EOpenTag (Some (str "c")); PStates EOpenTag true] /\ fx_ops 100 a os x = Undef.
Proof.
  exists [[BTag (Some (str "a")); BFollow; BTag (Some (str "b")); BOut 1]]. do 3 eexists. split; [vm_compute; reflexivity|]. split; [vm_compute; reflexivity|]. split; [reflexivity|].
  vm_compute. reflexivity.
Qed.
Print Assumptions C95_states_refuted.

(** Reading on after an increment that threw does not deliver the results of the element: the token is matched again and a result is delivered twice. *)
Theorem C95_again_refuted : exists ps a x y os s', add_paths UTF8 ps [] = Ret a tt /\ fx_new a [true; true; true; true; true; false] = Ret x tt /\
  os = [PInit EOpenTag (Some (str "a")); PFetch; PFetch; PFetch; PFetch] /\
  fx_ops 20 a os x = Ret y [Some []; None; Some [2%Z]; Some [1%Z]; Some [1%Z]] /\
  sel_session 20 a [PInit EOpenTag (Some (str "a")); PFetch; PFetch; PFetch] = Ret s' [[]; [2%Z]; [1%Z]; [0%Z]].
Proof.
  exists [[BTag (Some (str "a")); BOut 1]; [BTag (Some (str "a")); BOut 2]]. do 5 eexists. split; [vm_compute; reflexivity|]. split; [vm_compute; reflexivity|]. split; [reflexivity|].
  split; [vm_compute; reflexivity|]. vm_compute. reflexivity.
Qed.
Print Assumptions C95_again_refuted.

(** An open tag whose scope could not be pushed: its close tag closes the tag around it, and what is in there is not selected any more, though it is selected when the element is passed completely
    or not at all. *)
Theorem C95_scope_refuted : exists ps a x y s1 s2 pre skipped post, add_paths UTF8 ps [] = Ret a tt /\ fx_new a [true; true; true; true; true; false] = Ret x tt /\
  pre = [PInit EOpenTag (Some (str "a")); PFetch; PClose] /\ skipped = [PInit EOpenTag (Some (str "c")); PInit ECloseTag (Some (str "c")); PFetch; PClose] /\ post = [PInit EOpenTag (Some (str "b")); PFetch] /\
  fx_ops 20 a (pre ++ skipped ++ post) x = Ret y [Some []; Some [0%Z]; Some []; None; Some []; Some [0%Z]; Some []; Some []; Some [0%Z]] /\
  sel_session 20 a (pre ++ skipped ++ post) = Ret s1 [[]; [0%Z]; []; []; []; [0%Z]; []; []; [1%Z]] /\
  sel_session 20 a (pre ++ post) = Ret s2 [[]; [0%Z]; []; []; [1%Z]].
Proof.
  exists [[BTag (Some (str "a")); BTag (Some (str "b")); BOut 1]]. do 8 eexists. split; [vm_compute; reflexivity|]. split; [vm_compute; reflexivity|]. split; [reflexivity|]. split; [reflexivity|]. split; [reflexivity|].
  split; [vm_compute; reflexivity|]. split; [vm_compute; reflexivity|]. vm_compute. reflexivity.
Qed.
Print Assumptions C95_scope_refuted.

(** Leaving out the whole element does not help: after the open tag that failed its siblings are not selected any more. *)
Theorem C95_sibling_refuted : exists ps a x y s1 pre post, add_paths UTF8 ps [] = Ret a tt /\ fx_new a [true; true; true; true; true; false] = Ret x tt /\
  pre = [PInit EOpenTag (Some (str "a")); PFetch; PClose; PInit EContent (Some (str "x")); PFetch; PClose] /\ post = [PInit EOpenTag (Some (str "b")); PFetch] /\
  fx_ops 20 a (pre ++ [PInit EOpenTag (Some (str "c"))] ++ post) x = Ret y [Some []; Some [0%Z]; Some []; Some []; Some [0%Z]; Some []; None; Some []; Some [0%Z]] /\
  sel_session 20 a (pre ++ post) = Ret s1 [[]; [0%Z]; []; []; [0%Z]; []; []; [1%Z]].
Proof.
  exists [[BTag (Some (str "a")); BTag (Some (str "b")); BOut 1]]. do 6 eexists. split; [vm_compute; reflexivity|]. split; [vm_compute; reflexivity|]. split; [reflexivity|]. split; [reflexivity|].
  split; [vm_compute; reflexivity|]. vm_compute. reflexivity.
Qed.
Print Assumptions C95_sibling_refuted.

(** Elements other than open tags are passed without memory, and a copy that fails leaves the original as it was. *)
Theorem C95_unchanged : forall ff a s o op x, fx_op ff a op (s, o) = Throw x ->
  match op with PInit e _ => e = EOpenTag | PFetch => True | PCopy => fst x = s | PClose | PStates _ _ => False end.
Proof.
  intros ff a s o op x H. destruct op as [e k| | | |e b]; cbn [fx_op fst snd] in H.
  - unfold fx_init in H. destruct e; try discriminate H. reflexivity.
  - exact I.
  - unfold sel_close in H. destruct (s_type s); try discriminate H; destruct (s_stk s); try discriminate H; destruct (_ && _); discriminate H.
  - unfold fx_copy in H. destruct (alloc o) as [[|] o1]; [|injection H as <-; reflexivity]. destruct (alloc o1) as [[|] o2]; [|injection H as <-; reflexivity].
    destruct (alloc o2) as [[|] o3]; [|injection H as <-; reflexivity]. destruct (alloc o3) as [[|] o4]; [discriminate H|injection H as <-; reflexivity].
  - exfalso. unfold sel_states in H. assert (K : forall n ti u, follow_states n ti e s <> Throw u).
    { induction n as [|n IH]; intros ti u; cbn [follow_states]; [discriminate|]. destruct (nth_error _ _) as [k|]; [|discriminate]. destruct (nth_error _ _) as [t|]; [|discriminate].
      specialize (IH (S ti) u). destruct (follow_states n (S ti) e s) as [s1 l| | | |] eqn:E; cbn [bind]; try discriminate. exact IH. }
    specialize (K (sc_fidx (s_scope s)) O). destruct b; [|discriminate H]. destruct (follow_states _ _ _ _) as [s1 l| | | |]; cbn in H; try discriminate H. exact (K _ eq_refl).
Qed.
Print Assumptions C95_unchanged.

(** ** The hypotheses can be met, with failures of every kind; the constructor throws or not. *)
Definition fail_paths : list (list pathop) := [[BTag (Some (str "a")); BFollow; BTag (Some (str "b")); BOut 1]; [BTag (Some (str "a")); BAttr (Some (str "x")); BTo 2; BOut 2]; [BTag (Some (str "a")); BClose; BOut 3]].
Definition fail_calls : list selop :=
  [PInit EOpenTag (Some (str "a")); PFetch; PFetch; PStates EOpenTag false; PInit EOpenTag (Some (str "b")); PFetch; PFetch; PCopy; PInit ECloseTag (Some (str "b")); PFetch; PClose; PInit ECloseTag (Some (str "a")); PFetch; PClose].
Example safe_case : (forall n, In n (prog_names fail_paths) -> name_read UTF8 n) /\ Forall (Forall op_fits) fail_paths /\ Forall (fun op => forall e, op <> PStates e true) fail_calls.
Proof.
  split; [|split; [|repeat constructor; discriminate]].
  - intros n H. cbn in H. repeat (destruct H as [<-|H]; [eexists; vm_compute; reflexivity|]). contradiction.
  - repeat constructor. discriminate.
Qed.
Example throws_case : exists a x, add_paths UTF8 fail_paths [] = Ret a tt /\ fx_new a [true; false] = Throw x.
Proof. do 2 eexists. split; [vm_compute; reflexivity|]. vm_compute. reflexivity. Qed.
Example until_case : exists a s o x rs, add_paths UTF8 fail_paths [] = Ret a tt /\ fx_new a [true; true; true; true; true; true; true; true; true; true; true; false] = Ret (s, o) tt /\ fx_ops 20 a fail_calls (s, o) = Ret x rs /\
  firstn 7 rs = map Some [[]; [0%Z]; [0%Z]; [3%Z]; []; [1%Z]; [0%Z]] /\ nth 7 rs (Some []) = None.
Proof. do 5 eexists. split; [vm_compute; reflexivity|]. split; [vm_compute; reflexivity|]. split; [vm_compute; reflexivity|]. split; reflexivity. Qed.
Example enough_case : exists a s' rs, add_paths UTF8 fail_paths [] = Ret a tt /\ sel_session 20 a fail_calls = Ret s' rs /\ length rs = 14%nat.
Proof. do 3 eexists. split; [vm_compute; reflexivity|]. split; [vm_compute; reflexivity|]. reflexivity. Qed.
Example unchanged_case : exists s x, fx_op 20 [] PCopy (s, [true; true; false]) = Throw x /\ s_toks s = [mkTok core_new 0].
Proof. exists (mkSel [] [] [] [mkTok core_new 0] EContent None scope_new 0). eexists. split; [vm_compute; reflexivity|]. reflexivity. Qed.
