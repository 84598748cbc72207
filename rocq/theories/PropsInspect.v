(** Safety of the path selector, and the functions inspecting automaton and selector: C64, C65. *)
From Coq Require Import Lia.
From Verif Require Import Base Charset CharsetSpec XmlScanner PathAtm PathSelect PathSpec PathExtra PathProg PathRun3 PathBuild3 PathInspect InspectSpec InspectSafe InspectPaths.

(** ** C64: whatever paths an automaton is built from and in whatever order elements are passed, results are fetched, iterators are destroyed, the selector is
    copied and its states are listed, no access leaves the states of the automaton or the stacks of tokens, and every call ends. *)
Theorem C64_selector : forall cs ps, (forall n, In n (prog_names ps) -> name_read cs n) -> Forall (Forall op_fits) ps ->
  exists a, add_paths cs ps [] = Ret a tt /\
  forall calls, exists N s rs, (forall fuel, (N <= fuel)%nat -> sel_session fuel a calls = Ret s rs) /\ length rs = length calls.
Proof.
  intros cs ps Hn Hf. destruct (add_up cs ps [] up_new Hn Hf) as [a [E W]]. exists a. split; [exact E|]. intros calls.
  destruct (sel_session_safe a (up_nrm a W) calls) as [N [s [rs [H1 [_ H2]]]]]. eauto.
Qed.
Print Assumptions C64_selector.
(** Elements no document has in this order, more iterators destroyed than made and results not fetched to the end. *)
Definition C64_paths : list (list pathop) := [[BTag (Some (str "a")); BFollow; BTag None; BOut 1]; [BTag (Some (str "a")); BContent; BIndex 0; BOut 2]; [BFollow; BAttr (Some (str "b")); BOut 0]].
Definition C64_calls : list selop :=
  [PFetch; PClose; PInit ECloseTag (Some (str "a")); PFetch; PClose; PClose; PInit EOpenTag (Some (str "a")); PFetch; PInit EOpenTag (Some (str "c")); PFetch;
   PStates EContent true; PCopy; PFetch; PInit EContent (Some (str "x")); PFetch; PInit ECloseTag None; PClose; PClose; PClose; PStates EOpenTag true].
Example C64_case : (forall n, In n (prog_names C64_paths) -> name_read UTF8 n) /\ Forall (Forall op_fits) C64_paths /\
  exists a, add_paths UTF8 C64_paths [] = Ret a tt /\ exists s, sel_session 100 a C64_calls = Ret s [[0%Z]; []; []; [0%Z]; []; []; []; [0%Z]; []; [1%Z]; []; []; [0%Z]; []; [0%Z]; []; []; []; []; []].
Proof.
  split; [intros n H; cbn in H; repeat (destruct H as [<-|H]; [eexists; vm_compute; reflexivity|]); contradiction|].
  split; [repeat constructor; discriminate|]. eexists. split; [vm_compute; reflexivity|]. eexists. vm_compute. reflexivity.
Qed.

(** ** C65: the result types listed for a state are those of the paths that end with the step of the state and report with the type of element given.
    Steps without name are not shared by paths: several states can make the same steps, the types listed for all of them are the types of all these paths. *)
Theorem C65_emitted : forall cs ps E, (forall n, In n (prog_names ps) -> usable cs n) -> paths_of ps = Some E ->
  exists a, add_paths cs ps [] = Ret a tt /\
  forall es e, es <> [] -> exists L, NoDup L /\ (forall i, In i L <-> last_step a es i) /\
    forall t, count_occ Z.eq_dec (flat_map (types_of a e) L) t = length (filter (ends_at es e t) E).
Proof. exact emitted_spec. Qed.
Print Assumptions C65_emitted.
(** *** It ends for every state, and no state outside of the automaton is accessed. *)
Theorem C65_emitted_ends : forall cs ps, (forall n, In n (prog_names ps) -> name_read cs n) -> Forall (Forall op_fits) ps ->
  exists a, add_paths cs ps [] = Ret a tt /\ forall i e, (i < length a)%nat -> exists l, atm_emitted a i e = Ret a l.
Proof.
  intros cs ps Hn Hf. destruct (add_up cs ps [] up_new Hn Hf) as [a [E W]]. exists a. split; [exact E|]. intros i e Hi. apply (emitted_safe a (up_nrm a W)). exact Hi.
Qed.
Print Assumptions C65_emitted_ends.
(** *** The states listed by the selector are states of the automaton that match the type of element. *)
Theorem C65_states : forall cs ps, (forall n, In n (prog_names ps) -> name_read cs n) -> Forall (Forall op_fits) ps ->
  exists a, add_paths cs ps [] = Ret a tt /\
  forall fuel calls s rs e withFollows, sel_session fuel a calls = Ret s rs ->
  exists l, sel_states e withFollows s = Ret s l /\ forall i, In i l -> exists st, nth_error a i = Some st /\ m_matches (c_mask (st_core st)) e = true.
Proof.
  intros cs ps Hn Hf. destruct (add_up cs ps [] up_new Hn Hf) as [a [E W]]. exists a. split; [exact E|]. intros fuel calls s rs e b Hs.
  destruct (sel_session_safe a (up_nrm a W) calls) as [N [s' [rs' [H1 [H2 _]]]]].
  assert (X : s = s').
  { pose proof (sel_session_mono a fuel (max fuel N) calls s rs (Nat.le_max_l _ _) Hs) as Y. rewrite H1 in Y by lia. congruence. }
  subst s'. apply sel_states_safe. exact H2.
Qed.
Print Assumptions C65_states.
Definition C65_paths : list (list pathop) :=
  [[BTag (Some (str "a")); BContent; BOut 1]; [BTag (Some (str "a")); BTag None; BContent; BOut 2]; [BTag (Some (str "a")); BTag None; BContent; BOut 3];
   [BTag (Some (str "a")); BAttr (Some (str "b")); BOut 4]; [BTag (Some (str "a")); BOut 5]].
Definition C65_steps : list edge := [mkEdge SOpen false (Some (str "a")); mkEdge SOpen false None].
Lemma C65_next a es i es' j : leads a es i ->
  match nth_error a i with Some st => match st_next st with Some k => (k, es ++ [step_of st]) = (j, es') | None => False end | None => False end -> leads a es' j.
Proof. intros H E. destruct (nth_error a i) as [st|] eqn:E1; [|contradiction]. destruct (st_next st) as [k|] eqn:E2; [|contradiction]. injection E as -> <-. eapply ld_next; eauto. Qed.
Lemma C65_link a es i j : leads a es i -> match nth_error a i with Some st => st_link st | None => None end = Some j -> leads a es j.
Proof. intros H E. destruct (nth_error a i) as [st|] eqn:E1; [|discriminate]. eapply ld_link; eauto. Qed.
Example C65_case : (forall n, In n (prog_names C65_paths) -> usable UTF8 n) /\
  (exists E, paths_of C65_paths = Some E /\ map (fun t => length (filter (ends_at C65_steps EContent t) E)) [1; 2; 3; 4; 5]%Z = [0; 1; 1; 0; 0]%nat) /\
  exists a, add_paths UTF8 C65_paths [] = Ret a tt /\
  (exists s, sel_session 100 a [PInit EOpenTag (Some (str "a")); PFetch; PFetch; PStates EOpenTag false] = Ret s [[]; [5%Z]; [0%Z]; [4%Z; 7%Z]]) /\
  last_step a C65_steps 4 /\ last_step a C65_steps 7 /\ types_of a EContent 4 = [2%Z] /\ types_of a EContent 7 = [3%Z] /\ types_of a ETagAttribValue 10 = [4%Z].
Proof.
  split; [intros n H; cbn in H; repeat (destruct H as [<-|H]; [split; [discriminate|vm_compute; reflexivity]|]); contradiction|].
  split; [eexists; split; vm_compute; reflexivity|]. eexists. split; [vm_compute; reflexivity|].
  split; [eexists; vm_compute; reflexivity|].
  split; [|split; [|split; [|split]]; try (vm_compute; reflexivity)].
  - exists [mkEdge SOpen false (Some (str "a"))]. eexists. eexists. split; [|split; [vm_compute; reflexivity|split; reflexivity]].
    apply (C65_link _ _ 3); [|reflexivity]. apply (C65_link _ _ 2); [|reflexivity]. apply (C65_next _ [] 1); [|reflexivity]. apply (C65_link _ _ 0); [apply ld_root|reflexivity].
  - exists [mkEdge SOpen false (Some (str "a"))]. eexists. eexists. split; [|split; [vm_compute; reflexivity|split; reflexivity]].
    apply (C65_link _ _ 4); [|reflexivity]. apply (C65_link _ _ 3); [|reflexivity]. apply (C65_link _ _ 2); [|reflexivity]. apply (C65_next _ [] 1); [|reflexivity].
    apply (C65_link _ _ 0); [apply ld_root|reflexivity].
Qed.
