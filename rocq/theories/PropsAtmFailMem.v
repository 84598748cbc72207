(** The memory of an automaton when allocations fail: C92. *)
From Coq Require Import Lia.
From Verif Require Import Base XmlScanner PathAtm AtmMemory AtmValue AtmMemProofs AtmHeapProofs AtmFail AtmFailMem AtmFailMemSpec AtmFailMemProof.

(** ** C92: the memory of an automaton when some of its allocations fail.
    *** Whichever allocations fail in a history of calls, whatever the vector grows by, and with exceptions caught after each call: the calls answer and leave the
    states as in the model without memory, in which each call that does not get its memory is told by one of five places, and such a call throws. A failing
    allocation is met by one call, so that no more calls throw for memory than allocations fail. No block is freed twice or used after that: the blocks in use
    are those of the keys and names of the states and at most one for each call that failed in a push_back into an automaton with states. Once the automaton is
    destroyed only these are left. *)
Theorem C92_history : forall grow cs answers, Forall plain_name cs ->
  exists ms, length ms = length cs /\
  match p_calls cs ms [] with
  | Ret a rs =>
      (total one ms <= nf answers)%nat /\ Forall2 (fun m r => m <> None -> r = None) ms rs /\
      (exists s v d, m_calls grow cs av_new (mkFm [] answers) = Ret s (v, rs) /\ map fst d = a /\ Forall2 (holds (fm_blks s)) (av_states v) d /\
                     (needs d <= in_use (fm_blks s) <= needs d + total lossy ms)%nat) /\
      (exists s, m_life grow cs (mkFm [] answers) = Ret s rs /\ (in_use (fm_blks s) <= total lossy ms)%nat)
  | Fuel => m_calls grow cs av_new (mkFm [] answers) = Fuel
  | _ => m_calls grow cs av_new (mkFm [] answers) = Undef
  end.
Proof.
  intros grow cs answers Z.
  assert (G : good [] (fm_blks (mkFm [] answers)) av_new []) by (apply good_new; split; [constructor|intros p; split; [intros [l Q]; destruct p; discriminate Q|intros []]]).
  destruct (calls_place grow cs _ _ _ _ Z G) as (ms & L & K). exists ms. split; [exact L|]. cbn [map] in K. destruct (p_calls cs ms []) as [a rs|a|a| |].
  - destruct K as (s & v & d & lk & E & M & [O F C] & Lk & N & R). rewrite app_nil_r in O. cbn [fm_ans] in N. split; [lia|]. split; [exact R|].
    assert (U : in_use (fm_blks s) = (needs d + length lk)%nat) by (rewrite (use_owned _ _ O), app_length, (needs_ok _ _ _ F); reflexivity).
    split; [exists s, v, d; split; [exact E|]; split; [exact M|]; split; [exact F|]; lia|].
    destruct (lift_destroy _ _ _ O) as (s' & D & O' & _ & _). exists s'. unfold m_life. rewrite E. cbn [bind fst snd]. rewrite D. split; [reflexivity|]. rewrite (use_owned _ _ O'). exact Lk.
  - exact K.
  - exact K.
  - exact K.
  - exact K.
Qed.
Print Assumptions C92_history.
Definition c92_name (s : string) : option (list N * list N) := Some (str s, str s).
(** The vector grows to twice its size. In the fifth call the allocation of a name for copying the states fails, in the sixth call that of the array. *)
Definition c92_calls : list mcall :=
  [MNext (Some 0%nat) OpOpenTag (c92_name "aa") false; MNext (Some 2%nat) OpOpenTag (c92_name "bb") true; MNext (Some 4%nat) OpValue None true; MOutput (Some 9%nat) (m_op OpContent) 7 false 0 (-1);
   MNext (Some 4%nat) OpOpenTag (c92_name "cc") true; MOutput (Some 6%nat) (m_op OpContent) 7 false 0 (-1); MNext (Some 4%nat) OpOpenTag (c92_name "cc") true; MOutput (Some 4%nat) (m_op OpContent) 7 false 0 (-1)].
Definition c92_answers : list bool := repeat true 12 ++ [false; false].
Definition c92_result : list (option (option nat)) := [Some (Some 2%nat); Some (Some 4%nat); Some (Some 6%nat); None; None; None; Some (Some 9%nat); Some (Some 10%nat)].
Example C92_history_case : Forall plain_name c92_calls /\ nf c92_answers = 2%nat /\
  (exists a, p_calls c92_calls [None; None; None; None; Some PlNext; Some PlLink; None; None] [] = Ret a c92_result) /\
  exists s, m_life (fun n => 2 * n)%nat c92_calls (mkFm [] c92_answers) = Ret s c92_result /\ in_use (fm_blks s) = 1%nat.
Proof. split; [repeat constructor; discriminate|]. split; [reflexivity|]. vm_compute. split; eexists; [reflexivity|]. split; reflexivity. Qed.

(** *** With enough memory all of it is freed. *)
Theorem C92_enough : forall grow cs answers s rs, Forall plain_name cs -> ~ In false answers -> m_life grow cs (mkFm [] answers) = Ret s rs ->
  in_use (fm_blks s) = 0%nat /\ exists a, p_calls cs [] [] = Ret a rs.
Proof.
  intros grow cs answers s rs Z T E. destruct (C92_history grow cs answers Z) as (ms & L & K).
  assert (N : nf answers = 0%nat). { unfold nf. clear -T. induction answers as [|[|] l IH]; [reflexivity|cbn; apply IH; intro; apply T; right; assumption|exfalso; apply T; left; reflexivity]. }
  destruct (p_calls cs ms []) as [a rs'|a|a| |] eqn:P; try (unfold m_life in E; rewrite K in E; discriminate E).
  destruct K as (Lo & _ & _ & s' & E' & U). rewrite E in E'. injection E' as <- <-.
  assert (A : forall m, In m ms -> m = None).
  { rewrite N in Lo. clear -Lo. induction ms as [|m ms IH]; [intros m []|]. change (total one (m :: ms)) with (one m + total one ms)%nat in Lo. intros x [<-|I]; [destruct m; [cbn in Lo; lia|reflexivity]|apply IH; [lia|exact I]]. }
  split.
  - assert (total lossy ms = 0%nat); [|lia]. clear -A. induction ms as [|m ms IH]; [reflexivity|]. change (total lossy (m :: ms)) with (lossy m + total lossy ms)%nat. rewrite (A m (or_introl eq_refl)), IH; [reflexivity|]. intros. apply A. right. assumption.
  - exists a. rewrite <- P. clear -A. generalize (@nil pstate). revert cs. induction ms as [|m ms IH]; intros cs b; [reflexivity|]. destruct cs as [|c cs]; [reflexivity|]. cbn [p_calls hd tl]. rewrite (A m (or_introl eq_refl)).
    destruct (p_call c None b) as [b' r|b'|b'| |]; cbn [bind]; try reflexivity. rewrite <- IH; [reflexivity|]. intros. apply A. right. assumption.
Qed.
Print Assumptions C92_enough.
Example C92_enough_case : Forall plain_name c92_calls /\ ~ In false (repeat true 20) /\ exists s rs, m_life (fun n => 2 * n)%nat c92_calls (mkFm [] (repeat true 20)) = Ret s rs /\ length (fm_blks s) = 12%nat.
Proof. split; [repeat constructor; discriminate|]. split; [intro I; apply repeat_spec in I; discriminate I|]. vm_compute. eexists. eexists. split; reflexivity. Qed.

(** *** The blocks of a call that failed in a push_back into an automaton with states are not all freed: a state is copied key first, and when there is no memory for
    its name the constructor is left by the exception, so that the destructor does not delete the key. Each such call loses a block for good. *)
Theorem C92_lost_refuted : exists cs answers s rs, Forall plain_name cs /\ m_life (fun n => 2 * n)%nat cs (mkFm [] answers) = Ret s rs /\ in_use (fm_blks s) = 3%nat /\ rs = [Some (Some 2%nat); Some (Some 4%nat); Some (Some 6%nat); None; None; None].
Proof.
  exists (firstn 3 c92_calls ++ [MNext (Some 4%nat) OpOpenTag (c92_name "cc") true; MOutput (Some 2%nat) (m_op OpContent) 7 false 0 (-1); MOutput (Some 6%nat) (m_op OpContent) 7 false 0 (-1)]), (repeat true 10 ++ concat (repeat [true; true; false] 3)).
  vm_compute. eexists. eexists. split; [repeat constructor; discriminate|]. split; [reflexivity|]. split; reflexivity.
Qed.
Print Assumptions C92_lost_refuted.
