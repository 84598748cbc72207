(** Automata copied and assigned when allocations fail: C96. *)
From Coq Require Import Lia.
From Verif Require Import Base XmlScanner PathAtm AtmMemory AtmValue AtmMemProofs AtmHeapProofs AtmFail AtmFailMem AtmFailMemSpec AtmFailMemProof AtmFailCopy AtmFailCopySpec AtmFailCopyProof.

(** ** C96: several automata, when some of the allocations fail.
    *** Automata are created, extended, copied and destroyed in any order, and exceptions are caught after each call. Whichever allocations fail, and whatever the vectors
    grow by: each automaton has the states of calls on its own, with copies that are independent of what they were copied from. A copy that does not get its memory throws
    and does not exist, the automaton copied is unchanged. A failing allocation is met by one call, and calls told to fail throw. The blocks in use are those of the keys and
    names of the automata there are, and at most one for each copy that failed and for each call that failed in a push_back into an automaton with states. *)
Theorem C96_history : forall grow cs answers, Forall plain_names cs ->
  exists ms, length ms = length cs /\
  match q_calls cs ms [] with
  | Ret V rs =>
      (total one ms <= nf answers)%nat /\ Forall2 (fun m r => m <> None -> threw r) ms rs /\
      exists g s D, n_calls grow cs ([], mkFm [] answers) = Ret (g, s) rs /\ map (option_map (map fst)) D = V /\ Forall2 (slot (fm_blks s)) g D /\
                    (all_need D <= in_use (fm_blks s) <= all_need D + lost_in cs ms)%nat
  | Fuel => n_calls grow cs ([], mkFm [] answers) = Fuel
  | _ => n_calls grow cs ([], mkFm [] answers) = Undef
  end.
Proof.
  intros grow cs answers Z. destruct (n_steps grow cs _ _ _ _ Z (n_start answers)) as (ms & L & K). exists ms. split; [exact L|]. change (vals []) with (@nil (option atm)) in K.
  destruct (q_calls cs ms []) as [V rs|V|V| |]; try exact K. destruct K as (g & s & D & lk & E & M & R & Lk & N & T). cbn [fm_ans] in N. split; [lia|]. split; [exact T|].
  exists g, s, D. split; [exact E|]. split; [exact M|]. split; [apply R|]. rewrite (n_use _ _ _ _ R), app_nil_r. lia.
Qed.
Print Assumptions C96_history.
Definition c96_tag (i : nat) (s : string) : mcall := MNext (Some i) OpOpenTag (Some (str s, str s)) false.
Definition c96_out (i : nat) (t : Z) : mcall := MOutput (Some i) (m_op OpContent) t false 0 (-1).
(** The array, the key and the name of a state are allocated. The first copy fails at the name, the second at the array, the third succeeds and is extended. *)
Definition c96_calls : list ncall := [NNew; NOn 0 (c96_tag 0 "aa"); NCopy 0; NCopy 0; NCopy 0; NOn 3 (c96_tag 2 "bb"); NOn 0 (c96_out 2 7); NDestroy 0; NCopy 3; NOn 4 (c96_out 4 8)].
Definition c96_answers : list bool := repeat true 5 ++ [true; true; false; false].
Example C96_history_case : Forall plain_names c96_calls /\ nf c96_answers = 2%nat /\
  (exists V rs, q_calls c96_calls [None; None; Some PlFirst; Some PlFirst] [] = Ret V rs /\ map (option_map (@length pstate)) V = [None; None; None; Some 5%nat; Some 6%nat] /\
     exists g s, n_calls (fun n => 2 * n)%nat c96_calls ([], mkFm [] c96_answers) = Ret (g, s) rs /\ in_use (fm_blks s) = 9%nat /\ rs = [NDone; NAns (Some (Some 2%nat)); NThrew; NThrew; NDone; NAns (Some (Some 4%nat)); NAns (Some (Some 3%nat)); NDone; NDone; NAns (Some (Some 5%nat))]).
Proof. split; [repeat constructor; discriminate|]. split; [reflexivity|]. vm_compute. eexists. eexists. split; [reflexivity|]. split; [reflexivity|]. eexists. eexists. split; [reflexivity|]. split; reflexivity. Qed.

(** *** With enough memory nothing is lost, and when the automata are destroyed all of it is freed. *)
Lemma none_fail ms answers : ~ In false answers -> (total one ms <= nf answers)%nat -> forall m, In m ms -> m = None.
Proof.
  intros T. assert (N : nf answers = 0%nat). { unfold nf. clear -T. induction answers as [|[|] l IH]; [reflexivity|cbn; apply IH; intro; apply T; right; assumption|exfalso; apply T; left; reflexivity]. }
  rewrite N. clear. induction ms as [|m ms IH]; [intros _ m []|]. change (total one (m :: ms)) with (one m + total one ms)%nat. intros Lo x [<-|I]; [destruct m; [cbn in Lo; lia|reflexivity]|apply IH; [lia|exact I]].
Qed.
Theorem C96_enough : forall grow cs answers g s rs, Forall plain_names cs -> ~ In false answers -> n_calls grow cs ([], mkFm [] answers) = Ret (g, s) rs ->
  exists D, q_calls cs [] [] = Ret (map (option_map (map fst)) D) rs /\ Forall2 (slot (fm_blks s)) g D /\ in_use (fm_blks s) = all_need D.
Proof.
  intros grow cs answers g s rs Z T E. destruct (C96_history grow cs answers Z) as (ms & L & K). destruct (q_calls cs ms []) as [V rs'|V|V| |] eqn:P; try (rewrite K in E; discriminate E).
  destruct K as (Lo & _ & g' & s' & D & E' & M & F & U). rewrite E in E'. injection E' as <- <- <-. exists D. pose proof (none_fail _ _ T Lo) as A. split; [|split; [exact F|]].
  - rewrite M. etransitivity; [|exact P]. clear -A. generalize (@nil (option atm)). revert cs. induction ms as [|m ms IH]; intros cs b; [reflexivity|]. destruct cs as [|c cs]; [reflexivity|]. cbn [q_calls hd tl]. rewrite (A m (or_introl eq_refl)).
    destruct (q_call c None b) as [b' r|b'|b'| |]; cbn [bind]; try reflexivity. rewrite <- IH; [reflexivity|]. intros. apply A. right. assumption.
  - assert (lost_in cs ms = 0%nat); [|lia]. clear -A. revert cs. induction ms as [|m ms IH]; intros [|c cs]; try reflexivity. cbn [lost_in]. rewrite (A m (or_introl eq_refl)), IH; [destruct c; reflexivity|]. intros. apply A. right. assumption.
Qed.
Print Assumptions C96_enough.
Example C96_enough_case : Forall plain_names (c96_calls ++ [NDestroy 4; NDestroy 1; NDestroy 2; NDestroy 3]) /\ ~ In false (repeat true 9) /\
  exists g s rs, n_calls (fun n => 2 * n)%nat (c96_calls ++ [NDestroy 4; NDestroy 1; NDestroy 2; NDestroy 3]) ([], mkFm [] (repeat true 9)) = Ret (g, s) rs /\ length (fm_blks s) = 20%nat /\ in_use (fm_blks s) = 0%nat.
Proof. split; [repeat constructor; discriminate|]. split; [intro I; apply repeat_spec in I; discriminate I|]. vm_compute. eexists. eexists. eexists. split; [reflexivity|]. split; reflexivity. Qed.

(** *** Assignment after any such history, to an automaton that has no states or not the place for those assigned: it is a copy, or it throws and changes no automaton; at
    most one block is lost then. All calls that follow are as in the model without memory, whichever of them fail. *)
Theorem C96_assign : forall grow cs answers g s rs, Forall plain_names cs -> n_calls grow cs ([], mkFm [] answers) = Ret (g, s) rs ->
  forall k j v w, k <> j -> n_get k g = Some v -> n_get j g = Some w -> av_states v = [] \/ (av_cap v < length (av_states w))%nat ->
  exists g' s' (b : bool) D e, n_assign k j (g, s) = Ret (g', s') (if b then NDone else NThrew) /\ (b = false -> g' = g) /\ nf (fm_ans s) = ((if b then 0 else 1) + nf (fm_ans s'))%nat /\
    Forall2 (slot (fm_blks s)) g D /\ n_get j D = Some e /\ Forall2 (slot (fm_blks s')) g' (if b then upd k (Some e) D else D) /\
    (in_use (fm_blks s) - all_need D <= in_use (fm_blks s') - all_need (if b then upd k (Some e) D else D) <= (in_use (fm_blks s) - all_need D) + if b then 0 else 1)%nat /\
    forall more, Forall plain_names more -> exists ms,
      match q_calls more ms (map (option_map (map fst)) (if b then upd k (Some e) D else D)) with
      | Ret V rs => exists h, n_calls grow more (g', s') = Ret h rs
      | Fuel => n_calls grow more (g', s') = Fuel
      | _ => n_calls grow more (g', s') = Undef
      end.
Proof.
  intros grow cs answers g s rs Z E k j v w J Ek Ej P. destruct (n_steps grow cs _ _ _ _ Z (n_start answers)) as (ms & L & K). change (vals []) with (@nil (option atm)) in K.
  destruct (q_calls cs ms []) as [V rs'|V|V| |]; try (rewrite K in E; discriminate E). destruct K as (g0 & s0 & D & lk & E' & M & R & Lk & N & T). rewrite E in E'. injection E' as <- <- <-. rewrite app_nil_r in R.
  pose proof (n_focus _ _ _ _ k R) as K. rewrite Ek in K. destruct K as (dk & ? & ? & ? & ? & Ed & _ & _ & _ & _ & G & _).
  pose proof (n_focus _ _ _ _ j R) as K. rewrite Ej in K. destruct K as (dj & ? & ? & ? & ? & Ee & _ & _ & _ & _ & G2 & _).
  assert (P' : dk = [] \/ (av_cap v < length dj)%nat).
  { destruct P as [P|P]; [left|right; rewrite <- (good_len _ _ _ _ G2); exact P]. pose proof (good_len _ _ _ _ G) as Q. rewrite P in Q. destruct dk; [reflexivity|discriminate Q]. }
  destruct (n_assign_ok g s D lk k j v dk dj R J Ek Ed Ee P') as (g' & s' & b & lk' & EA & R' & L' & N' & B).
  exists g', s', b, D, dj. split; [exact EA|]. split; [exact B|]. split; [exact N'|]. split; [apply R|]. split; [exact Ee|]. split; [apply R'|].
  split; [rewrite (n_use _ _ _ _ R), (n_use _ _ _ _ R'), app_length; lia|].
  intros more Zm. destruct (n_steps grow more _ _ _ _ Zm R') as (ms' & _ & K). exists ms'. unfold vals in K. destruct (q_calls more ms' _) as [V' rs'|V'|V'| |]; try exact K.
  destruct K as (g2 & s2 & _ & _ & E2 & _). exists (g2, s2). exact E2.
Qed.
Print Assumptions C96_assign.
(** An automaton with the path aa/bb is assigned to a new one, with no memory for the first name and then with enough *)
Definition c96_before : list ncall := [NNew; NOn 0 (c96_tag 0 "aa"); NOn 0 (c96_tag 2 "bb"); NNew].
Example C96_assign_case : Forall plain_names c96_before /\
  (exists g s rs v w, n_calls (fun n => 2 * n)%nat c96_before ([], mkFm [] (repeat true 12 ++ [false])) = Ret (g, s) rs /\ n_get 1 g = Some v /\ n_get 0 g = Some w /\ av_states v = [] /\ length (av_states w) = 5%nat /\
     exists s', n_assign 1 0 (g, s) = Ret (g, s') NThrew /\ in_use (fm_blks s) = 4%nat /\ in_use (fm_blks s') = 5%nat) /\
  (exists g s rs g' s', n_calls (fun n => 2 * n)%nat c96_before ([], mkFm [] (repeat true 12)) = Ret (g, s) rs /\ n_assign 1 0 (g, s) = Ret (g', s') NDone /\ in_use (fm_blks s') = 8%nat).
Proof.
  split; [repeat constructor; discriminate|]. vm_compute. split.
  - eexists. eexists. eexists. eexists. eexists. split; [reflexivity|]. split; [reflexivity|]. split; [reflexivity|]. split; [reflexivity|]. split; [reflexivity|]. eexists. split; [reflexivity|]. split; reflexivity.
  - eexists. eexists. eexists. eexists. eexists. split; [reflexivity|]. split; reflexivity.
Qed.

(** *** With place, for any number of states: it throws only if it has fewer states. The other automata still read as before, and the automaton assigned to reads as the other one, or if it throws as the
    first states of it, as many as it had. *)
Theorem C96_place : forall grow cs answers g s rs, Forall plain_names cs -> n_calls grow cs ([], mkFm [] answers) = Ret (g, s) rs ->
  forall k j v w, k <> j -> n_get k g = Some v -> n_get j g = Some w -> (length (av_states w) <= av_cap v)%nat ->
  exists g' s' (b : bool) D e, n_assign k j (g, s) = Ret (g', s') (if b then NDone else NThrew) /\ (b = false -> length (av_states v) < length (av_states w))%nat /\
    Forall2 (slot (fm_blks s)) g D /\ n_get j D = Some e /\ Forall2 (slot (fm_blks s')) g' (upd k (Some (if b then e else firstn (length (av_states v)) e)) D).
Proof.
  intros grow cs answers g s rs Z E k j v w J Ek Ej P. destruct (n_steps grow cs _ _ _ _ Z (n_start answers)) as (ms & L & K). change (vals []) with (@nil (option atm)) in K.
  destruct (q_calls cs ms []) as [V rs'|V|V| |]; try (rewrite K in E; discriminate E). destruct K as (g0 & s0 & D & lk & E' & M & R & Lk & N & T). rewrite E in E'. injection E' as <- <- <-. rewrite app_nil_r in R.
  destruct (n_assign_place g s D lk k j v w R J Ek Ej P) as (g' & s' & b & e & EA & B & Ee & F). exists g', s', b, D, e. split; [exact EA|]. split; [exact B|]. split; [apply R|]. split; [exact Ee|exact F].
Qed.
Print Assumptions C96_place.
(** Of the 5 states of the other automaton the first 3 share their keys and names, the other two are copies; with no memory for the second name only the first 3 are there *)
Example C96_place_case : exists cs, Forall plain_names cs /\
  (exists g s rs v w g' s' v', n_calls (fun n => 2 * n + 8)%nat cs ([], mkFm [] (repeat true 12)) = Ret (g, s) rs /\ n_get 1 g = Some v /\ n_get 0 g = Some w /\ (length (av_states v), length (av_states w)) = (3%nat, 5%nat) /\ (5 <= av_cap v)%nat /\
     n_assign 1 0 (g, s) = Ret (g', s') NDone /\ n_get 1 g' = Some v' /\ length (av_states v') = 5%nat /\ firstn 3 (av_states v') = firstn 3 (av_states w) /\ av_states v' <> av_states w) /\
  (exists g s rs g' s' v', n_calls (fun n => 2 * n + 8)%nat cs ([], mkFm [] (repeat true 8 ++ [false])) = Ret (g, s) rs /\ n_assign 1 0 (g, s) = Ret (g', s') NThrew /\ n_get 1 g' = Some v' /\ length (av_states v') = 3%nat).
Proof.
  exists [NNew; NOn 0 (c96_tag 0 "aa"); NOn 0 (c96_tag 2 "bb"); NNew; NOn 1 (c96_tag 0 "cc")]. split; [repeat constructor; discriminate|]. split.
  - do 8 eexists. split; [vm_compute; reflexivity|]. split; [vm_compute; reflexivity|]. split; [vm_compute; reflexivity|]. split; [vm_compute; reflexivity|]. split; [vm_compute; lia|].
    split; [vm_compute; reflexivity|]. split; [vm_compute; reflexivity|]. split; [reflexivity|]. split; [reflexivity|]. vm_compute. discriminate.
  - do 6 eexists. split; [vm_compute; reflexivity|]. split; [vm_compute; reflexivity|]. split; vm_compute; reflexivity.
Qed.

(** *** Otherwise it may throw and change the automaton: when there is place and fewer states, the states it has are assigned before the others are copied, with the pointers to the keys and names of
    the other automaton. Destroying both is undefined then. *)
Theorem C96_shared_refuted : exists cs answers g s rs g' s', Forall plain_names cs /\ n_calls (fun n => 2 * n + 8)%nat cs ([], mkFm [] answers) = Ret (g, s) rs /\
  n_assign 1 0 (g, s) = Ret (g', s') NThrew /\ n_get 1 g <> n_get 1 g' /\ n_calls (fun n => n) [NDestroy 0; NDestroy 1] (g, s) <> Undef /\ n_calls (fun n => n) [NDestroy 0; NDestroy 1] (g', s') = Undef.
Proof.
  exists [NNew; NOn 0 (c96_tag 0 "aa"); NOn 0 (c96_tag 2 "bb"); NNew; NOn 1 (c96_tag 0 "cc")], (repeat true 8 ++ [false]). vm_compute. eexists. eexists. eexists. eexists. eexists. split; [repeat constructor; discriminate|].
  split; [reflexivity|]. split; [reflexivity|]. split; [discriminate|]. split; [discriminate|]. reflexivity.
Qed.
Print Assumptions C96_shared_refuted.

(** *** What a failing copy has allocated is not all freed: when there is no memory for the name of a state its key is lost, and so again each time. *)
Theorem C96_lost_refuted : exists cs answers g s rs, Forall plain_names cs /\ n_calls (fun n => 2 * n)%nat cs ([], mkFm [] answers) = Ret (g, s) rs /\
  Forall (fun o => o = None) g /\ in_use (fm_blks s) = 3%nat /\ rs = [NDone; NAns (Some (Some 2%nat)); NThrew; NThrew; NThrew; NDone].
Proof.
  exists [NNew; NOn 0 (c96_tag 0 "aa"); NCopy 0; NCopy 0; NCopy 0; NDestroy 0], (repeat true 5 ++ concat (repeat [true; true; false] 3)). vm_compute. eexists. eexists. eexists. split; [repeat constructor; discriminate|].
  split; [reflexivity|]. split; [repeat constructor|]. split; reflexivity.
Qed.
Print Assumptions C96_lost_refuted.
