(** The memory of automata: C85. *)
From Coq Require Import Lia.
From Verif Require Import Base XmlScanner PathAtm AtmMemory AtmValue AtmMemProofs AtmHeapProofs.

(** ** C85: automata have memory of their own, and it is freed once.
    *** If no automaton that has states is assigned one that has states, every history of calls on several automata answers as if automata were values, whatever the
    vectors grow by: the keys of an automaton are changed by no other, nothing is freed twice or used after that. The blocks in use at the end are one for each
    key and one for each name in the automata not destroyed. *)
Theorem C85_history_partial : forall grow cs V l, plain cs [] -> v_calls cs [] = Ret V l ->
  exists h, a_calls grow cs ah_new = Ret h l /\ in_use (ah_blks h) = all_need V.
Proof.
  intros grow cs V l P E. pose proof (calls_ok grow cs ah_new [] rel_new P) as K. rewrite E in K. destruct K as [h [K R]]. exists h. split; [exact K|]. exact (use_ok _ _ R).
Qed.
Print Assumptions C85_history_partial.

(* shows [plain] of a history given *)
Ltac plain_case := vm_compute; repeat (split; [first [exact I|right; left; reflexivity|repeat constructor; discriminate]|]); exact I.
(** The history builds two automata, copies one before and after its vector is moved, assigns to one that is empty and destroys all but one. *)
Definition c85_name (s : string) : option (list N * list N) := Some (str s, str s).
Definition c85_calls : list acall :=
  [ANew; ANext 0 0 OpOpenTag (c85_name "aa") false; ANext 0 1 OpOpenTag (c85_name "bb") true; ACopy 0; AOutput 0 2 (m_op OpContent) 7 false 0 (-1);
   ANext 1 0 OpOpenTag (c85_name "aa") false; ANext 1 0 OpAttribute (c85_name "cc") false; ANext 1 0 OpValue None false; AOutput 1 99 (m_op OpContent) 7 false 0 (-1); ANew; AAssign 2 0; ADestroy 0; ANext 2 0 OpOpenTag (c85_name "dd") false; ADestroy 1].
Example C85_history_case : plain c85_calls [] /\ exists V, v_calls c85_calls [] =
    Ret V [ANothing; AState 2; AState 4; ANothing; AState 5; AState 2; AState 6; AState 8; AException; ANothing; ANothing; ANothing; AState 7; ANothing] /\ all_need V = 6%nat.
Proof. split; [plain_case|]. vm_compute. eexists. split; reflexivity. Qed.

(** *** All memory is freed when all automata are destroyed. *)
Theorem C85_all_freed : forall grow cs V l, plain cs [] -> v_calls cs [] = Ret V l -> (forall k, v_get V k = None) ->
  exists h, a_calls grow cs ah_new = Ret h l /\ in_use (ah_blks h) = 0%nat.
Proof.
  intros grow cs V l P E D. destruct (C85_history_partial grow cs V l P E) as [h [K U]]. exists h. split; [exact K|]. rewrite U. clear -D.
  induction V as [|v V IH]; [reflexivity|]. pose proof (D 0%nat) as D0. cbn in D0. subst v. unfold all_need. cbn. apply IH. intros k. apply (D (S k)).
Qed.
Print Assumptions C85_all_freed.
Example C85_all_freed_case : plain (c85_calls ++ [ADestroy 2]) [] /\ exists V l, v_calls (c85_calls ++ [ADestroy 2]) [] = Ret V l /\ V = [None; None; None].
Proof. split; [plain_case|]. vm_compute. eexists. eexists. split; reflexivity. Qed.

(** *** What a call does to the states is what it does in the model of the automaton without memory. *)
Theorem C85_next : forall i op key src follow (a : vatm),
  atm_defineNext i op key follow (map fst a) = match v_defineNext i op key src follow a with Ret _ (n, a) => Ret (map fst a) n | Fuel => Fuel | _ => Undef end.
Proof. intros i op key src follow a. rewrite (next_map i op key src follow a). unfold as_atm. destruct (v_defineNext i op key src follow a) as [u [n b]|u|u| |]; reflexivity. Qed.
Print Assumptions C85_next.
Theorem C85_output : forall i m t follow b e (a : vatm),
  atm_defineOutput i m t follow b e (map fst a) =
  match v_defineOutput i m t follow b e a with Ret _ (Some n, a) => Ret (map fst a) n | Ret _ (None, a) => Throw (map fst a) | Fuel => Fuel | _ => Undef end.
Proof. intros i m t follow b e a. rewrite (output_map i m t follow b e a). unfold as_atm. destruct (v_defineOutput i m t follow b e a) as [u [[n|] d]|u|u| |]; reflexivity. Qed.
Print Assumptions C85_output.
Example C85_next_case : v_defineNext 0 OpOpenTag (Some (str "a")) (Some (str "a")) true [] = Ret tt (2%nat, [(mkSt core_new None None (Some 1%nat), None);
  (mkSt (mkCore (m_op OpOpenTag) true 0 0 (-1)) (Some (str "a")) (Some 2%nat) None, Some (str "a")); v_new]).
Proof. reflexivity. Qed.

(** *** Assignment without place for the states is right, and what follows too. *)
Theorem C85_no_place : forall grow cs h V l k j v dk dj, plain cs [] -> v_calls cs [] = Ret V l -> a_calls grow cs ah_new = Ret h l ->
  ah_get h k = Some v -> v_get V k = Some dk -> v_get V j = Some dj -> (av_cap v < length dj)%nat ->
  forall cs' V' l', plain cs' (upd k (Some dj) V) -> v_calls cs' (upd k (Some dj) V) = Ret V' l' ->
  exists h', a_calls grow (AAssign k j :: cs') h = Ret h' (ANothing :: l') /\ in_use (ah_blks h') = all_need V'.
Proof.
  intros grow cs h V l k j v dk dj P E A Ek Ed Ee L cs' V' l' P' E'. pose proof (calls_ok grow cs ah_new [] rel_new P) as K. rewrite E, A in K. destruct K as [h0 [K R]]. injection K as <-.
  destruct (assign_copies grow h V k j v dk dj R Ek Ed Ee L) as [h1 [C R1]]. pose proof (calls_ok grow cs' h1 _ R1 P') as K. rewrite E' in K. destruct K as [h' [K R2]].
  exists h'. split; [|exact (use_ok _ _ R2)]. cbn [a_calls]. rewrite C. cbn [bind]. rewrite K. reflexivity.
Qed.
Print Assumptions C85_no_place.
Definition c85_two : list acall := [ANew; ANext 0 0 OpOpenTag (c85_name "aa") false; ANext 0 1 OpOpenTag (c85_name "bb") true; ANew; ANext 1 0 OpOpenTag (c85_name "cc") false].
Example C85_no_place_case : plain c85_two [] /\ exists V l h v dk dj, v_calls c85_two [] = Ret V l /\ a_calls (fun n => 2 * n)%nat c85_two ah_new = Ret h l /\
  ah_get h 1 = Some v /\ v_get V 1 = Some dk /\ v_get V 0 = Some dj /\ (av_cap v < length dj)%nat.
Proof. split; [plain_case|]. vm_compute. do 6 eexists. repeat (split; [reflexivity|]). vm_compute. apply le_n. Qed.

(** *** With place for the states it is not: the states both vectors have are assigned with the pointers to their keys and names. If there is one, destroying both
    automata deletes it twice, in any order. The keys and names of the states assigned to are lost. *)
Theorem C85_assigned : forall grow cs h V l k j v dk dj, plain cs [] -> v_calls cs [] = Ret V l -> a_calls grow cs ah_new = Ret h l -> k <> j ->
  ah_get h k = Some v -> v_get V k = Some dk -> v_get V j = Some dj -> (length dj <= av_cap v)%nat ->
  exists h1, a_call grow (AAssign k j) h = Ret h1 ANothing /\
    (in_use (ah_blks h1) + needs (skipn (length dj) dk) = in_use (ah_blks h) + needs (skipn (length dk) dj))%nat /\
    ((0 < needs (firstn (length dk) dj))%nat -> a_calls grow [ADestroy k; ADestroy j] h1 = Undef /\ a_calls grow [ADestroy j; ADestroy k] h1 = Undef).
Proof.
  intros grow cs h V l k j v dk dj P E A D Ek Ed Ee L. pose proof (calls_ok grow cs ah_new [] rel_new P) as K. rewrite E, A in K. destruct K as [h0 [K R]]. injection K as <-.
  destruct (ah_get h j) as [w|] eqn:Ej; [|rewrite (get_none _ _ _ R Ej) in Ee; discriminate]. eapply assign_shares; eauto.
Qed.
Print Assumptions C85_assigned.
(** In particular when the automaton assigned to has as many states as the other, as with a copy of it. *)
Theorem C85_assigned_smaller : forall grow cs V l k j dk dj, plain cs [] -> v_calls cs [] = Ret V l -> k <> j ->
  v_get V k = Some dk -> v_get V j = Some dj -> (length dj <= length dk)%nat -> (0 < needs dj)%nat ->
  a_calls grow (cs ++ [AAssign k j; ADestroy k; ADestroy j]) ah_new = Undef /\ a_calls grow (cs ++ [AAssign k j; ADestroy j; ADestroy k]) ah_new = Undef.
Proof.
  intros grow cs V l k j dk dj P E D Ed Ee L N. pose proof (calls_ok grow cs ah_new [] rel_new P) as K. rewrite E in K. destruct K as [h [K R]].
  pose proof (focus h V k R) as Q. destruct (ah_get h k) as [v|] eqn:Ek; [|congruence]. destruct Q as [d [A1 [A2 [V1 [V2 [Ed' [_ [_ [_ [_ [G _]]]]]]]]]]]. rewrite Ed in Ed'. injection Ed' as <-.
  pose proof (good_len _ _ _ _ G). pose proof (go_cap _ _ _ _ G).
  destruct (C85_assigned grow cs h V l k j v dk dj P E K D Ek Ed Ee ltac:(lia)) as [h1 [C [_ Z]]]. rewrite firstn_all2 in Z by exact L. destruct (Z N) as [Z1 Z2].
  assert (App : forall cs1 cs2 h0 h' l0, a_calls grow cs1 h0 = Ret h' l0 -> a_calls grow cs2 h' = Undef -> a_calls grow (cs1 ++ cs2) h0 = Undef).
  { clear. induction cs1 as [|c cs1 IH]; intros cs2 h0 h' l0 E1 E2; cbn [a_calls app] in *; [congruence|]. destruct (a_call grow c h0) as [h2 a|h2|h2| |]; cbn [bind] in *; try discriminate.
    destruct (a_calls grow cs1 h2) as [h3 l3|h3|h3| |] eqn:E3; cbn [bind] in *; try discriminate. injection E1 as -> <-. rewrite (IH cs2 h2 h' l3 E3 E2). reflexivity. }
  assert (One : forall c h0 h2 a0 cs2, a_call grow c h0 = Ret h2 a0 -> a_calls grow cs2 h2 = Undef -> a_calls grow (c :: cs2) h0 = Undef) by (intros c h0 h2 a0 cs2 E1 E2; cbn [a_calls]; rewrite E1; cbn [bind]; rewrite E2; reflexivity).
  split; eapply App; [exact K|exact (One _ _ _ _ _ C Z1)|exact K|exact (One _ _ _ _ _ C Z2)].
Qed.
Print Assumptions C85_assigned_smaller.
Example C85_assigned_case : exists V l dk dj, v_calls c85_two [] = Ret V l /\ v_get V 0 = Some dk /\ v_get V 1 = Some dj /\ length dj = 3%nat /\ length dk = 5%nat /\ needs dj = 2%nat.
Proof. vm_compute. do 4 eexists. repeat (split; [reflexivity|]). reflexivity. Qed.
(** Without destruction: after an assignment a path added to one automaton moves its states and deletes the keys the other one compares. *)
Theorem C85_assigned_refuted : exists cs c, a_calls (fun n => 2 * n)%nat (cs ++ [c]) ah_new = Undef /\ (exists h l, a_calls (fun n => 2 * n)%nat cs ah_new = Ret h l) /\
  exists V l, v_calls (cs ++ [c]) [] = Ret V l.
Proof.
  exists (c85_two ++ [AAssign 0 1; ANext 0 0 OpOpenTag (c85_name "xx") false; ANext 0 0 OpOpenTag (c85_name "yy") false; ANext 0 0 OpOpenTag (c85_name "zz") false]), (ANext 1 0 OpOpenTag (c85_name "cc") false).
  vm_compute. split; [reflexivity|]. split; do 2 eexists; reflexivity.
Qed.
Print Assumptions C85_assigned_refuted.
