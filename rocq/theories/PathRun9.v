(** The results of a selector for an automaton. *)
From Coq Require Import Lia ZifyBool ZifyNat.
From Verif Require Import Base XmlScanner PathAtm PathSelect PathSpec PathDesc PathTrie PathKill PathRun1 PathRun2 PathRun3 PathRun4 PathRun5 PathRun6 PathRun7 PathRun8.

Definition select (f ff : nat) (a : atm) (evs : list event) : out sel (list (list Z)) :=
  let! (s, _) := sel_new a in sel_run f ff a evs s.

Lemma wf_expr_wfx kb x : wf_exprk kb x = true -> wfx kb x /\ transient x = false /\ is_now x = false.
Proof.
  unfold wf_exprk. intro H. apply andb_prop in H. destruct H as [H _]. apply andb_prop in H. destruct H as [H H2]. split; [eapply wf_edges_mono; exact H|].
  split; [eapply wf_edges_transient; eauto|]. unfold is_now. destruct (x_edges x); [|reflexivity]. destruct (x_rep x); [discriminate|reflexivity|reflexivity].
Qed.

Definition lift_hits (kb ub : bool) (t : Z) (E : list expr) (evs : list event) (i : nat) : nat :=
  list_sum (map (fun x => if (x_type x =? t)%Z then hitsk kb (lift ub x) 0 evs i else O) E).
Lemma new_inv kb ub a : atm_wf a -> (0 < length a)%nat -> (forall x, In x (lang a 0) -> wf_exprk kb x = true) ->
  exists s, sel_new a = Ret s tt /\ Inv kb a s PStart /\ s_stk s = [] /\ forall evs t i, tot kb ub a s PStart evs t i = lift_hits kb ub t (lang a 0) evs i.
Proof.
  intros W Ha Hw. set (s0 := mkSel [] [] [] [] EContent None scope_new 0).
  destruct (sel_expand_spec a W 0 s0 Ha) as (s & new & tr & E & X). destruct X as [X1 X2 X3 X4 X5 X6 XU X7 X8 X9 X10 X11 X12 X13].
  cbn [s0 s_toks s_follows s_trig s_stk s_type s_key s_iter s_scope scope_new sc_from sc_to sc_fidx app length] in *. rewrite app_nil_r in X3.
  destruct X4 as (Y1 & Y2 & Y3 & Y4 & Y5 & Y6 & Y7).
  assert (Htr : tr = []).
  { destruct tr as [|t tr]; [reflexivity|exfalso]. specialize (X13 t). rewrite list_sum_0 in X13.
    - unfold cnt in X13. cbn [count_occ] in X13. destruct (Z.eq_dec t t); [discriminate|contradiction].
    - intros x Hx. destruct (wf_expr_wfx kb x (Hw x Hx)) as (_ & _ & ->). reflexivity. }
  assert (Ef : eff_from s = O) by (unfold eff_from; rewrite Y2; exact Y5).
  exists s. split; [|split; [|split; [exact Y1|]]].
  - unfold sel_new. destruct a as [|st a']; [cbn in Ha; lia|]. exact E.
  - constructor; rewrite ?Ef, ?Y1, ?Y6, ?X1.
    + congruence.
    + reflexivity.
    + lia.
    + rewrite X2. reflexivity.
    + exact X7.
    + intros tk x Hin Hx. apply (wf_expr_wfx kb), Hw. apply (X11 tk x Hin Hx).
    + constructor.
      * intros k tk Hk _ _. apply (X6 tk). eapply nth_error_In; eauto.
      * intros k tk Hk _ Hf. apply (X6 tk); [eapply nth_error_In; eauto|exact Hf].
      * intros k tk x Hk _ Hx Tx. destruct (wf_expr_wfx kb x) as (_ & Ht & _); [apply Hw, (X11 tk x); [eapply nth_error_In; eauto|exact Hx]|]. congruence.
      * intros ev Hm. right. destruct (proj1 (XU ev) Hm) as [Hm'|(tk & Hin & Hm')]; [cbn [sc_mask] in Hm'; rewrite m_zero_matches in Hm'; discriminate|].
        apply In_nth_error in Hin. destruct Hin as [k Hk]. exists k, tk. split; [exact Hk|]. split; [apply nth_error_Some; congruence|]. split; [left; lia|exact Hm'].
      * intros ev Hm. destruct (proj2 (XU ev) Hm) as [Hm'|(tk & Hin & Hf & Hm')]; [cbn [sc_fmask] in Hm'; rewrite m_zero_matches in Hm'; discriminate|].
        apply In_nth_error in Hin. destruct Hin as [k Hk]. exists k, tk. split; [exact Hk|]. split; [apply nth_error_Some; congruence|]. split; assumption.
    + constructor.
    + discriminate.
  - intros evs t i. unfold tot, lift_hits. rewrite X1, Y1. 
    set (h := fun x => if (x_type x =? t)%Z then (if is_now x then O else hitsk kb (lift ub x) 0 evs i) else O).
    rewrite (wsum_const _ (fun tk => list_sum (map h (tok_exprs a tk)))).
    + rewrite X12.
      * apply list_sum_ext. intros x Hx. unfold h. destruct (wf_expr_wfx kb x (Hw x Hx)) as (_ & _ & ->). reflexivity.
      * intros x Hx. unfold h. rewrite Hx. destruct (_ =? _)%Z; reflexivity.
    + intros k tk Hk. cbn [Nat.add]. unfold frB. change (dep [] k) with O. unfold contr. destruct (gone ub a tk) eqn:D.
      * rewrite (X10 tk (nth_error_In _ _ Hk) (gone_dead ub a tk D)). reflexivity.
      * apply list_sum_ext. intros x Hx. unfold cx, h. destruct (wf_expr_wfx kb x) as (_ & -> & ->); [apply Hw, (X11 tk x); [eapply nth_error_In; eauto|exact Hx]|]. reflexivity.
Qed.

Theorem select_spec a evs : atm_wf a -> (0 < length a)%nat -> (forall x, In x (lang a 0) -> wf_expr x = true) -> ordered PStart 0 evs = true ->
  exists N s rs, (forall f ff, (N <= f)%nat -> (N <= ff)%nat -> select f ff a evs = Ret s rs) /\ length rs = length evs /\
    forall t i, (i < length evs)%nat -> cnt t (nth i rs []) = hits_of t (lang a 0) 0 evs i.
Proof.
  intros W Ha Hw Ho. destruct (new_inv false false a W Ha) as (s & E & I & Hs & Ht); [intros x Hx; rewrite wf_exprk_false; apply Hw; exact Hx|].
  destruct (run_spec false false a W eq_refl eq_refl evs s PStart I) as (N & s' & rs & ER & L & H); [rewrite Hs; exact Ho|].
  exists N, s', rs. split; [|split; [exact L|]].
  - intros f ff Hf Hff. unfold select. rewrite E. cbn [bind]. apply ER; assumption.
  - intros t i Hi. rewrite H, Ht by exact Hi. unfold lift_hits, hits_of. apply list_sum_ext. intros x _. rewrite hitsk_false. reflexivity.
Qed.
