(** The path selector with failing allocations: safety, and what a call that returns has done. *)
From Coq Require Import Lia.
From Verif Require Import Base Charset XmlScanner PathAtm PathSelect PathSpec PathExtra PathProg PathInspect InspectSpec PathRun1 PathRun8 InspectSafe SelFail.

(** ** a call that returns has done what it does without failures *)
Lemma fx_expand1_ret i st s o s' o' : fx_expand1 i st (s, o) = Ret (s', o') tt -> s' = expand1 i st s.
Proof.
  unfold fx_expand1, expand1. destruct (m_empty (c_mask (st_core st)) && negb (c_type (st_core st) =? 0)%Z).
  - destruct (alloc o) as [[|] o1]; [|discriminate]. intros H; injection H as <- _. reflexivity.
  - destruct (c_follow (st_core st)); [destruct (alloc o) as [[|] o1]; [|discriminate]|]; cbn [bind];
      match goal with |- context [alloc ?x] => destruct (alloc x) as [[|] o2] end; try discriminate; intros H; injection H as <- _; reflexivity.
Qed.
Lemma fx_expand_ret a : forall f i s o s' o' u, fx_expand f a i (s, o) = Ret (s', o') u -> expand f a i s = Ret s' tt.
Proof.
  induction f as [|f IH]; intros i s o s' o' u H; [discriminate|]. cbn [fx_expand expand] in *. destruct i as [i|]; [|injection H as <- _ _; reflexivity].
  destruct (nth_error a i) as [st|]; [|discriminate]. apply bind_Ret in H. destruct H as [[s1 o1] [[] [E1 H]]]. apply fx_expand1_ret in E1. subst s1. exact (IH _ _ _ _ _ _ H).
Qed.
Lemma fx_produce_ret a i st s o s' o' u : fx_produce a i st (s, o) = Ret (s', o') u -> sel_produce a i st s = Ret s' tt.
Proof.
  unfold fx_produce, sel_produce. destruct (nth_error (s_toks s) i) as [t|]; [|discriminate]. destruct (count_down (t_core t)) as [c [|]]; [|intros H; injection H as <- _ _; reflexivity].
  apply fx_expand_ret.
Qed.
Lemma fx_match_ret a i s o s' o' r : fx_match a i (s, o) = Ret (s', o') r -> sel_match a i s = Ret s' r.
Proof.
  unfold fx_match, sel_match. destruct (s_key s) as [key|]; [|intros H; injection H as <- _ <-; reflexivity].
  destruct (Nat.leb (sc_to (s_scope s)) i); [intros H; injection H as <- _ <-; reflexivity|].
  destruct (nth_error (s_toks s) i) as [t|] eqn:Et; [|discriminate]. intros H. apply bind_Ret in H. destruct H as [[s1 o1] [rt [E1 H]]].
  match goal with |- bind ?m _ = _ => assert (E : m = Ret s1 rt) end.
  { destruct (m_matches _ _); [|injection E1 as <- _ <-; reflexivity]. destruct (nth_error a (t_state t)) as [st|]; [|discriminate].
    apply bind_Ret in E1. destruct E1 as [[s2 o2] [u [E2 H2]]].
    match goal with |- bind ?m _ = _ => assert (E : m = Ret s2 tt) end.
    { match goal with |- (if ?b then _ else _) = _ => destruct b end; [eapply fx_produce_ret; exact E2|injection E2 as <- _ _; reflexivity]. }
    rewrite E. cbn [bind]. destruct (nth_error (s_toks s2) i) as [t2|]; [|discriminate]. destruct (c_type (t_core t2) =? 0)%Z; [injection H2 as <- _ <-; reflexivity|].
    destruct (count_down (t_core t2)) as [c go]. injection H2 as <- _ <-. reflexivity. }
  rewrite E. cbn [bind]. destruct (nth_error (s_toks s1) i) as [t1|]; [|discriminate]. injection H as <- _ <-. reflexivity.
Qed.
Lemma fx_fetch_loop_ret a : forall f s o s' o' r, fx_fetch_loop f a (s, o) = Ret (s', o') r -> fetch_loop f a s = Ret s' r.
Proof.
  induction f as [|f IH]; intros s o s' o' r H; [discriminate|]. cbn [fx_fetch_loop fetch_loop] in *.
  assert (AG : forall s1 o1 (t : Z), (if (t =? 0)%Z then fx_fetch_loop f a (s1, o1) else Ret (s1, o1) t) = Ret (s', o') r -> (if (t =? 0)%Z then fetch_loop f a s1 else Ret s1 t) = Ret s' r).
  { intros s1 o1 t. destruct (t =? 0)%Z; [apply IH|]. intros Q. injection Q as <- _ <-. reflexivity. }
  assert (TR : match s_trig s with
      | t :: l => if (t =? 0)%Z then fx_fetch_loop f a (sel_set_trig l s, o) else Ret (sel_set_trig l s, o) t
      | [] => Ret (sel_no_key s, o) 0%Z
      end = Ret (s', o') r ->
    match s_trig s with
      | t :: l => if (t =? 0)%Z then fetch_loop f a (sel_set_trig l s) else Ret (sel_set_trig l s) t
      | [] => Ret (sel_no_key s) 0%Z
      end = Ret s' r).
  { destruct (s_trig s) as [|t l]; [intros Q; injection Q as <- _ <-; reflexivity|apply AG]. }
  destruct (Nat.ltb (s_iter s) (sc_to (s_scope s))).
  - apply bind_Ret in H. destruct H as [[s1 o1] [t [E1 H]]]. apply fx_match_ret in E1. rewrite E1. cbn [bind fst snd] in *. exact (AG _ _ _ H).
  - destruct (Nat.ltb (s_iter s - sc_to (s_scope s)) (sc_fidx (s_scope s))); [|exact (TR H)]. destruct (nth_error (s_follows s) (s_iter s - sc_to (s_scope s))) as [j|]; [|discriminate].
    destruct (Nat.ltb j (sc_from (s_scope s))); [|exact (TR H)]. apply bind_Ret in H. destruct H as [[s1 o1] [t [E1 H]]]. apply fx_match_ret in E1. rewrite E1. cbn [bind fst snd] in *. exact (AG _ _ _ H).
Qed.
Lemma fx_op_ret a ff op s o s' o' r : fx_op ff a op (s, o) = Ret (s', o') r -> sel_op ff a op s = Ret s' r.
Proof.
  destruct op as [e key| | | |e b]; cbn [fx_op sel_op fst snd].
  - intros H. apply bind_Ret in H. destruct H as [[s1 o1] [u [E H]]]. injection H as <- _ <-. unfold fx_init in E. destruct e; try (injection E as <- _ _; reflexivity).
    destruct (alloc o) as [[|] o2]; [|discriminate]. injection E as <- _ _. reflexivity.
  - intros H. apply bind_Ret in H. destruct H as [[s1 o1] [t [E H]]]. injection H as <- _ <-. unfold fx_fetch in E. cbn [fst snd] in E.
    unfold sel_fetch. destruct (m_matches _ _); [rewrite (fx_fetch_loop_ret _ _ _ _ _ _ _ E); reflexivity|]. injection E as <- _ <-. reflexivity.
  - destruct (sel_close s) as [s1 u| | | |]; cbn [bind omap]; try discriminate. intros H. injection H as <- _ <-. reflexivity.
  - intros H. apply bind_Ret in H. destruct H as [[s1 o1] [u [E H]]]. injection H as <- _ <-. unfold fx_copy in E.
    destruct (alloc o) as [[|] o2]; [|discriminate]. destruct (alloc o2) as [[|] o3]; [|discriminate]. destruct (alloc o3) as [[|] o4]; [|discriminate]. destruct (alloc o4) as [[|] o5]; [|discriminate].
    injection E as <- _ _. reflexivity.
  - destruct (sel_states e b s) as [s1 u| | | |]; cbn [bind omap]; try discriminate. intros H. injection H as <- _ <-. reflexivity.
Qed.
Lemma fx_ops_until a ff : forall os s o x rs, fx_ops ff a os (s, o) = Ret x rs -> forall k ys, firstn k rs = map Some ys -> exists s1, sel_ops ff a (firstn k os) s = Ret s1 ys.
Proof.
  induction os as [|op os IH]; intros s o x rs H k ys Hk; cbn [fx_ops] in H.
  - injection H as _ <-. destruct k; cbn in *; destruct ys; try discriminate; eauto.
  - destruct k as [|k]; [destruct ys; [|discriminate]; cbn; eauto|]. destruct (fx_op ff a op (s, o)) as [[s1 o1] r| |[s1 o1]| |] eqn:E; try discriminate;
      apply bind_Ret in H; destruct H as [x2 [rs2 [E2 H]]]; injection H as _ <-; cbn [firstn] in Hk.
    + destruct ys as [|y ys]; [discriminate|]. cbn [map] in Hk. injection Hk as <- Hk. destruct (IH _ _ _ _ E2 k ys Hk) as [s3 E3].
      cbn [firstn sel_ops]. rewrite (fx_op_ret _ _ _ _ _ _ _ _ E). cbn [bind]. rewrite E3. cbn [bind]. eauto.
    + destruct ys; discriminate.
Qed.

(** ** without failures nothing is different *)
Definition en {A} (m : out sel A) : out fsel A := omap (fun s => (s, [])) m.
Lemma fx_expand1_ok i st s : fx_expand1 i st (s, []) = Ret (expand1 i st s, []) tt.
Proof.
  unfold fx_expand1, expand1. destruct (m_empty (c_mask (st_core st)) && negb (c_type (st_core st) =? 0)%Z); [reflexivity|]. destruct (c_follow (st_core st)); reflexivity.
Qed.
Lemma fx_expand_ok a : forall f i s, fx_expand f a i (s, []) = en (expand f a i s).
Proof.
  induction f as [|f IH]; intros i s; [reflexivity|]. cbn [fx_expand expand]. destruct i as [i|]; [|reflexivity]. destruct (nth_error a i) as [st|]; [|reflexivity].
  rewrite fx_expand1_ok. cbn [bind]. apply IH.
Qed.
Lemma fx_produce_ok a i st s : fx_produce a i st (s, []) = en (sel_produce a i st s).
Proof.
  unfold fx_produce, sel_produce. destruct (nth_error (s_toks s) i) as [t|]; [|reflexivity]. destruct (count_down (t_core t)) as [c [|]]; [|reflexivity]. apply fx_expand_ok.
Qed.
Lemma fx_match_ok a i s : fx_match a i (s, []) = en (sel_match a i s).
Proof.
  unfold fx_match, sel_match. destruct (s_key s) as [key|]; [|reflexivity]. destruct (Nat.leb (sc_to (s_scope s)) i); [reflexivity|].
  destruct (nth_error (s_toks s) i) as [t|]; [|reflexivity].
  match goal with |- bind ?m _ = en (bind ?m' _) => assert (E : m = en m') end.
  { destruct (m_matches _ _); [|reflexivity]. destruct (nth_error a (t_state t)) as [st|]; [|reflexivity].
    match goal with |- bind ?m _ = en (bind ?m' _) => assert (E : m = en m') end.
    { match goal with |- (if ?b then _ else _) = _ => destruct b end; [apply fx_produce_ok|reflexivity]. }
    rewrite E. match goal with |- bind (en ?m') _ = _ => destruct m' as [s2 u| | | |] end; try reflexivity. cbn [en omap bind].
    destruct (nth_error (s_toks s2) i) as [t2|]; [|reflexivity]. destruct (c_type (t_core t2) =? 0)%Z; [reflexivity|]. destruct (count_down (t_core t2)). reflexivity. }
  rewrite E. match goal with |- bind (en ?m') _ = _ => destruct m' as [s2 u| | | |] end; try reflexivity. cbn [en omap bind].
  destruct (nth_error (s_toks s2) i) as [t2|]; reflexivity.
Qed.
Lemma fx_fetch_loop_ok a : forall f s, fx_fetch_loop f a (s, []) = en (fetch_loop f a s).
Proof.
  induction f as [|f IH]; intros s; [reflexivity|]. cbn [fx_fetch_loop fetch_loop].
  assert (AG : forall s1 (t : Z), (if (t =? 0)%Z then fx_fetch_loop f a (s1, []) else Ret (s1, []) t) = en (if (t =? 0)%Z then fetch_loop f a s1 else Ret s1 t)).
  { intros s1 t. destruct (t =? 0)%Z; [apply IH|reflexivity]. }
  assert (MA : forall j, (let! (x, t) := fx_match a j (s, []) in (if (t =? 0)%Z then fx_fetch_loop f a (sel_set_iter (S (s_iter (fst x))) (fst x), snd x) else Ret (sel_set_iter (S (s_iter (fst x))) (fst x), snd x) t)) =
    en (let! (s, t) := sel_match a j s in (if (t =? 0)%Z then fetch_loop f a (sel_set_iter (S (s_iter s)) s) else Ret (sel_set_iter (S (s_iter s)) s) t))).
  { intros j. rewrite fx_match_ok. destruct (sel_match a j s) as [s1 t| | | |]; try reflexivity. cbn [en omap bind fst snd]. apply AG. }
  destruct (Nat.ltb (s_iter s) (sc_to (s_scope s))); [apply MA|].
  destruct (Nat.ltb (s_iter s - sc_to (s_scope s)) (sc_fidx (s_scope s))).
  - destruct (nth_error (s_follows s) (s_iter s - sc_to (s_scope s))) as [j|]; [|reflexivity]. destruct (Nat.ltb j (sc_from (s_scope s))); [apply MA|]. destruct (s_trig s); [reflexivity|apply AG].
  - destruct (s_trig s); [reflexivity|apply AG].
Qed.
Lemma fx_op_ok a ff op s : fx_op ff a op (s, []) = en (sel_op ff a op s).
Proof.
  destruct op as [e key| | | |e b]; cbn [fx_op sel_op fst snd]; try reflexivity.
  - unfold fx_init. destruct e; reflexivity.
  - unfold fx_fetch, sel_fetch. cbn [fst snd]. destruct (m_matches _ _); [|reflexivity]. rewrite fx_fetch_loop_ok. destruct (fetch_loop ff a s); reflexivity.
Qed.
Lemma fx_ops_ok a ff : forall os s s' rs, sel_ops ff a os s = Ret s' rs -> fx_ops ff a os (s, []) = Ret (s', []) (map Some rs).
Proof.
  induction os as [|op os IH]; intros s s' rs H; cbn [fx_ops sel_ops] in *; [injection H as <- <-; reflexivity|]. apply bind_Ret in H. destruct H as [s1 [r [E1 H]]].
  apply bind_Ret in H. destruct H as [s2 [rs2 [E2 H]]]. injection H as <- <-. rewrite fx_op_ok, E1. cbn [en omap]. rewrite (IH _ _ _ E2). reflexivity.
Qed.
Lemma fx_new_ok a : fx_new a [] = en (sel_new a).
Proof. unfold fx_new, sel_new. destruct a; [reflexivity|]. apply fx_expand_ok. Qed.
Lemma fx_new_ret a o s o' u : fx_new a o = Ret (s, o') u -> sel_new a = Ret s tt.
Proof. unfold fx_new, sel_new. destruct a; [intros H; injection H as <- _ _; reflexivity|]. apply fx_expand_ret. Qed.

(** ** safety: of the indices of the tokens in [follows] nothing is known, a token that could not be pushed leaves its index there *)
Section Safety.
Variable a : atm.
Hypothesis W : atm_up a.
Definition scope_fits (s : sel) (sc : scope) : Prop := (sc_fidx sc <= length (s_follows s))%nat /\ (sc_to sc <= length (s_toks s))%nat.
Record Held (s : sel) : Prop := {
  hd_toks : Forall (tok_in a) (s_toks s);
  hd_scope : scope_fits s (s_scope s);
  hd_stk : Forall (scope_fits s) (s_stk s);
  hd_nest : nested (s_stk s) }.
Definition ends {A} (P : sel -> A -> Prop) (T : sel -> Prop) (m : out fsel A) : Prop := match m with Ret x r => P (fst x) r | Throw x => T (fst x) | _ => False end.
Lemma ends_bind {A B} (P : sel -> A -> Prop) (Q : sel -> B -> Prop) T m k : ends P T m -> (forall x r, P (fst x) r -> ends Q T (k x r)) -> ends Q T (bind m k).
Proof. intros H K. destruct m as [x r| | | |]; cbn [bind ends] in *; auto. Qed.
Lemma ends_impl {A} (P Q : sel -> A -> Prop) (T U : sel -> Prop) m : ends P T m -> (forall s r, P s r -> Q s r) -> (forall s, T s -> U s) -> ends Q U m.
Proof. destruct m; cbn [ends]; auto. Qed.

Lemma held_of s s' : Held s -> Forall (tok_in a) (s_toks s') -> (length (s_toks s) <= length (s_toks s'))%nat -> (length (s_follows s) <= length (s_follows s'))%nat ->
  s_stk s' = s_stk s -> sc_to (s_scope s') = sc_to (s_scope s) -> sc_fidx (s_scope s') = sc_fidx (s_scope s) -> Held s'.
Proof.
  intros [A [C1 C2] D Q] HT L1 L2 E1 E2 E3. constructor; auto.
  - unfold scope_fits. rewrite E2, E3. lia.
  - rewrite E1. eapply Forall_impl; [|exact D]. intros sc [X Y]. unfold scope_fits. lia.
  - rewrite E1. exact Q.
Qed.
Lemma fx_expand1_held i st s o : nth_error a i = Some st -> Held s -> ends (fun s' _ => Held s' /\ grows 1 s s') (fun s' => Held s') (fx_expand1 i st (s, o)).
Proof.
  intros E HS. unfold fx_expand1. destruct (m_empty (c_mask (st_core st)) && negb (c_type (st_core st) =? 0)%Z).
  - destruct (alloc o) as [[|] o1]; cbn [ends fst].
    + split; [apply (held_of s); cbn; auto; apply (hd_toks s HS)|constructor; cbn; auto; lia].
    + apply (held_of s); cbn; auto; apply (hd_toks s HS).
  - assert (HT : Forall (tok_in a) (s_toks s ++ [mkTok (st_core st) i])).
    { apply Forall_app. split; [apply (hd_toks s HS)|]. constructor; [|constructor]. exists st. cbn. auto. }
    destruct (c_follow (st_core st)); [destruct (alloc o) as [[|] o1]|]; cbn [bind].
    + destruct (alloc o1) as [[|] o2]; cbn [ends fst].
      * split; [apply (held_of s); cbn; auto; rewrite app_length; lia|constructor; cbn; auto; [rewrite app_length|]; lia].
      * apply (held_of s); cbn; auto; [apply (hd_toks s HS)|rewrite app_length; lia].
    + cbn [ends fst]. apply (held_of s); cbn; auto; apply (hd_toks s HS).
    + destruct (alloc o) as [[|] o1]; cbn [ends fst].
      * split; [apply (held_of s); cbn; auto; rewrite app_length; lia|constructor; cbn; auto; [rewrite app_length|]; lia].
      * apply (held_of s); cbn; auto; apply (hd_toks s HS).
Qed.
Lemma fx_expand_held : forall f i s o, (i < length a)%nat -> (length a - i < f)%nat -> Held s -> ends (fun s' _ => Held s' /\ grows (length a - i) s s') Held (fx_expand f a (Some i) (s, o)).
Proof.
  induction f as [|f IH]; intros i s o Hi Hf HS; [lia|]. cbn [fx_expand]. destruct (nth_error a i) as [st|] eqn:E; [|apply nth_error_None in E; lia].
  eapply ends_bind; [exact (fx_expand1_held i st s o E HS)|]. intros [s1 o1] u [S1 G1]. cbn [fst] in S1, G1. destruct (st_link st) as [j|] eqn:L.
  - destruct (W i st E) as [_ [B _]]. specialize (B j L). eapply ends_impl; [exact (IH j s1 o1 ltac:(lia) ltac:(lia) S1)| |auto]. intros s' _ [S' G']. split; [exact S'|].
    eapply grows_le; [eapply grows_trans; eassumption|lia].
  - destruct f as [|f]; [lia|]. cbn [fx_expand ends fst]. split; [exact S1|]. eapply grows_le; [exact G1|lia].
Qed.
Lemma fx_expand_held0 i s o : (forall j, i = Some j -> (j < length a)%nat) -> Held s -> ends (fun s' _ => Held s' /\ grows (length a) s s') Held (fx_expand (S (length a)) a i (s, o)).
Proof.
  intros Hi HS. destruct i as [i|].
  - eapply ends_impl; [exact (fx_expand_held (S (length a)) i s o (Hi i eq_refl) ltac:(lia) HS)| |auto]. intros s' _ [S' G]. split; [exact S'|]. eapply grows_le; [exact G|lia].
  - cbn [fx_expand ends fst]. split; [exact HS|]. eapply grows_le; [apply grows_refl|lia].
Qed.
Lemma set_tok_held i c t s : Held s -> nth_error (s_toks s) i = Some t -> (c_mask c = c_mask (t_core t) \/ c_mask c = m_zero) ->
  Held (sel_set_tok i c s) /\ grows 0 s (sel_set_tok i c s) /\ nth_error (s_toks (sel_set_tok i c s)) i = Some (mkTok c (t_state t)).
Proof.
  intros HS E H. unfold sel_set_tok. rewrite E. cbn [sel_set_toks s_toks].
  assert (L : length (upd i (mkTok c (t_state t)) (s_toks s)) = length (s_toks s)) by apply upd_length.
  split; [|split; [constructor; cbn; auto; lia|]].
  - apply (held_of s); cbn; auto; [|lia]. pose proof (hd_toks s HS) as A. apply Forall_forall. intros x Hx. apply In_nth_error in Hx. destruct Hx as [k Hk]. rewrite nth_upd in Hk.
    rewrite Forall_forall in A. destruct (Nat.eqb i k) eqn:Ek; [|apply A; eapply nth_error_In; exact Hk].
    apply Nat.eqb_eq in Ek. subst k. rewrite E in Hk. injection Hk as <-. destruct (A t (nth_error_In _ _ E)) as [st [E1 E2]]. exists st. cbn [t_state t_core]. split; [exact E1|].
    destruct H as [-> | ->]; auto.
  - rewrite nth_upd, Nat.eqb_refl, E. reflexivity.
Qed.
Definition has (i : nat) (s : sel) : Prop := exists t, nth_error (s_toks s) i = Some t.
Lemma grows_has n s s' i : grows n s s' -> has i s -> has i s'.
Proof.
  intros G [t E]. unfold has. destruct (nth_error (s_toks s') i) as [t'|] eqn:E3; [eauto|]. apply nth_error_None in E3. exfalso.
  assert (i < length (s_toks s))%nat by (apply nth_error_Some; congruence). pose proof (gr_toks _ _ _ G). lia.
Qed.
Lemma fx_produce_held i st t s o : Held s -> nth_error (s_toks s) i = Some t -> nth_error a (t_state t) = Some st ->
  ends (fun s' _ => Held s' /\ grows (length a) s s') Held (fx_produce a i st (s, o)).
Proof.
  intros HS E Est. unfold fx_produce. rewrite E. destruct (count_down (t_core t)) as [c go] eqn:Ec.
  assert (Hc : c_mask c = c_mask (t_core t) \/ c_mask c = m_zero) by (pose proof (count_down_mask (t_core t)) as X; rewrite Ec in X; exact X).
  destruct (set_tok_held i c t s HS E Hc) as [S1 [G1 _]]. destruct go.
  - eapply ends_impl; [apply fx_expand_held0; [|exact S1]| |auto].
    + intros j Hj. destruct (W _ _ Est) as [A _]. specialize (A j Hj). lia.
    + intros s' _ [S' G']. split; [exact S'|]. eapply grows_le; [eapply grows_trans; eassumption|lia].
  - cbn [ends fst]. split; [exact S1|]. eapply grows_le; [exact G1|lia].
Qed.
Lemma fx_match_held i s o : Held s -> ends (fun s' _ => Held s' /\ grows (length a) s s') Held (fx_match a i (s, o)).
Proof.
  intros HS. unfold fx_match. assert (G0 : grows (length a) s s) by (eapply grows_le; [apply grows_refl|lia]).
  destruct (s_key s) as [key|]; [|cbn; auto]. destruct (Nat.leb (sc_to (s_scope s)) i) eqn:Hi; [cbn; auto|]. apply Nat.leb_gt in Hi.
  destruct (nth_error (s_toks s) i) as [t|] eqn:E; [|apply nth_error_None in E; destruct (hd_scope s HS) as [_ H]; lia].
  apply (ends_bind (fun s' _ => Held s' /\ grows (length a) s s')).
  - destruct (m_matches _ _); [|cbn; auto].
    assert (T : tok_in a t) by (pose proof (hd_toks s HS) as A; rewrite Forall_forall in A; apply A; eapply nth_error_In; exact E).
    destruct T as [st [Est _]]. rewrite Est. apply (ends_bind (fun s' _ => Held s' /\ grows (length a) s s')).
    + match goal with |- context [if ?b then fx_produce _ _ _ _ else _] => destruct b end; [apply (fx_produce_held i st t); assumption|cbn; auto].
    + intros [s1 o1] u [S1 G1]. cbn [fst] in *. destruct (grows_has _ _ _ i G1 (ex_intro _ t E)) as [t1 E1]. rewrite E1. destruct (c_type (t_core t1) =? 0)%Z; [cbn; auto|].
      destruct (count_down (t_core t1)) as [c go] eqn:Ec.
      assert (Hc : c_mask c = c_mask (t_core t1) \/ c_mask c = m_zero) by (pose proof (count_down_mask (t_core t1)) as X; rewrite Ec in X; exact X).
      destruct (set_tok_held i c t1 s1 S1 E1 Hc) as [S2 [G2 _]]. cbn [ends fst]. split; [exact S2|]. replace (length a) with (length a + 0)%nat by lia. eapply grows_trans; eassumption.
  - intros [s1 o1] r [S1 G1]. cbn [fst] in *. destruct (grows_has _ _ _ i G1 (ex_intro _ t E)) as [t1 E1]. rewrite E1. cbn [ends fst]. destruct (m_rejects _ _); [|auto].
    destruct (set_tok_held i (mkCore m_zero (c_follow (t_core t1)) (c_type (t_core t1)) (c_start (t_core t1)) (c_end (t_core t1))) t1 s1 S1 E1 ltac:(right; reflexivity)) as [S2 [G2 _]].
    split; [exact S2|]. replace (length a) with (length a + 0)%nat by lia. eapply grows_trans; eassumption.
Qed.
Lemma held_iter i s : Held s -> Held (sel_set_iter i s). Proof. intros [A C D Q]. constructor; auto. Qed.
Lemma held_trig l s : Held s -> Held (sel_set_trig l s). Proof. intros [A C D Q]. constructor; auto. Qed.
Lemma held_key s : Held s -> Held (sel_no_key s). Proof. intros [A C D Q]. constructor; auto. Qed.
Lemma fx_fetch_loop_held : forall f s o, (left a s < f)%nat -> Held s -> ends (fun s' (_ : Z) => Held s') Held (fx_fetch_loop f a (s, o)).
Proof.
  induction f as [|f IH]; intros s o Hf HS; [lia|]. cbn [fx_fetch_loop].
  assert (AG : forall s1 o1 (t : Z), (left a s1 < left a s)%nat -> Held s1 -> ends (fun s' (_ : Z) => Held s') Held (if (t =? 0)%Z then fx_fetch_loop f a (s1, o1) else Ret (s1, o1) t)).
  { intros s1 o1 t H1 S1. destruct (t =? 0)%Z; [apply IH; [lia|exact S1]|exact S1]. }
  assert (TR : ends (fun s' (_ : Z) => Held s') Held (match s_trig s with
                         | t :: l => if (t =? 0)%Z then fx_fetch_loop f a (sel_set_trig l s, o) else Ret (sel_set_trig l s, o) t
                         | [] => Ret (sel_no_key s, o) 0%Z
                         end)).
  { destruct (s_trig s) as [|t l] eqn:Et; [apply held_key, HS|]. apply AG; [|apply held_trig, HS]. unfold left. cbn [sel_set_trig s_scope s_iter s_trig]. rewrite Et. cbn [length]. lia. }
  destruct (Nat.ltb (s_iter s) (sc_to (s_scope s))) eqn:H1.
  - apply Nat.ltb_lt in H1. eapply ends_bind; [exact (fx_match_held (s_iter s) s o HS)|]. intros [s1 o1] t [S1 G1]. cbn [fst snd] in *. apply AG; [apply left_step; [exact G1|lia]|apply held_iter, S1].
  - apply Nat.ltb_ge in H1. destruct (Nat.ltb (s_iter s - sc_to (s_scope s)) (sc_fidx (s_scope s))) eqn:H2; [|exact TR]. apply Nat.ltb_lt in H2.
    destruct (nth_error (s_follows s) (s_iter s - sc_to (s_scope s))) as [j|] eqn:Ej; [|apply nth_error_None in Ej; destruct (hd_scope s HS) as [H _]; lia].
    destruct (Nat.ltb j (sc_from (s_scope s))); [|exact TR].
    eapply ends_bind; [exact (fx_match_held j s o HS)|]. intros [s1 o1] t [S1 G1]. cbn [fst snd] in *. apply AG; [apply left_step; [exact G1|lia]|apply held_iter, S1].
Qed.
Lemma sel_init_held e key s : Held s -> Held (sel_init e key s).
Proof.
  intros [A C D Q]. unfold sel_init.
  assert (K : forall m fm fr, scope_fits s (mkScope m fm fr (length (s_toks s)) (length (s_follows s)))) by (intros; split; cbn; lia).
  destruct e; constructor; cbn [s_toks s_follows s_scope s_stk]; auto; try apply K; [constructor; [apply K|exact D]|].
  cbn [nested]. destruct (s_stk s) as [|sc stk]; [exact I|]. inversion D as [|x y [D1 D2] _]; subst. cbn [nests sc_to sc_fidx]. auto.
Qed.
Lemma fx_init_held e key s o : Held s -> ends (fun s' (_ : unit) => Held s') Held (fx_init e key (s, o)).
Proof.
  intros HS. unfold fx_init. destruct e; try (apply sel_init_held, HS). destruct (alloc o) as [[|] o1]; cbn [ends fst]; [apply sel_init_held, HS|].
  destruct HS as [A C D Q]. constructor; auto. split; cbn; lia.
Qed.
Lemma sel_close_held s : Held s -> exists s', sel_close s = Ret s' tt /\ Held s'.
Proof.
  intros HS. assert (K : exists s', match s_stk s with
      | [] => Ret s tt
      | sc :: stk =>
          if Nat.leb (sc_fidx sc) (length (s_follows s)) && Nat.leb (sc_to sc) (length (s_toks s))
          then Ret (mkSel stk (firstn (sc_fidx sc) (s_follows s)) (s_trig s) (firstn (sc_to sc) (s_toks s)) (s_type s) (s_key s) sc (s_iter s)) tt
          else Undef
      end = Ret s' tt /\ Held s').
  { destruct HS as [A C D Q]. destruct (s_stk s) as [|sc stk] eqn:Es; [exists s; split; [reflexivity|constructor; rewrite ?Es; auto]|].
    inversion D as [|x y D1 D2]; subst. pose proof D1 as [F1 F2].
    replace (Nat.leb (sc_fidx sc) (length (s_follows s))) with true by (symmetry; apply Nat.leb_le; exact F1).
    replace (Nat.leb (sc_to sc) (length (s_toks s))) with true by (symmetry; apply Nat.leb_le; exact F2).
    eexists. split; [reflexivity|].
    assert (L1 : length (firstn (sc_fidx sc) (s_follows s)) = sc_fidx sc) by (apply firstn_length_le; exact F1).
    assert (L2 : length (firstn (sc_to sc) (s_toks s)) = sc_to sc) by (apply firstn_length_le; exact F2).
    constructor; cbn [s_toks s_follows s_scope s_stk].
    - apply Forall_firstn. exact A.
    - split; cbn; lia.
    - rewrite Forall_forall in D2 |- *. intros sc1 H1. destruct (nests_all sc1 stk sc Q H1) as [N1 N2]. split; cbn; lia.
    - eapply nests_nested. exact Q. }
  unfold sel_close. destruct (s_type s); eauto.
Qed.
(** states are listed without the follows *)
Definition no_follows (op : selop) : Prop := match op with PStates _ true => False | _ => True end.
Lemma sel_states_held e s : exists l, sel_states e false s = Ret s l.
Proof. unfold sel_states. cbn [bind]. eauto. Qed.

(** more fuel changes nothing *)
Definition stops {A} (m : out fsel A) : Prop := match m with Fuel => False | _ => True end.
Lemma fx_fetch_loop_mono : forall f x, stops (fx_fetch_loop f a x) -> forall f', (f <= f')%nat -> fx_fetch_loop f' a x = fx_fetch_loop f a x.
Proof.
  induction f as [|f IH]; intros [s o] H f' Hf; [contradiction|]. destruct f' as [|f']; [lia|]. cbn [fx_fetch_loop] in *.
  assert (AG : forall s1 o1 (t : Z), stops (if (t =? 0)%Z then fx_fetch_loop f a (s1, o1) else Ret (s1, o1) t) ->
    (if (t =? 0)%Z then fx_fetch_loop f' a (s1, o1) else Ret (s1, o1) t) = (if (t =? 0)%Z then fx_fetch_loop f a (s1, o1) else Ret (s1, o1) t)).
  { intros s1 o1 t. destruct (t =? 0)%Z; [intro K; apply IH; [exact K|lia]|reflexivity]. }
  destruct (Nat.ltb (s_iter s) (sc_to (s_scope s))).
  - destruct (fx_match a (s_iter s) (s, o)) as [x1 t| | | |]; cbn [bind] in *; try reflexivity. apply AG. exact H.
  - destruct (Nat.ltb (s_iter s - sc_to (s_scope s)) (sc_fidx (s_scope s))).
    + destruct (nth_error (s_follows s) (s_iter s - sc_to (s_scope s))) as [j|]; [|reflexivity]. destruct (Nat.ltb j (sc_from (s_scope s))).
      * destruct (fx_match a j (s, o)) as [x1 t| | | |]; cbn [bind] in *; try reflexivity. apply AG. exact H.
      * destruct (s_trig s); [reflexivity|]. apply AG. exact H.
    + destruct (s_trig s); [reflexivity|]. apply AG. exact H.
Qed.
Lemma fx_op_held op s o : no_follows op -> Held s -> exists F, ends (fun s' (_ : list Z) => Held s') Held (fx_op F a op (s, o)) /\ forall f, (F <= f)%nat -> fx_op f a op (s, o) = fx_op F a op (s, o).
Proof.
  intros Hn HS. destruct op as [e key| | | |e b]; cbn [fx_op fst snd].
  - exists O. split; [|reflexivity]. eapply ends_bind; [apply fx_init_held, HS|]. intros x u H. exact H.
  - exists (S (left a s)).
    assert (E : ends (fun s' (_ : Z) => Held s') Held (fx_fetch (S (left a s)) a (s, o))).
    { unfold fx_fetch. cbn [fst snd]. destruct (m_matches _ _); [apply fx_fetch_loop_held; [lia|exact HS]|apply held_key, HS]. }
    split; [eapply ends_bind; [exact E|]; intros x u H; exact H|]. intros f Hf. f_equal. unfold fx_fetch in *. cbn [fst snd] in *. destruct (m_matches _ _); [|reflexivity].
    apply fx_fetch_loop_mono; [|exact Hf]. destruct (fx_fetch_loop (S (left a s)) a (s, o)); try exact I. contradiction.
  - exists O. split; [|reflexivity]. destruct (sel_close_held s HS) as [s' [E S']]. rewrite E. exact S'.
  - exists O. split; [|reflexivity]. unfold fx_copy. assert (Hc : Held (sel_copy s)) by (destruct HS as [A C D Q]; constructor; auto; split; cbn; lia).
    destruct (alloc o) as [[|] o1]; [|exact HS]. destruct (alloc o1) as [[|] o2]; [|exact HS]. destruct (alloc o2) as [[|] o3]; [|exact HS]. destruct (alloc o3) as [[|] o4]; [exact Hc|exact HS].
  - exists O. split; [|reflexivity]. destruct b; [contradiction|]. destruct (sel_states_held e s) as [l E]. rewrite E. exact HS.
Qed.
Lemma fx_ops_held : forall os x, Forall no_follows os -> Held (fst x) -> exists F x' rs, (forall f, (F <= f)%nat -> fx_ops f a os x = Ret x' rs) /\ Held (fst x') /\ length rs = length os.
Proof.
  induction os as [|op os IH]; intros [s o] Hn HS; cbn [fx_ops fst] in *; [exists O, (s, o), []; auto|]. inversion Hn as [|y z Hn1 Hn2]; subst.
  destruct (fx_op_held op s o Hn1 HS) as [F1 [E1 M1]]. destruct (fx_op F1 a op (s, o)) as [x1 r| |x1| |] eqn:E; try contradiction; cbn [ends] in E1; destruct (IH x1 Hn2 E1) as [F2 [x2 [rs [E2 [S2 L2]]]]];
    exists (max F1 F2), x2; eexists; (split; [intros f Hf; rewrite M1 by lia; rewrite E2 by lia; reflexivity|split; [exact S2|cbn; congruence]]).
Qed.
Lemma held_new : Held (mkSel [] [] [] [] EContent None scope_new 0).
Proof. constructor; cbn; try constructor; cbn; lia. Qed.
Lemma fx_new_held o : ends (fun s (_ : unit) => Held s) Held (fx_new a o).
Proof.
  unfold fx_new. destruct (Nat.eq_dec (length a) 0) as [H0|H0]; [destruct a; [exact held_new|discriminate]|].
  pose proof (fx_expand_held0 (Some O) (mkSel [] [] [] [] EContent None scope_new 0) o ltac:(intros j [= <-]; lia) held_new) as H.
  destruct a; [cbn in H0; lia|]. eapply ends_impl; [exact H| |auto]. intros s u [Q _]. exact Q.
Qed.
End Safety.
