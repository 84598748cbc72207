(** The effect of expand. *)
From Coq Require Import Lia ZifyBool ZifyNat.
From Verif Require Import Base XmlScanner PathAtm PathSelect PathSpec PathTrie PathKill PathRun1 PathRun2.

Definition cnt (t : Z) (l : list Z) : nat := count_occ Z.eq_dec l t.
Lemma cnt_app t l l' : cnt t (l ++ l') = (cnt t l + cnt t l')%nat.
Proof. apply count_occ_app. Qed.
Lemma cnt_one t u : cnt t [u] = if (u =? t)%Z then 1%nat else O.
Proof. unfold cnt. cbn [count_occ]. destruct (Z.eq_dec u t) as [->|H]; [rewrite Z.eqb_refl; reflexivity|]. replace (u =? t)%Z with false by lia. reflexivity. Qed.
Lemma list_sum_app' l l' : list_sum (l ++ l') = (list_sum l + list_sum l')%nat.
Proof. apply list_sum_app. Qed.

Definition is_now (x : expr) : bool := match x_edges x, x_rep x with [], RNow => true | _, _ => false end.

Ltac splits := repeat match goal with |- _ /\ _ => split end.

Section Run.
Variable a : atm.
Hypothesis W : atm_wf a.
Notation exprs := (tok_exprs a).

Record expanded (i : nat) (s s' : sel) (new : list tok) (tr : list Z) : Prop := {
  ex_toks : s_toks s' = s_toks s ++ new;
  ex_fol : s_follows s' = s_follows s ++ fidx (length (s_toks s)) new;
  ex_trig : s_trig s' = tr ++ s_trig s;
  ex_same : s_stk s' = s_stk s /\ s_type s' = s_type s /\ s_key s' = s_key s /\ s_iter s' = s_iter s /\
            sc_from (s_scope s') = sc_from (s_scope s) /\ sc_to (s_scope s') = sc_to (s_scope s) /\ sc_fidx (s_scope s') = sc_fidx (s_scope s);
  ex_mask : m_sub (sc_mask (s_scope s)) (sc_mask (s_scope s')) /\ m_sub (sc_fmask (s_scope s)) (sc_fmask (s_scope s'));
  ex_cov : forall tk, In tk new -> m_sub (smask a tk) (sc_mask (s_scope s')) /\ (t_follow tk = true -> m_sub (smask a tk) (sc_fmask (s_scope s')));
  ex_up : forall e, (m_matches (sc_mask (s_scope s')) e = true -> m_matches (sc_mask (s_scope s)) e = true \/ exists tk, In tk new /\ m_matches (smask a tk) e = true) /\
            (m_matches (sc_fmask (s_scope s')) e = true -> m_matches (sc_fmask (s_scope s)) e = true \/ exists tk, In tk new /\ t_follow tk = true /\ m_matches (smask a tk) e = true);
  ex_ok : Forall (tok_ok a) new;
  ex_len : (length tr + i <= length a)%nat;
  ex_nz : Forall (fun t => t <> 0%Z) tr;
  ex_dead : forall tk, In tk new -> dead tk = true -> exprs tk = [];
  ex_in : forall tk x, In tk new -> In x (exprs tk) -> In x (lang a i);
  ex_sum : forall h : expr -> nat, (forall x, is_now x = true -> h x = O) ->
           list_sum (map (fun tk => list_sum (map h (exprs tk))) new) = list_sum (map h (lang a i));
  ex_cnt : forall t, cnt t tr = list_sum (map (fun x => if is_now x && (x_type x =? t)%Z then 1%nat else O) (lang a i)) }.

Lemma edge_not_now ed x : is_now (add_edge ed x) = false.
Proof. reflexivity. Qed.

Lemma m_join_inv m m' e : m_matches (m_join m m') e = true -> m_matches m e = true \/ m_matches m' e = true.
Proof. rewrite !etype_bit. cbn [m_join m_pos]. rewrite N.lor_spec. intro H. apply orb_prop in H. exact H. Qed.
Lemma m_match_inv ev m e : m_matches (m_match ev m) e = true -> m_matches m e = true \/ e = ev.
Proof.
  rewrite !etype_bit. cbn [m_match m_pos]. rewrite N.lor_spec. intro H. apply orb_prop in H. destruct H as [H|H]; [left; exact H|right].
  destruct (N.eq_dec (etype_idx e) (etype_idx ev)) as [E|E]; [destruct e, ev; cbn in E; congruence|]. rewrite N.pow2_bits_false in H by congruence. discriminate.
Qed.
Lemma m_empty_matches m e : m_empty m = true -> m_matches m e = false.
Proof. unfold m_empty. intro H. rewrite etype_bit. destruct m as [p n]. cbn [m_pos m_neg] in *. apply N.eqb_eq in H. subst. apply N.bits_0. Qed.

(** one state *)
Lemma expand1_spec i st s : nth_error a i = Some st ->
  exists new tr, 
    s_toks (expand1 i st s) = s_toks s ++ new /\
    s_follows (expand1 i st s) = s_follows s ++ fidx (length (s_toks s)) new /\
    s_trig (expand1 i st s) = tr ++ s_trig s /\
    (s_stk (expand1 i st s) = s_stk s /\ s_type (expand1 i st s) = s_type s /\ s_key (expand1 i st s) = s_key s /\ s_iter (expand1 i st s) = s_iter s /\
     sc_from (s_scope (expand1 i st s)) = sc_from (s_scope s) /\ sc_to (s_scope (expand1 i st s)) = sc_to (s_scope s)
     /\ sc_fidx (s_scope (expand1 i st s)) = sc_fidx (s_scope s)) /\
    (m_sub (sc_mask (s_scope s)) (sc_mask (s_scope (expand1 i st s))) /\ m_sub (sc_fmask (s_scope s)) (sc_fmask (s_scope (expand1 i st s)))) /\
    (forall tk, In tk new -> m_sub (smask a tk) (sc_mask (s_scope (expand1 i st s))) /\
                (t_follow tk = true -> m_sub (smask a tk) (sc_fmask (s_scope (expand1 i st s))))) /\
    (forall e, (m_matches (sc_mask (s_scope (expand1 i st s))) e = true -> m_matches (sc_mask (s_scope s)) e = true \/ exists tk, In tk new /\ m_matches (smask a tk) e = true) /\
       (m_matches (sc_fmask (s_scope (expand1 i st s))) e = true -> m_matches (sc_fmask (s_scope s)) e = true \/ exists tk, In tk new /\ t_follow tk = true /\ m_matches (smask a tk) e = true)) /\
    Forall (tok_ok a) new /\ (length tr <= 1)%nat /\ Forall (fun t => t <> 0%Z) tr /\
    (forall tk, In tk new -> dead tk = true -> exprs tk = []) /\
    (forall tk x, In tk new -> In x (exprs tk) -> In x (alts (lang a) st (st_core st))) /\
    (forall h : expr -> nat, (forall x, is_now x = true -> h x = O) ->
       list_sum (map (fun tk => list_sum (map h (exprs tk))) new) = list_sum (map h (alts (lang a) st (st_core st)))) /\
    (forall t, cnt t tr = list_sum (map (fun x => if is_now x && (x_type x =? t)%Z then 1%nat else O) (alts (lang a) st (st_core st)))).
Proof.
  intro Hi. unfold expand1.
  destruct (m_empty (c_mask (st_core st)) && negb (c_type (st_core st) =? 0)%Z) eqn:E.
  - exists [], [c_type (st_core st)].
    cbn [s_toks s_follows s_trig s_stk s_type s_key s_iter s_scope sc_from sc_to sc_fidx sc_mask sc_fmask app fidx length].
    rewrite !app_nil_r. splits; try reflexivity.
    + apply m_join_l.
    + apply m_sub_refl.
    + intros tk [].
    + intro e. split; intro Hm; left; [|exact Hm]. apply m_join_inv in Hm. destruct Hm as [Hm|Hm]; [exact Hm|].
      apply andb_prop in E. rewrite (m_empty_matches _ e (proj1 E)) in Hm. discriminate.
    + constructor.
    + constructor; [lia|constructor].
    + intros tk [].
    + intros tk x [].
    + intros h Hh. unfold alts. replace (c_type (st_core st) =? 0)%Z with false by lia. cbn [map]. rewrite list_sum_cons, Hh; [reflexivity|].
      unfold is_now, out_of. cbn [x_edges x_rep]. unfold rep_of. apply andb_prop in E. destruct E as [-> _]. reflexivity.
    + intro t. unfold alts. replace (c_type (st_core st) =? 0)%Z with false by lia. cbn [map]. rewrite cnt_one, list_sum_cons.
      unfold is_now, out_of. cbn [x_edges x_rep x_type]. unfold rep_of. apply andb_prop in E. destruct E as [-> _]. cbn [andb list_sum fold_right]. lia.
  - exists [mkTok (st_core st) i], [].
    assert (Hex : exprs (mkTok (st_core st) i) = alts (lang a) st (st_core st)) by (unfold tok_exprs; cbn [t_state t_core]; rewrite Hi; reflexivity).
    assert (Hsm : smask a (mkTok (st_core st) i) = c_mask (st_core st)) by (unfold smask; cbn [t_state]; rewrite Hi; reflexivity).
    assert (Hnow : forall x, In x (alts (lang a) st (st_core st)) -> is_now x = false).
    { intros x Hx. unfold alts in Hx. destruct (Z.eqb_spec (c_type (st_core st)) 0).
      - destruct (st_next st); [|destruct Hx]. apply in_map_iff in Hx. destruct Hx as (y & <- & _). reflexivity.
      - destruct Hx as [<-|[]]. unfold is_now, out_of. cbn [x_edges x_rep]. unfold rep_of.
        destruct (m_empty (c_mask (st_core st))); [discriminate E|]. destruct (m_eqb _ _); reflexivity. }
    cbn [s_toks s_follows s_trig s_stk s_type s_key s_iter s_scope sc_from sc_to sc_fidx sc_mask sc_fmask app fidx length].
    splits; try reflexivity.
    + unfold t_follow. cbn [t_core]. destruct (c_follow (st_core st)); rewrite ?app_nil_r; reflexivity.
    + apply m_join_l.
    + destruct (c_follow (st_core st)); [apply m_join_l|apply m_sub_refl].
    + intros tk [<-|[]]. rewrite Hsm. split; [apply m_join_r|]. unfold t_follow. cbn [t_core]. intros ->. apply m_join_r.
    + intro e. split; intro Hm.
      { apply m_join_inv in Hm. destruct Hm as [Hm|Hm]; [left; exact Hm|right]. eexists. split; [left; reflexivity|]. rewrite Hsm. exact Hm. }
      destruct (c_follow (st_core st)) eqn:Ef; [|left; exact Hm]. apply m_join_inv in Hm. destruct Hm as [Hm|Hm]; [left; exact Hm|right].
      eexists. split; [left; reflexivity|]. rewrite Hsm. split; [exact Ef|exact Hm].
    + constructor; [|constructor]. exists st. cbn [t_state t_core]. split; [exact Hi|]. repeat (split; [reflexivity|]). split; [left; reflexivity|].
      split; intro T.
      * destruct (proj1 (W _ _ Hi)) as [C _ _|o f j C _ _|r f t b ee C Ht _ _|od C Hn]; rewrite C in *; cbn in *; try reflexivity. contradiction.
      * destruct (m_empty (c_mask (st_core st))); [|reflexivity]. exfalso. cbn [andb] in E. lia.
    + lia.
    + constructor.
    + intros tk [<-|[]] D. rewrite Hex. unfold dead in D. cbn [t_core] in D. unfold alts. rewrite D in E. cbn [andb] in E.
      replace (c_type (st_core st) =? 0)%Z with true by lia.
      destruct (proj1 (W _ _ Hi)) as [C _ Hn|o f j C _ _|r f t b ee C Ht _ _|od C Hn]; rewrite C in *; cbn [c_mask c_type] in *.
      * rewrite Hn. reflexivity.
      * destruct o; discriminate D.
      * lia.
      * destruct od; discriminate D.
    + intros tk x [<-|[]] Hx. rewrite Hex in Hx. exact Hx.
    + intros h Hh. cbn [map]. rewrite list_sum_cons, Hex. cbn [list_sum fold_right]. lia.
    + intro t. symmetry. apply list_sum_0. intros x Hx. rewrite (Hnow x Hx). reflexivity.
Qed.

Lemma expand_spec : forall m i f s, (length a - i <= m)%nat -> (length a - i < f)%nat -> (i < length a)%nat ->
  exists s' new tr, expand f a (Some i) s = Ret s' tt /\ expanded i s s' new tr.
Proof.
  induction m; intros i f s Hm Hf Hi; [lia|].
  destruct f as [|f]; [lia|]. cbn [expand].
  destruct (nth_error a i) as [st|] eqn:Hst; [|apply nth_error_None in Hst; lia].
  destruct (expand1_spec i st s Hst) as (new & tr & X1 & X2 & X3 & X4 & X5 & X6 & XU & X7 & X8 & X9 & X10 & X11 & X12 & X13).
  pose proof (lang_eq a W i st Hst) as EL.
  set (s1 := expand1 i st s) in *.
  destruct (st_link st) as [j|] eqn:El.
  - destruct (proj2 (W _ _ Hst) j El) as [Hj1 Hj2].
    destruct (IHm j f s1 ltac:(lia) ltac:(lia) Hj2) as (s' & new' & tr' & E & [Y1 Y2 Y3 Y4 Y5 Y6 YU Y7 Y8 Y9 Y10 Y11 Y12 Y13]).
    exists s', (new ++ new'), (tr' ++ tr). split; [exact E|]. constructor.
    + rewrite Y1, X1, app_assoc. reflexivity.
    + rewrite Y2, X2, X1, fidx_app, app_length, app_assoc. reflexivity.
    + rewrite Y3, X3, app_assoc. reflexivity.
    + destruct X4 as (? & ? & ? & ? & ? & ? & ?), Y4 as (? & ? & ? & ? & ? & ? & ?). repeat split; congruence.
    + destruct X5 as [P1 P2], Y5 as [P3 P4]. split; [exact (m_sub_trans _ _ _ P1 P3)|exact (m_sub_trans _ _ _ P2 P4)].
    + intros tk Hin. apply in_app_or in Hin. destruct Hin as [Hin|Hin]; [|apply Y6; exact Hin].
      destruct (X6 tk Hin) as [P1 P2]. destruct Y5 as [P3 P4]. split; [exact (m_sub_trans _ _ _ P1 P3)|]. intro Hf'. exact (m_sub_trans _ _ _ (P2 Hf') P4).
    + intro e. destruct (XU e) as [U1 U2], (YU e) as [V1 V2]. split; intro HmA.
      * destruct (V1 HmA) as [HmB|(tk & Hin & HmB)]; [|right; exists tk; split; [apply in_or_app; right; exact Hin|exact HmB]].
        destruct (U1 HmB) as [HmC|(tk & Hin & HmC)]; [left; exact HmC|right; exists tk; split; [apply in_or_app; left; exact Hin|exact HmC]].
      * destruct (V2 HmA) as [HmB|(tk & Hin & HmB)]; [|right; exists tk; split; [apply in_or_app; right; exact Hin|exact HmB]].
        destruct (U2 HmB) as [HmC|(tk & Hin & HmC)]; [left; exact HmC|right; exists tk; split; [apply in_or_app; left; exact Hin|exact HmC]].
    + apply Forall_app; auto.
    + rewrite app_length. lia.
    + apply Forall_app; auto.
    + intros tk Hin. apply in_app_or in Hin. destruct Hin; auto.
    + intros tk x Hin Hx. rewrite EL. apply in_app_or in Hin. apply in_or_app. destruct Hin; eauto.
    + intros h Hh. rewrite EL, !map_app, !list_sum_app', X12, Y12; auto.
    + intro t. rewrite EL, map_app, list_sum_app', cnt_app, X13, Y13. lia.
  - destruct f as [|f]; [lia|]. cbn [expand].
    exists s1, new, tr. split; [reflexivity|]. rewrite app_nil_r in EL. constructor; rewrite ?EL; auto. lia.
Qed.

Lemma sel_expand_spec i s : (i < length a)%nat -> exists s' new tr, sel_expand a (Some i) s = Ret s' tt /\ expanded i s s' new tr.
Proof. intro H. apply (expand_spec (length a)); lia. Qed.
End Run.
