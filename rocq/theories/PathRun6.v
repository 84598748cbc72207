(** One candidate token during the processing of an element: the cases. *)
From Coq Require Import Lia ZifyBool ZifyNat.
From Verif Require Import Base XmlScanner PathAtm PathSelect PathSpec PathDesc PathTrie PathKill PathRun1 PathRun2 PathRun3 PathRun4 PathRun5.

Lemma c_reset_mask c : c_mask (c_reset c) = m_zero. Proof. reflexivity. Qed.
Lemma cnt_nil t : cnt t [] = O. Proof. reflexivity. Qed.

Lemma new_ltb (t m k : nat) : (t <= m)%nat -> Nat.ltb (m + k) t = false.
Proof. intro H. apply Nat.ltb_ge. lia. Qed.
Lemma new_leb (t m k : nat) : (t <= m)%nat -> Nat.leb t (m + k) = true.
Proof. intro H. apply Nat.leb_le. lia. Qed.

Section Event.
Variables kb ub : bool.
Variable a : atm.
Hypothesis W : atm_wf a.
Notation exprs := (tok_exprs a).
Notation hits := (hitsk kb).
Notation wfx := (wfx kb).
Notation contr := (contr kb ub a).
Variables (toks0 : list tok) (stk stk1 : list scope) (F fx prev_to : nat) (e : etype) (key : list N) (l : list event) (ph ph' : phase) (n n' : nat).
Hypothesis Hph : phase_after ph (kind_of e) = Some ph'.
Hypothesis Hord : ordered ph' n' l = true.
Hypothesis Hdep : forall k, (F <= k)%nat -> dep stk k = O.
Hypothesis Hstale : ph = PVal -> forall k tk x, (F <= k < prev_to)%nat -> nth_error toks0 k = Some tk -> In x (exprs tk) -> transient x = true -> dead tk = true.
Notation Mid := (Mid kb ub a toks0 stk stk1 F fx prev_to e key l ph ph').
Notation T0 := (T0 toks0).
Notation cb := (cb kb ub a stk prev_to e key l ph).
Notation ga := (ga kb ub a toks0 stk e key l ph').

Lemma dead_zero tk : tok_ok a tk -> c_mask (t_core tk) = m_zero -> dead tk = true.
Proof. intros _ H. unfold dead. rewrite H. reflexivity. Qed.
Lemma ga_old t i j tk : (j < T0)%nat -> ga t i j tk = contr t false (depth_after (dep stk j) (e, key)) l i tk.
Proof.
  intro H. unfold PathRun5.ga, frA, dA. replace (Nat.ltb j T0) with true by lia. 
  replace (match ph' with PVal => Nat.leb T0 j | _ => false end) with false; [reflexivity|]. destruct ph'; try reflexivity. lia.
Qed.
Lemma contr_dead t fr d evs i tk : gone ub a tk = true -> contr t fr d evs i tk = O.
Proof. unfold PathRun2.contr. intros ->. reflexivity. Qed.
Lemma same_exprs (tk : tok) : forall x : expr, In x (exprs tk) -> exists y, In y (exprs tk) /\ x_edges x = x_edges y /\ x_rep x = x_rep y /\ x_follow x = x_follow y.
Proof. intros x Hx. exists x. auto. Qed.

(** expressions of a token that stands for a value of an attribute *)
Lemma transient_shape tk st x : nth_error a (t_state tk) = Some st -> In x (exprs tk) -> transient x = true -> c_mask (st_core st) = m_op OpThisValue.
Proof.
  intros H1 Hx T. destruct (proj1 (W _ _ H1)) as [C _ Hn|o f j C Hn Hj|r f t b ee C Ht _ Hn|od C Hn].
  - rewrite (tok_expr_edge a _ _ H1) in Hx by (rewrite C; reflexivity). rewrite Hn in Hx. destruct Hx.
  - rewrite (tok_expr_edge a _ _ H1) in Hx by (rewrite C; reflexivity). rewrite Hn in Hx.
    apply in_map_iff in Hx. destruct Hx as (y & <- & Hy). unfold transient, add_edge, rest_of in T. cbn [x_edges] in T.
    unfold edge_of in T. cbn [e_op] in T. rewrite C in *. cbn [c_mask] in *. rewrite sop_of_op in T. destruct o; try discriminate. reflexivity.
  - rewrite (tok_expr_out a _ _ H1) in Hx by (rewrite C; exact Ht). destruct Hx as [<-|[]]. unfold transient, out_of in T. cbn [x_edges x_rep] in T.
    rewrite C in *. cbn [c_mask] in *. rewrite rep_of_mask in T. destruct r; try discriminate. reflexivity.
  - rewrite (tok_expr_edge a _ _ H1) in Hx by (rewrite C; reflexivity). rewrite Hn in Hx. destruct Hx.
Qed.
Lemma transient_nofollow tk st x : tok_ok a tk -> nth_error a (t_state tk) = Some st -> In x (exprs tk) -> wfx x -> transient x = true -> t_follow tk = false.
Proof.
  intros (st' & Hst' & HF & _) H1 Hx Wx T. assert (st' = st) by congruence. subst st'.
  unfold t_follow. rewrite HF. unfold PathRun5.wfx in Wx.
  destruct (Z.eq_dec (c_type (st_core st)) 0) as [Ty|Ty].
  - rewrite (tok_expr_edge a _ _ H1 Ty) in Hx. destruct (st_next st); [|destruct Hx].
    apply in_map_iff in Hx. destruct Hx as (y & <- & Hy). unfold transient, add_edge, rest_of in *. cbn [x_edges x_rep x_follow wf_edgesk] in *.
    destruct (e_op (edge_of st)); try discriminate. cbn [edge_of e_follow andb] in Wx. destruct (c_follow (st_core st)); [discriminate|reflexivity].
  - rewrite (tok_expr_out a _ _ H1 Ty) in Hx. destruct Hx as [<-|[]]. unfold transient, out_of in *. cbn [x_edges x_rep x_follow wf_edgesk] in *.
    destruct (rep_of _); try discriminate. cbn [andb] in Wx. destruct (c_follow (st_core st)); [discriminate|reflexivity].
Qed.

Definition keep (s s' : sel) : Prop := s_iter s' = s_iter s /\ s_key s' = s_key s /\ m_sub (sc_mask (s_scope s)) (sc_mask (s_scope s')).
Lemma keep_refl s : keep s s.
Proof. unfold keep. splits; try reflexivity. apply m_sub_refl. Qed.
Lemma keep_tok j c s : keep s (sel_set_tok j c s).
Proof. unfold sel_set_tok. destruct (nth_error _ _); [|apply keep_refl]. unfold keep. splits; try reflexivity. apply m_sub_refl. Qed.

Section Cand.
Variables (s : sel) (j : nat) (rem : list nat) (acc : list Z) (tk : tok) (st : pstate).
Hypothesis M : Mid s (j :: rem) acc.
Hypothesis cand_key : s_key s = Some key.
Hypothesis ND : NoDup (j :: rem).
Hypothesis Hrem : forall k, In k rem -> (k < T0)%nat.
Hypothesis Hj : (j < T0)%nat.
Hypothesis Ht : nth_error (s_toks s) j = Some tk.
Hypothesis Hc : (F <= j)%nat \/ t_follow tk = true.
Hypothesis Hst : nth_error a (t_state tk) = Some st.

Lemma cand_ok : tok_ok a tk.
Proof. pose proof (md_ok _ _ _ _ _ _ _ _ _ _ _ _ _ _ _ _ _ M) as H. rewrite Forall_forall in H. apply H. eapply nth_error_In; eauto. Qed.
Lemma cand_wf x : In x (exprs tk) -> wfx x.
Proof. apply (md_wf _ _ _ _ _ _ _ _ _ _ _ _ _ _ _ _ _ M). eapply nth_error_In; eauto. Qed.
Lemma cand_ty : s_type s = e. Proof. apply (md_type _ _ _ _ _ _ _ _ _ _ _ _ _ _ _ _ _ M). Qed.
Lemma cand_to : (j < sc_to (s_scope s))%nat.
Proof. destruct (md_sc _ _ _ _ _ _ _ _ _ _ _ _ _ _ _ _ _ M) as (_ & -> & _). exact Hj. Qed.
Lemma cand_0 : nth_error toks0 j = Some tk.
Proof. rewrite <- Ht. symmetry. apply (md_rem _ _ _ _ _ _ _ _ _ _ _ _ _ _ _ _ _ M). left. reflexivity. Qed.

(** a step without effect on the results *)
Lemma Mid_quiet tk' :
  (ub = false -> forall t, cb t 0 j tk = O) -> (forall t i, ga t i j tk' = cb t (S i) j tk) ->
  (tk' = tk \/ tk' = mkTok (c_reset (t_core tk)) (t_state tk)) ->
  (kind_of e = KName -> (F <= j)%nat -> forall x, In x (exprs tk') -> transient x = true -> dead tk' = true) ->
  Mid (sel_set_tok j (t_core tk') s) rem acc.
Proof.
  intros Q1 Q2 Q3 Q4.
  assert (E : sel_set_tok j (t_core tk') s = sel_set_toks (upd j tk' (s_toks s)) s).
  { unfold sel_set_tok. rewrite Ht. f_equal. f_equal. destruct Q3 as [-> | ->]; [destruct tk|]; reflexivity. }
  rewrite E. rewrite <- (app_nil_r acc). change [] with (ptail 0). 
  assert (Ex : exprs tk' = exprs tk).
  { destruct Q3 as [-> | ->]; [reflexivity|]. unfold tok_exprs. cbn [t_state t_core]. rewrite Hst. unfold alts, out_of, range_of. reflexivity. }
  eapply (Mid_step kb ub a toks0 stk stk1 F fx prev_to e key l ph ph' s j rem acc _ tk tk' [] [] 0 M ND Hrem Hj Ht).
  - rewrite app_nil_r. reflexivity.
  - cbn [fidx]. rewrite app_nil_r. reflexivity.
  - reflexivity.
  - splits; reflexivity.
  - split; apply m_sub_refl.
  - intro ev. split; intro Hm'; left; exact Hm'.
  - destruct Q3 as [-> | ->]; reflexivity.
  - destruct Q3 as [-> | ->]; reflexivity.
  - destruct Q3 as [-> | ->]; [apply cand_ok|]. destruct cand_ok as (st' & K1 & K2 & K3 & K4 & K5 & K6).
    exists st'. cbn [t_state t_core c_reset c_follow c_type c_mask c_end]. splits; auto.
  - rewrite Ex. apply same_exprs.
  - intros ? [].
  - constructor.
  - intros ? ? [].
  - intros ? ? [].
  - constructor.
  - exact Q4.
  - intros U t. rewrite (Q1 U). reflexivity.
  - intros t i. cbn [wsum]. rewrite Q2. lia.
Qed.

Lemma cand_fresh x : In x (exprs tk) -> transient x = true -> dead tk = false -> kind_of e = KValue -> frB prev_to ph j = true.
Proof.
  intros Hx Tx D K. assert (Ep : ph = PVal) by (pose proof Hph as Hph2; rewrite K in Hph2; destruct ph; cbn in Hph2; congruence).
  unfold frB. rewrite Ep.
  pose proof (transient_nofollow tk st x cand_ok Hst Hx (cand_wf x Hx) Tx) as NF.
  destruct Hc as [HF|HF]; [|congruence].
  destruct (Nat.leb_spec prev_to j) as [|Hlt]; [reflexivity|].
  rewrite (Hstale Ep j tk x (conj HF Hlt) cand_0 Hx Tx) in D. discriminate.
Qed.

Lemma cand_near b : c_follow (t_core tk) = b -> near (dep stk j) b = true.
Proof. intro Hb. unfold near. destruct Hc as [H|H]; [rewrite (Hdep j H); apply orb_true_r|]. unfold t_follow in H. rewrite H in Hb. subst b. reflexivity. Qed.

Lemma content_out : content a tk = true -> c_type (st_core st) <> 0%Z.
Proof.
  unfold content, smask. rewrite Hst. intro C. destruct (proj1 (W _ _ Hst)) as [X _ _|o f i0 X _ _|r f t0 b ee X T _ _|od X Hn]; rewrite X in *; cbn [c_mask core_new c_type] in *.
  - rewrite m_zero_matches in C. discriminate.
  - rewrite op_matches in C. destruct o; discriminate.
  - exact T.
  - rewrite op_matches in C. destruct od; discriminate.
Qed.
Lemma kept_norej : dead tk = false -> m_rejects (c_mask (t_core tk)) e = false -> forall x, In x (exprs tk) -> kept kb x (e, key).
Proof.
  intros D R x Hx. unfold kept. apply andb_false_intro2. destruct cand_ok as (st' & K1 & K2 & K3 & K4 & K5 & K6). assert (st' = st) by congruence. subst st'.
  destruct K4 as [K4|K4]; [|rewrite (dead_zero tk cand_ok K4) in D; discriminate]. rewrite K4 in R.
  destruct (proj1 (W _ _ Hst)) as [C _ Hn|o f i0 C Hn Hi0|r f t0 b ee C Ht0 _ Hn|od C Hn]; rewrite C in R; cbn [c_mask core_new] in R.
  - rewrite (tok_expr_edge a _ _ Hst) in Hx by (rewrite C; reflexivity). rewrite Hn in Hx. destruct Hx.
  - rewrite op_rejects in R. rewrite (tok_expr_edge a _ _ Hst) in Hx by (rewrite C; reflexivity). rewrite Hn in Hx.
    apply in_map_iff in Hx. destruct Hx as (y & <- & Hy).
    assert (Eo : e_op (edge_of st) = o) by (unfold edge_of; cbn [e_op]; rewrite C; apply sop_of_op).
    unfold refused, add_edge, rest_of. cbn [x_edges fst]. rewrite Eo. destruct (kind_of e), o; try reflexivity. discriminate.
  - rewrite (tok_expr_out a _ _ Hst) in Hx by (rewrite C; exact Ht0). destruct Hx as [<-|[]]. apply refused_out. reflexivity.
  - rewrite (tok_expr_edge a _ _ Hst) in Hx by (rewrite C; reflexivity). rewrite Hn in Hx. destruct Hx.
Qed.

Lemma cand_nomatch : m_matches (c_mask (t_core tk)) e = false ->
  exists s', sel_match a j s = Ret s' 0%Z /\ Mid s' rem acc /\ keep s s' /\ s_trig s' = s_trig s.
Proof.
  intro Hm. rewrite (match_quiet a s j tk st key cand_key cand_to Ht Hst) by (left; rewrite cand_ty; exact Hm). rewrite cand_ty.
  destruct cand_ok as (st' & K1 & K2 & K3 & K4 & K5 & K6). assert (st' = st) by congruence. subst st'.
  assert (Q : dead tk = false -> forall x, In x (exprs tk) -> quiet x (dep stk j) (e, key)).
  { intro D. apply quiet_mask; [exact W|apply cand_ok|]. unfold smask. rewrite Hst. destruct K4 as [K4|K4]; [rewrite <- K4; exact Hm|].
    rewrite (dead_zero tk cand_ok K4) in D. discriminate. }
  assert (Q1 : ub = false -> forall t, cb t 0 j tk = O).
  { intros U t. unfold PathRun5.cb. destruct (dead tk) eqn:D; [|apply contr_now0, Q, eq_refl].
    apply contr_dead. unfold gone. rewrite D, U. reflexivity. }
  destruct (m_rejects (c_mask (t_core tk)) e) eqn:R.
  - assert (D : dead tk = false).
    { destruct K4 as [K4|K4]; [|rewrite K4, m_zero_rejects in R; discriminate]. unfold dead. rewrite K4 in *.
      destruct (proj1 (W _ _ Hst)) as [C _ Hn|o f i0 C Hn Hi0|r f t0 b ee C Ht0 _ Hn|od C Hn]; rewrite C in *; cbn [c_mask core_new c_type] in *.
      - rewrite m_zero_rejects in R. discriminate.
      - destruct o; reflexivity.
      - apply K6. exact Ht0.
      - destruct od; reflexivity. }
    pose proof R as R'. apply (rejects_sub a tk e cand_ok) in R'. unfold smask in R'. rewrite Hst in R'.
    assert (Cn : content a tk = false).
    { unfold content, smask. rewrite Hst. destruct (proj1 (W _ _ Hst)) as [C _ Hn|o f i0 C Hn Hi0|r f t0 b ee C Ht0 _ Hn|od C Hn]; rewrite C in *; cbn [c_mask core_new c_type] in *.
      - apply m_zero_matches.
      - rewrite op_matches. destruct o; reflexivity.
      - rewrite rep_matches. rewrite rep_rejects in R'. destruct r; try discriminate; reflexivity.
      - rewrite op_matches. destruct od; reflexivity. }
    eexists. split; [reflexivity|]. 
    assert (Hz : forall t i, cb t (S i) j tk = O).
    { intros t i. unfold PathRun5.cb, PathRun2.contr. destruct (gone ub a tk); [reflexivity|].
      apply list_sum_0. intros x Hx. unfold cx. destruct (x_type x =? t)%Z; [|reflexivity].
      destruct (transient x && negb _); [reflexivity|].
      rewrite (quiet_later kb _ _ _ _ _ (quiet_lift ub _ _ _ (Q D x Hx))).
      destruct (depth_after (dep stk j) (e, key)) as [d'|] eqn:Ed; [|reflexivity]. rewrite lift_transient, lift_refused.
      destruct (transient x) eqn:Tx; [reflexivity|]. cbn [orb].
      destruct (proj1 (W _ _ Hst)) as [C _ Hn|o f i0 C Hn Hi0|r f t0 b ee C Ht0 _ Hn|od C Hn]; rewrite C in R'; cbn [c_mask core_new] in R'.
      - rewrite m_zero_rejects in R'. discriminate.
      - rewrite op_rejects in R'. pose proof (cand_wf x Hx) as Wx.
        rewrite (tok_expr_edge a _ _ Hst) in Hx by (rewrite C; reflexivity). rewrite Hn in Hx.
        apply in_map_iff in Hx. destruct Hx as (y & <- & Hy).
        assert (Eo : e_op (edge_of st) = o) by (unfold edge_of; cbn [e_op]; rewrite C; apply sop_of_op).
        unfold transient, add_edge, rest_of in Tx. cbn [x_edges] in Tx. rewrite Eo in Tx.
        destruct o; try discriminate.
        destruct (kind_of e) eqn:Ek; try discriminate.
        destruct (e_follow (edge_of st)) eqn:Ef.
        { unfold PathRun5.wfx, add_edge, rest_of in Wx. cbn [x_edges wf_edgesk] in Wx. rewrite Eo, Ef in Wx. cbn [negb] in Wx. rewrite orb_false_r in Wx.
          destruct kb; [|discriminate]. unfold refused, add_edge, rest_of. cbn [x_edges fst]. rewrite Ek, Eo, Ef. reflexivity. }
        assert (Hd : dep stk j = O).
        { destruct Hc as [HF|HF]; [apply Hdep; exact HF|]. exfalso. unfold edge_of in Ef. cbn [e_follow] in Ef. unfold t_follow in HF. congruence. }
        unfold depth_after in Ed. cbn [fst] in Ed. rewrite Ek, Hd in Ed. injection Ed as <-.
        destruct (kb && _); [reflexivity|].
        eapply (hits_attr_late kb l _ (edge_of st) (x_edges y) ph' n' O i); auto; [rewrite lift_edges; reflexivity| |lia].
        intros _. destruct ph; cbn in Hph; try congruence.
      - rewrite rep_rejects in R'. rewrite (tok_expr_out a _ _ Hst) in Hx by (rewrite C; exact Ht0). destruct Hx as [<-|[]].
        unfold transient, out_of in Tx. cbn [x_edges x_rep] in Tx. rewrite C in Tx. cbn [c_mask] in Tx. rewrite rep_of_mask in Tx. destruct r; discriminate.
      - rewrite (tok_expr_edge a _ _ Hst) in Hx by (rewrite C; reflexivity). rewrite Hn in Hx. destruct Hx. }
    split; [|split].
    + apply (Mid_quiet (mkTok (c_reset (t_core tk)) (t_state tk))).
      * exact Q1.
      * intros t i. rewrite Hz, ga_old by exact Hj. apply contr_dead. unfold gone, content, smask in *. cbn [t_state]. rewrite Cn, andb_false_r. reflexivity.
      * right. reflexivity.
      * reflexivity.
    + apply keep_tok.
    + unfold sel_set_tok. rewrite Ht. reflexivity.
  - assert (Q2 : forall t i, cb t (S i) j tk = contr t false (depth_after (dep stk j) (e, key)) l i tk).
    { intros t i. unfold PathRun5.cb. destruct (dead tk) eqn:D.
      - destruct (ub && content a tk) eqn:Uc.
        + apply andb_prop in Uc. apply (contr_content kb ub a W t _ _ (e, key) l tk tk st Hst (content_out (proj2 Uc)) (proj1 Uc) (proj2 Uc) eq_refl).
        + rewrite !contr_dead; [reflexivity| |]; unfold gone; rewrite D, Uc; reflexivity.
      - apply (contr_quiet kb ub a t (frB prev_to ph j) (dep stk j) (e, key) l tk (Q eq_refl) (kept_norej D R)). }
    exists s. split; [reflexivity|]. split; [|split; [apply keep_refl|reflexivity]].
    rewrite <- (sel_set_tok_same s j tk Ht). apply Mid_quiet.
    + exact Q1.
    + intros t i. rewrite Q2. apply ga_old. exact Hj.
    + left. reflexivity.
    + intros Kn _ x Hx Tx. destruct K4 as [K4|K4]; [|apply dead_zero; [apply cand_ok|exact K4]]. exfalso.
      rewrite K4, (transient_shape tk st x Hst Hx Tx) in R. change (m_op OpThisValue) with (m_op (op_of SValue)) in R.
      rewrite op_rejects, Kn in R. discriminate.
Qed.

Lemma cand_badkey : m_matches (c_mask (t_core tk)) e = true -> c_type (st_core st) = 0%Z ->
  match st_key st with Some k => key_eqb k key | None => true end = false ->
  sel_match a j s = Ret s 0%Z /\ Mid s rem acc.
Proof.
  intros Hm Ty Hkey. destruct cand_ok as (st' & K1 & K2 & K3 & K4 & K5 & K6). assert (st' = st) by congruence. subst st'.
  rewrite (match_quiet a s j tk st key cand_key cand_to Ht Hst) by (right; split; congruence). rewrite cand_ty.
  assert (Q : forall x, In x (exprs tk) -> quiet x (dep stk j) (e, key)) by (apply (quiet_key a tk st e key); assumption).
  destruct K4 as [K4|K4]; [|rewrite K4, m_zero_matches in Hm; discriminate].
  assert (R : m_rejects (c_mask (t_core tk)) e = false /\ (kind_of e = KName -> forall x, In x (exprs tk) -> transient x = false)).
  { rewrite K4 in *. split.
    - destruct (proj1 (W _ _ Hst)) as [C _ Hn|o f i0 C Hn Hi0|r f t0 b ee C Ht0 _ Hn|od C Hn]; rewrite C in *; cbn [c_mask core_new c_type] in *.
      + apply m_zero_rejects.
      + rewrite op_matches in Hm. rewrite op_rejects. destruct o, (kind_of e); try discriminate; reflexivity.
      + contradiction.
      + rewrite op_matches in Hm. rewrite op_rejects. destruct od, (kind_of e); try discriminate; reflexivity.
    - intros Kn x Hx. destruct (transient x) eqn:Tx; [|reflexivity]. rewrite (transient_shape tk st x Hst Hx Tx) in Hm.
      change (m_op OpThisValue) with (m_op (op_of SValue)) in Hm. rewrite op_matches, Kn in Hm. discriminate. }
  destruct R as [R1 R2]. rewrite R1. split; [reflexivity|].
  assert (Dd : dead tk = false).
  { unfold dead. destruct (m_empty (c_mask (t_core tk))) eqn:Em; [|reflexivity]. rewrite (m_empty_matches _ e Em) in Hm. discriminate. }
  pose proof (kept_norej Dd R1) as Kp.
  rewrite <- (sel_set_tok_same s j tk Ht). apply Mid_quiet.
  - intros _ t. unfold PathRun5.cb. apply (contr_quiet kb ub a t (frB prev_to ph j) (dep stk j) (e, key) l tk Q Kp).
  - intros t i. rewrite ga_old by exact Hj. symmetry. unfold PathRun5.cb. apply (contr_quiet kb ub a t (frB prev_to ph j) (dep stk j) (e, key) l tk Q Kp).
  - left. reflexivity.
  - intros Kn _ x Hx Tx. rewrite (R2 Kn x Hx) in Tx. discriminate.
Qed.

Lemma cand_step : m_matches (c_mask (t_core tk)) e = true -> c_type (st_core st) = 0%Z ->
  match st_key st with Some k => key_eqb k key | None => true end = true ->
  exists s', sel_match a j s = Ret s' 0%Z /\ Mid s' rem acc /\ keep s s' /\ (length (s_trig s') <= length (s_trig s) + length a)%nat.
Proof.
  intros Hm Ty Hkey. pose proof cand_ok as Hok. destruct cand_ok as (st' & K1 & K2 & K3 & K4 & K5 & K6). assert (st' = st) by congruence. subst st'.
  destruct K4 as [K4|K4]; [|rewrite K4, m_zero_matches in Hm; discriminate].
  destruct (proj1 (W _ _ Hst)) as [C _ Hn|o f nx C Hn Hnx|r f t0 b ee C Ht0 _ Hn|od C Hn].
  { rewrite K4, C in Hm. cbn [core_new c_mask] in Hm. rewrite m_zero_matches in Hm. discriminate. }
  2:{ rewrite C in Ty. contradiction. }
  2:{ assert (Ex0 : exprs tk = []) by (rewrite (tok_expr_edge a _ _ Hst Ty), Hn; reflexivity).
      assert (Hsee : sees od (kind_of e) = true) by (rewrite K4, C in Hm; cbn [c_mask] in Hm; rewrite op_matches in Hm; exact Hm).
      exists s. split; [|split; [|split; [apply keep_refl|lia]]].
      - apply (match_edge a s j tk st key cand_key cand_to Ht Hst); rewrite ?cand_ty; auto.
        + rewrite K4, C. cbn [c_mask]. rewrite op_rejects. destruct od, (kind_of e); try discriminate; reflexivity.
        + congruence.
        + rewrite Hn. reflexivity.
      - rewrite <- (sel_set_tok_same s j tk Ht). apply Mid_quiet.
        + intros _ t. unfold PathRun5.cb, PathRun2.contr. rewrite Ex0. destruct (gone ub a tk); reflexivity.
        + intros t i. unfold PathRun5.ga, PathRun5.cb, PathRun2.contr. rewrite Ex0. cbn [map list_sum fold_right]. destruct (gone ub a tk); [reflexivity|]. destruct (dA _ _ _ _ _); reflexivity.
        + left. reflexivity.
        + intros _ _ x Hx. rewrite Ex0 in Hx. destruct Hx. }
  destruct (sel_expand_spec a W nx s (proj2 Hnx)) as (s' & new & tr & Ex & X).
  assert (Eo : e_op (edge_of st) = o) by (unfold edge_of; cbn [e_op]; rewrite C; apply sop_of_op).
  assert (Hsee : sees o (kind_of e) = true) by (rewrite K4, C in Hm; cbn [c_mask] in Hm; rewrite op_matches in Hm; exact Hm).
  assert (Hstep : step_at (edge_of st) (dep stk j) (e, key) = true).
  { unfold step_at. rewrite Eo. cbn [fst snd]. rewrite Hsee. rewrite cand_near by (rewrite K2; reflexivity). cbn [andb].
    unfold edge_of. cbn [e_name]. unfold names. destruct (st_key st); [|reflexivity]. rewrite <- key_eqb_same. exact Hkey. }
  assert (Hdead : dead tk = false) by (unfold dead; rewrite K4, C; destruct o; reflexivity).
  destruct (ex_same _ _ _ _ _ _ X) as (S1 & S2 & S3 & S4 & S5 & S6 & S7).
  assert (Hwfn : forall y, In y (lang a nx) -> wf_edgesk kb match o with SAttr => true | _ => false end (x_edges y) (x_rep y) (x_follow y) = true).
  { intros y Hy. assert (Hx : In (add_edge (edge_of st) y) (exprs tk)).
    { rewrite (tok_expr_edge a _ _ Hst Ty), Hn. apply in_map. exact Hy. }
    apply cand_wf in Hx. unfold PathRun5.wfx, add_edge, rest_of in Hx. cbn [x_edges x_rep x_follow wf_edgesk] in Hx. rewrite Eo in Hx.
    apply andb_prop in Hx. apply (proj2 Hx). }
  assert (HtrNew : forall y, In y (lang a nx) -> transient y = true -> o = SAttr).
  { intros y Hy Hty. specialize (Hwfn y Hy). destruct o; try reflexivity; rewrite (wf_edges_transient _ _ _ _ y eq_refl eq_refl Hwfn) in Hty; discriminate. }
  assert (Hfresh : forall y, In y (lang a nx) -> o = SValue -> frB prev_to ph j = true).
  { intros y Hy Hov. rewrite Hov in Hsee, Eo. apply (cand_fresh (add_edge (edge_of st) y)); auto.
    - rewrite (tok_expr_edge a _ _ Hst Ty), Hn. apply in_map. exact Hy.
    - unfold transient, add_edge, rest_of. cbn [x_edges]. rewrite Eo. reflexivity.
    - destruct (kind_of e); try discriminate; reflexivity. }
  assert (Hfr2 : (exists y, In y (lang a nx)) -> e_op (edge_of st) = SValue -> frB prev_to ph j = true)
    by (intros (y & Hy) Hov; apply (Hfresh y Hy); congruence).
  exists s'. 
  assert (Hth : nth_error (s_toks s') j = Some tk).
  { rewrite (ex_toks _ _ _ _ _ _ X). rewrite nth_error_app1; [exact Ht|]. apply nth_error_Some. congruence. }
  split; [|split; [|split]].
  - apply (match_edge a s j tk st key cand_key cand_to Ht Hst); rewrite ?cand_ty; auto.
    + rewrite K4, C. cbn [c_mask]. rewrite op_rejects. destruct o, (kind_of e); try discriminate; reflexivity.
    + congruence.
    + rewrite Hn. exact Ex.
    + rewrite S2. apply cand_ty.
  - rewrite <- (app_nil_r acc). change [] with (ptail 0).
    eapply (Mid_step kb ub a toks0 stk stk1 F fx prev_to e key l ph ph' s j rem acc s' tk tk new tr 0 M ND Hrem Hj Ht).
    + rewrite upd_same by exact Ht. apply (ex_toks _ _ _ _ _ _ X).
    + apply (ex_fol _ _ _ _ _ _ X).
    + apply (ex_trig _ _ _ _ _ _ X).
    + splits; assumption.
    + apply (ex_mask _ _ _ _ _ _ X).
    + apply (ex_up _ _ _ _ _ _ X).
    + reflexivity.
    + reflexivity.
    + exact Hok.
    + apply same_exprs.
    + apply (ex_cov _ _ _ _ _ _ X).
    + apply (ex_ok _ _ _ _ _ _ X).
    + intros u x Hu Hx. apply (ex_in _ _ _ _ _ _ X u x Hu) in Hx. unfold PathRun5.wfx. eapply wf_edges_mono. apply Hwfn. exact Hx.
    + intros u x Hu Hx Tx. apply (ex_in _ _ _ _ _ _ X u x Hu) in Hx. pose proof (HtrNew x Hx Tx) as Ho. rewrite Ho in Hsee, Eo, C.
      assert (Kn : kind_of e = KName) by (destruct (kind_of e); try discriminate; reflexivity).
      assert (Hcov := md_cov _ _ _ _ _ _ _ _ _ _ _ _ _ _ _ _ _ M j tk Ht). unfold base in Hcov. rewrite Kn in Hcov. specialize (Hcov Hc).
      unfold smask in Hcov. rewrite Hst, C in Hcov. cbn [c_mask op_of] in Hcov.
      exact (m_sub_trans _ _ _ Hcov (proj1 (ex_mask _ _ _ _ _ _ X))).
    + apply (ex_nz _ _ _ _ _ _ X).
    + intros Kn _ x Hx Tx. exfalso. pose proof (transient_shape tk st x Hst Hx Tx) as Hsm. rewrite C in Hsm. cbn [c_mask] in Hsm.
      rewrite Kn in Hsee. destruct o; discriminate.
    + intros _ t. rewrite cnt_nil, (ex_cnt _ _ _ _ _ _ X). unfold PathRun5.cb.
      destruct (contr_edge kb ub a t (frB prev_to ph j) (dep stk j) (e, key) l tk st nx Hst Ty Hn Hdead Hstep Hfr2) as [G _]. symmetry. exact G.
    + intros t i. unfold PathRun5.cb.
      destruct (contr_edge kb ub a t (frB prev_to ph j) (dep stk j) (e, key) l tk st nx Hst Ty Hn Hdead Hstep Hfr2) as [_ G].
      etransitivity; [|symmetry; exact (G i)]. rewrite ga_old by exact Hj. f_equal. cbn [fst].
      pose proof (md_len _ _ _ _ _ _ _ _ _ _ _ _ _ _ _ _ _ M) as Len.
      destruct (kclose (kind_of e)) eqn:Kc.
      * apply wsum_0. intros k u _. unfold PathRun5.ga, dA. rewrite Kc. rewrite (new_ltb _ _ k Len).
        unfold PathRun2.contr. destruct (gone ub a u); reflexivity.
      * rewrite (wsum_const _ (fun u => list_sum (map (fun x => if (x_type x =? t)%Z then hits (lift ub x) 0 l i else O) (exprs u)))).
        -- apply (ex_sum _ _ _ _ _ _ X). intros x Hx. unfold is_now in Hx. destruct (x_edges x) eqn:E1; [|discriminate].
           destruct (x_rep x) eqn:E2; try discriminate. rewrite hits_none by (rewrite ?lift_edges, ?lift_rep; assumption). destruct (_ =? _)%Z; reflexivity.
        -- intros k u Hu. apply nth_error_In in Hu. unfold PathRun5.ga, dA. rewrite Kc. rewrite (new_ltb _ _ k Len).
           unfold PathRun2.contr. destruct (gone ub a u) eqn:Du.
           ++ rewrite (ex_dead _ _ _ _ _ _ X u Hu (gone_dead ub a u Du)). reflexivity.
           ++ apply list_sum_ext. intros x Hx. unfold cx. destruct (_ =? _)%Z; [|reflexivity].
              destruct (transient x) eqn:Tx; [|reflexivity].
              apply (ex_in _ _ _ _ _ _ X u x Hu) in Hx. pose proof (HtrNew x Hx Tx) as Ho. rewrite Ho in Hsee, Eo, C.
              assert (Kn : kind_of e = KName) by (destruct (kind_of e); try discriminate; reflexivity).
              rewrite Kn in Hph. assert (ph' = PVal) by (destruct ph; cbn in Hph; congruence). unfold frA.
              destruct ph'; try discriminate. rewrite (new_leb _ _ k Len). reflexivity.
  - split; [exact S4|]. split; [exact S3|]. apply (ex_mask _ _ _ _ _ _ X).
  - rewrite (ex_trig _ _ _ _ _ _ X), app_length. pose proof (ex_len _ _ _ _ _ _ X). lia.
Qed.

Lemma cand_out : m_matches (c_mask (t_core tk)) e = true -> c_type (st_core st) <> 0%Z ->
  exists s' rt, sel_match a j s = Ret s' rt /\ Mid s' rem (acc ++ ptail rt) /\ keep s s' /\ s_trig s' = s_trig s.
Proof.
  intros Hm Ty. pose proof cand_ok as Hok. destruct cand_ok as (st' & K1 & K2 & K3 & K4 & K5 & K6). assert (st' = st) by congruence. subst st'.
  destruct K4 as [K4|K4]; [|rewrite K4, m_zero_matches in Hm; discriminate].
  destruct (proj1 (W _ _ Hst)) as [C Hk0 Hn|o f nx C Hn Hnx|r f t0 b ee C Ht0 Hk0 Hn|od C Hn]; try (rewrite C in Ty; contradiction).
  assert (Hrep : reports r (kind_of e) = true) by (rewrite K4, C in Hm; cbn [c_mask] in Hm; rewrite rep_matches in Hm; exact Hm).
  assert (Hr : rep_of (c_mask (st_core st)) = r) by (rewrite C; apply rep_of_mask).
  assert (Hdead : dead tk = false) by (unfold dead; rewrite K4; apply K6; exact Ty).
  assert (Hat : report_at (out_of st (t_core tk)) (dep stk j) (e, key) = true).
  { unfold report_at, out_of. cbn [x_follow x_rep fst]. rewrite Hr, Hrep, cand_near by (rewrite K2; reflexivity). reflexivity. }
  assert (Hfr : x_rep (out_of st (t_core tk)) = RAttr -> frB prev_to ph j = true).
  { intro Hx. apply (cand_fresh (out_of st (t_core tk))).
    - rewrite (tok_expr_out a _ _ Hst Ty). left. reflexivity.
    - unfold transient, out_of in *. cbn [x_edges x_rep] in *. rewrite Hx. reflexivity.
    - exact Hdead.
    - unfold out_of in Hx. cbn [x_rep] in Hx. rewrite Hr in Hx. rewrite Hx in Hrep. destruct (kind_of e); try discriminate; reflexivity. }
  rewrite (match_out a s j tk st key cand_key cand_to Ht Hst) by (rewrite ?cand_ty; congruence).
  set (tk' := mkTok (twice (t_core tk)) (t_state tk)).
  destruct (twice_props (t_core tk)) as (P1 & P2 & P3 & P4).
  assert (Hao : after_out s tk = twice (t_core tk)).
  { unfold after_out. change (fst (count_down (fst (count_down (t_core tk))))) with (twice (t_core tk)). rewrite cand_ty.
    destruct P3 as [P3|P3]; rewrite P3; [|rewrite m_zero_rejects; reflexivity].
    rewrite K4, C. cbn [c_mask]. rewrite rep_rejects. destruct r, (kind_of e); try discriminate; reflexivity. }
  rewrite Hao. exists (sel_set_tok j (twice (t_core tk)) s).
  assert (E : sel_set_tok j (twice (t_core tk)) s = sel_set_toks (upd j tk' (s_toks s)) s).
  { unfold sel_set_tok. rewrite Ht. reflexivity. }
  eexists. split; [reflexivity|]. split; [|split; [apply keep_tok|rewrite E; reflexivity]]. rewrite E.
  assert (Ex1 : exprs tk = [out_of st (t_core tk)]) by (apply tok_expr_out; assumption).
  assert (Ex2 : exprs tk' = [out_of st (twice (t_core tk))]) by (apply (tok_expr_out a tk' st); assumption).
  eapply (Mid_step kb ub a toks0 stk stk1 F fx prev_to e key l ph ph' s j rem acc _ tk tk' [] [] _ M ND Hrem Hj Ht).
  - rewrite app_nil_r. reflexivity.
  - cbn [fidx]. rewrite app_nil_r. reflexivity.
  - reflexivity.
  - splits; reflexivity.
  - split; apply m_sub_refl.
  - intro ev. split; intro Hm'; left; exact Hm'.
  - reflexivity.
  - unfold t_follow. cbn [tk' t_core]. exact P1.
  - exists st. cbn [tk' t_state t_core]. splits; auto; try congruence.
  - rewrite Ex1, Ex2. intros x [<-|[]]. eexists. split; [left; reflexivity|]. splits; reflexivity.
  - intros ? [].
  - constructor.
  - intros ? ? [].
  - intros ? ? [].
  - constructor.
  - intros Kn _ x Hx Tx. exfalso. rewrite Ex2 in Hx. destruct Hx as [<-|[]]. unfold transient, out_of in Tx. cbn [x_edges x_rep] in Tx.
    rewrite Hr in Tx. rewrite Kn in Hrep. destruct r; discriminate.
  - intros U t. rewrite count_twice. unfold PathRun5.cb.
    destruct (contr_out kb ub a W t (frB prev_to ph j) (dep stk j) (e, key) l tk st Hst Ty Hdead K4 Hat Hfr) as [G _]. etransitivity; [|symmetry; exact (G U)]. rewrite cnt_nil, Nat.add_0_r, K3.
    unfold ptail. destruct (range_now _); cbn [andb].
    + rewrite (proj2 (Z.eqb_neq _ _) Ty). apply cnt_one.
    + reflexivity.
  - intros t i. cbn [wsum]. rewrite Nat.add_0_r, ga_old by exact Hj. symmetry. unfold PathRun5.cb.
    apply (contr_out kb ub a W t (frB prev_to ph j) (dep stk j) (e, key) l tk st Hst Ty Hdead K4 Hat Hfr).
Qed.

Lemma candidate : exists s' rt, sel_match a j s = Ret s' rt /\ Mid s' rem (acc ++ ptail rt) /\ keep s s' /\
  (length (s_trig s') <= length (s_trig s) + length a)%nat.
Proof.
  destruct (m_matches (c_mask (t_core tk)) e) eqn:Hm.
  - destruct (Z.eq_dec (c_type (st_core st)) 0) as [Ty|Ty].
    + destruct (match st_key st with Some k => key_eqb k key | None => true end) eqn:Hk.
      * destruct (cand_step Hm Ty Hk) as (s' & E1 & E2 & E3 & E4). exists s', 0%Z. cbn [ptail Z.eqb]. rewrite app_nil_r. auto.
      * destruct (cand_badkey Hm Ty Hk) as (E1 & E2). exists s, 0%Z. cbn [ptail Z.eqb]. rewrite app_nil_r. split; [exact E1|]. split; [exact E2|]. split; [apply keep_refl|]. apply Nat.le_add_r.
    + destruct (cand_out Hm Ty) as (s' & rt & E1 & E2 & E3 & E4). exists s', rt. split; [exact E1|]. split; [exact E2|]. split; [exact E3|]. rewrite E4. apply Nat.le_add_r.
  - destruct (cand_nomatch Hm) as (s' & E1 & E2 & E3 & E4). exists s', 0%Z. cbn [ptail Z.eqb]. rewrite app_nil_r. split; [exact E1|]. split; [exact E2|]. split; [exact E3|]. rewrite E4. apply Nat.le_add_r.
Qed.
End Cand.
End Event.
