(** One candidate token during the processing of an element. *)
From Coq Require Import Lia ZifyBool ZifyNat.
From Verif Require Import Base XmlScanner PathAtm PathSelect PathSpec PathDesc PathTrie PathKill PathRun1 PathRun2 PathRun3 PathRun4.

Definition mem (k : nat) (l : list nat) : bool := existsb (Nat.eqb k) l.
Lemma mem_In k l : mem k l = true <-> In k l.
Proof. unfold mem. rewrite existsb_exists. split; [intros (x & H & E); apply Nat.eqb_eq in E; congruence|]. intro H. exists k. rewrite Nat.eqb_refl. auto. Qed.
Lemma mem_not k l : mem k l = false <-> ~ In k l.
Proof. rewrite <- mem_In. destruct (mem k l); split; congruence. Qed.

Lemma wsum_step f f' toks j tk tk' new :
  (forall k t, k <> j -> (k < length toks)%nat -> f k t = f' k t) -> nth_error toks j = Some tk ->
  (wsum f' 0 (upd j tk' toks ++ new) + f j tk = wsum f 0 toks + f' j tk' + wsum f' (length toks) new)%nat.
Proof.
  intros H Hj. rewrite wsum_app, upd_length, Nat.add_0_l.
  assert (G : forall (l : list tok) (n : nat), (forall k, (k < length l)%nat -> forall t, (n + k)%nat <> j -> f (n + k)%nat t = f' (n + k)%nat t) ->
     forall i, (n + i = j)%nat -> nth_error l i = Some tk -> (wsum f' n (upd i tk' l) + f j tk = wsum f n l + f' j tk')%nat).
  { induction l as [|u l IH]; intros n Hn i Hi Hnth; destruct i; cbn [nth_error upd wsum] in *; try discriminate.
    - injection Hnth as ->. rewrite Nat.add_0_r in Hi. subst n.
      rewrite (wsum_ext f' f l (S j)); [lia|]. intros k t Hk. symmetry. rewrite Nat.add_succ_comm. apply Hn; [|lia].
      cbn [length]. assert (k < length l)%nat by (apply nth_error_Some; congruence). lia.
    - assert (Hu : f n u = f' n u).
      { specialize (Hn O ltac:(cbn; lia) u ltac:(lia)). rewrite Nat.add_0_r in Hn. exact Hn. }
      rewrite Hu. specialize (IH (S n)). rewrite <- (Nat.add_assoc (f' n u)). rewrite (IH ltac:(intros k Hk t Ht; rewrite Nat.add_succ_comm; apply Hn; cbn [length]; lia) i ltac:(lia) Hnth). lia. }
  specialize (G toks O). specialize (G (fun k Hk t Hkj => H k t Hkj Hk) j eq_refl Hj). lia.
Qed.
Lemma wsum_const g h : forall l n, (forall k t, nth_error l k = Some t -> g (n + k)%nat t = h t) -> wsum g n l = list_sum (map h l).
Proof.
  induction l as [|u l IH]; intros n H; cbn [wsum map]; [reflexivity|]. rewrite list_sum_cons, (IH (S n)).
  - specialize (H O u eq_refl). rewrite Nat.add_0_r in H. rewrite H. reflexivity.
  - intros k t Hk. rewrite Nat.add_succ_comm. apply (H (S k)). exact Hk.
Qed.

Definition wfx (kb : bool) (x : expr) : Prop := wf_edgesk kb true (x_edges x) (x_rep x) (x_follow x) = true.
Lemma wf_edges_mono kb b es r f : wf_edgesk kb b es r f = true -> wf_edgesk kb true es r f = true.
Proof.
  destruct b; [auto|]. destruct es as [|ed es]; cbn [wf_edgesk].
  - destruct r; cbn; congruence.
  - destruct (e_op ed); cbn [andb]; auto; discriminate.
Qed.
Lemma wf_edges_transient kb es r f x : x_edges x = es -> x_rep x = r -> wf_edgesk kb false es r f = true -> transient x = false.
Proof.
  intros <- <- H. unfold transient. destruct (x_edges x) as [|ed es]; cbn [wf_edgesk] in H.
  - destruct (x_rep x); cbn in H; congruence.
  - destruct (e_op ed); try reflexivity. cbn in H. congruence.
Qed.

Definition dep (stk : list scope) (k : nat) : nat := length (filter (fun sc => Nat.ltb k (sc_to sc)) stk).

Section Event.
Variables kb ub : bool.
Variable a : atm.
Hypothesis W : atm_wf a.
Notation exprs := (tok_exprs a).
Notation contr := (contr kb ub a).
Notation wfx := (wfx kb).

Variables (toks0 : list tok) (stk stk1 : list scope) (F fx prev_to : nat) (e : etype) (key : list N) (l : list event) (ph ph' : phase).
Definition T0 := length toks0.
Definition dA (k : nat) : option nat :=
  if Nat.ltb k T0 then depth_after (dep stk k) (e, key) else if kclose (kind_of e) then None else Some O.
Definition frA (k : nat) : bool := match ph' with PVal => Nat.leb T0 k | _ => false end.
Definition frB (k : nat) : bool := match ph with PVal => Nat.leb prev_to k | _ => false end.
Definition cb (t : Z) (i k : nat) (tk : tok) : nat := contr t (frB k) (Some (dep stk k)) ((e, key) :: l) i tk.
Definition ga (t : Z) (i k : nat) (tk : tok) : nat := contr t (frA k) (dA k) l i tk.
Definition base : nat := match kind_of e with KOpen => T0 | _ => F end.

Record Mid (s : sel) (rem : list nat) (acc : list Z) : Prop := {
  md_stk : s_stk s = stk1;
  md_type : s_type s = e;
  md_sc : sc_from (s_scope s) = F /\ sc_to (s_scope s) = T0 /\ sc_fidx (s_scope s) = fx;
  md_fol : s_follows s = fidx 0 (s_toks s);
  md_ok : Forall (tok_ok a) (s_toks s);
  md_wf : forall tk x, In tk (s_toks s) -> In x (exprs tk) -> wfx x;
  md_state : firstn T0 (map t_state (s_toks s)) = map t_state toks0;
  md_rem : forall k, In k rem -> nth_error (s_toks s) k = nth_error toks0 k;
  md_cov : forall k tk, nth_error (s_toks s) k = Some tk -> (base <= k)%nat \/ t_follow tk = true -> m_sub (smask a tk) (sc_mask (s_scope s));
  md_fcov : forall tk, In tk (s_toks s) -> t_follow tk = true -> m_sub (smask a tk) (sc_fmask (s_scope s));
  md_up : forall ev, m_matches (sc_mask (s_scope s)) ev = true -> ev = EOpenTag \/
          exists k tk, nth_error (s_toks s) k = Some tk /\ (base <= k \/ T0 <= k \/ t_follow tk = true)%nat /\ m_matches (smask a tk) ev = true;
  md_fup : forall ev, m_matches (sc_fmask (s_scope s)) ev = true ->
          exists tk, In tk (s_toks s) /\ t_follow tk = true /\ m_matches (smask a tk) ev = true;
  md_this : forall k tk x, nth_error (s_toks s) k = Some tk -> (base <= k)%nat -> In x (exprs tk) -> transient x = true ->
            m_sub (m_op OpAttribute) (sc_mask (s_scope s));
  md_trig : Forall (fun t => t <> 0%Z) (s_trig s);
  md_stale : kind_of e = KName -> forall k tk x, (F <= k < T0)%nat -> ~ In k rem -> nth_error (s_toks s) k = Some tk ->
             In x (exprs tk) -> transient x = true -> dead tk = true;
  md_now : ub = false -> forall t, (cnt t acc + cnt t (s_trig s) + wsum (fun k tk => if mem k rem then cb t 0 k tk else O) 0 (s_toks s) = wsum (cb t 0) 0 toks0)%nat;
  md_lat : forall t i, wsum (fun k tk => if mem k rem then cb t (S i) k tk else ga t i k tk) 0 (s_toks s) = wsum (cb t (S i)) 0 toks0 }.

Lemma md_len s rem acc : Mid s rem acc -> (T0 <= length (s_toks s))%nat.
Proof.
  intro M. pose proof (f_equal (@length _) (md_state _ _ _ M)) as H. rewrite firstn_length, !map_length in H. fold T0 in H. lia.
Qed.

Definition ptail (rt : Z) : list Z := if (rt =? 0)%Z then [] else [rt].

Lemma Mid_step s j rem acc s' tk tk' new tr rt :
  Mid s (j :: rem) acc -> NoDup (j :: rem) -> (forall k, In k rem -> (k < T0)%nat) -> (j < T0)%nat ->
  nth_error (s_toks s) j = Some tk ->
  s_toks s' = upd j tk' (s_toks s) ++ new ->
  s_follows s' = s_follows s ++ fidx (length (s_toks s)) new ->
  s_trig s' = tr ++ s_trig s ->
  (s_stk s' = s_stk s /\ s_type s' = s_type s /\ s_key s' = s_key s /\
   sc_from (s_scope s') = sc_from (s_scope s) /\ sc_to (s_scope s') = sc_to (s_scope s) /\ sc_fidx (s_scope s') = sc_fidx (s_scope s)) ->
  (m_sub (sc_mask (s_scope s)) (sc_mask (s_scope s')) /\ m_sub (sc_fmask (s_scope s)) (sc_fmask (s_scope s'))) ->
  (forall ev, (m_matches (sc_mask (s_scope s')) ev = true -> m_matches (sc_mask (s_scope s)) ev = true \/ exists tk, In tk new /\ m_matches (smask a tk) ev = true) /\
     (m_matches (sc_fmask (s_scope s')) ev = true -> m_matches (sc_fmask (s_scope s)) ev = true \/ exists tk, In tk new /\ t_follow tk = true /\ m_matches (smask a tk) ev = true)) ->
  t_state tk' = t_state tk -> t_follow tk' = t_follow tk -> tok_ok a tk' ->
  (forall x, In x (exprs tk') -> exists y, In y (exprs tk) /\ x_edges x = x_edges y /\ x_rep x = x_rep y /\ x_follow x = x_follow y) ->
  (forall tk, In tk new -> m_sub (smask a tk) (sc_mask (s_scope s')) /\ (t_follow tk = true -> m_sub (smask a tk) (sc_fmask (s_scope s')))) ->
  Forall (tok_ok a) new -> (forall tk x, In tk new -> In x (exprs tk) -> wfx x) ->
  (forall tk x, In tk new -> In x (exprs tk) -> transient x = true -> m_sub (m_op OpAttribute) (sc_mask (s_scope s'))) ->
  Forall (fun t => t <> 0%Z) tr ->
  (kind_of e = KName -> (F <= j)%nat -> forall x, In x (exprs tk') -> transient x = true -> dead tk' = true) ->
  (ub = false -> forall t, (cnt t (ptail rt) + cnt t tr = cb t 0 j tk)%nat) ->
  (forall t i, (ga t i j tk' + wsum (ga t i) (length (s_toks s)) new = cb t (S i) j tk)%nat) ->
  Mid s' rem (acc ++ ptail rt).
Proof.
  intros M ND Hrem Hj Ht E1 E2 E3 (E4 & E5 & E6 & E7 & E8 & E9) (Ma & Mb) Up S1 S2 Ok' Ex' Cov' Ok'' Wf'' This'' Nz Stale' Now' Lat'.
  pose proof (md_len _ _ _ M) as Len.
  assert (Hjr : ~ In j rem) by (inversion ND; assumption).
  assert (Hnew : forall k t, nth_error (s_toks s') k = Some t ->
     (k = j /\ t = tk') \/ (k <> j /\ nth_error (s_toks s) k = Some t) \/ (T0 <= k /\ In t new)%nat).
  { intros k t Hk. rewrite E1 in Hk. destruct (Nat.ltb_spec k (length (s_toks s))) as [Hl|Hl].
    - rewrite nth_error_app1 in Hk by (rewrite upd_length; exact Hl). rewrite nth_upd in Hk.
      destruct (Nat.eqb_spec j k) as [->|Hne].
      + left. rewrite Ht in Hk. split; congruence.
      + right. left. split; congruence.
    - right. right. rewrite nth_error_app2 in Hk by (rewrite upd_length; exact Hl). split; [lia|]. eapply nth_error_In; eauto. }
  assert (Hold : forall k t, nth_error (s_toks s) k = Some t -> exists t', nth_error (s_toks s') k = Some t' /\ t_state t' = t_state t /\ t_follow t' = t_follow t).
  { intros k t Hk. assert (Hl : (k < length (s_toks s))%nat) by (apply nth_error_Some; congruence).
    rewrite E1, nth_error_app1 by (rewrite upd_length; exact Hl). rewrite nth_upd. destruct (Nat.eqb_spec j k) as [->|Hne].
    - rewrite Hk. exists tk'. split; [reflexivity|]. assert (t = tk) by congruence. subst t. split; assumption.
    - exists t. auto. }
  assert (Hin_new : forall t, In t new -> exists k, nth_error (s_toks s') k = Some t /\ (length (s_toks s) <= k)%nat).
  { intros t Hin. apply In_nth_error in Hin. destruct Hin as [k Hk]. exists (length (s_toks s) + k)%nat. split; [|lia].
    rewrite E1, nth_error_app2 by (rewrite upd_length; lia). rewrite upd_length. rewrite <- Hk. f_equal. lia. }
  assert (Htrans : forall x, In x (exprs tk') -> exists y, In y (exprs tk) /\ transient y = transient x).
  { intros x Hx. destruct (Ex' x Hx) as (y & Hy & Q1 & Q2 & Q3). exists y. split; [exact Hy|]. unfold transient. rewrite Q1, Q2. reflexivity. }
  assert (Hsm : smask a tk' = smask a tk) by (unfold smask; rewrite S1; reflexivity).
  assert (Hintk : In tk (s_toks s)) by (eapply nth_error_In; eauto).
  destruct (md_sc _ _ _ M) as (Q1 & Q2 & Q3).
  constructor.
  - rewrite E4. apply (md_stk _ _ _ M).
  - rewrite E5. apply (md_type _ _ _ M).
  - splits; congruence.
  - rewrite E2, E1, fidx_app, (md_fol _ _ _ M), upd_length. f_equal. apply fidx_ext. rewrite (map_upd t_follow); [reflexivity|]. intros y Hy. congruence.
  - rewrite E1. apply Forall_app. split; [|exact Ok'']. pose proof (md_ok _ _ _ M) as Ok. rewrite Forall_forall in Ok |- *.
    intros t Hin. apply In_nth_error in Hin. destruct Hin as [k Hk]. rewrite nth_upd in Hk.
    destruct (_ =? _)%nat; [destruct (nth_error (s_toks s) k); congruence|]. apply Ok. eapply nth_error_In; eauto.
  - intros t x Hin Hx. apply In_nth_error in Hin. destruct Hin as [k Hk]. destruct (Hnew k t Hk) as [[-> ->]|[[Hne Hk']|[Hk' Hin]]].
    + destruct (Ex' x Hx) as (y & Hy & R1 & R2 & R3). unfold PathRun5.wfx. rewrite R1, R2, R3. apply (md_wf _ _ _ M tk y Hintk Hy).
    + apply (md_wf _ _ _ M t x); [eapply nth_error_In; eauto|exact Hx].
    + eapply Wf''; eauto.
  - rewrite E1, map_app, firstn_app, map_length, upd_length. replace (T0 - length (s_toks s))%nat with O by lia. cbn [firstn]. rewrite app_nil_r.
    rewrite (map_upd t_state); [apply (md_state _ _ _ M)|]. intros y Hy. congruence.
  - intros k Hk. rewrite E1, nth_error_app1 by (rewrite upd_length; specialize (Hrem k Hk); lia). rewrite nth_upd.
    destruct (Nat.eqb_spec j k); [subst; contradiction|]. apply (md_rem _ _ _ M). right. exact Hk.
  - intros k t Hk Hb. destruct (Hnew k t Hk) as [[-> ->]|[[Hne Hk']|[Hk' Hin]]].
    + rewrite Hsm. rewrite S2 in Hb. exact (m_sub_trans _ _ _ (md_cov _ _ _ M j tk Ht Hb) Ma).
    + exact (m_sub_trans _ _ _ (md_cov _ _ _ M k t Hk' Hb) Ma).
    + apply Cov'. exact Hin.
  - intros t Hin Hf. apply In_nth_error in Hin. destruct Hin as [k Hk]. destruct (Hnew k t Hk) as [[-> ->]|[[Hne Hk']|[Hk' Hin]]].
    + rewrite Hsm. rewrite S2 in Hf. exact (m_sub_trans _ _ _ (md_fcov _ _ _ M tk Hintk Hf) Mb).
    + exact (m_sub_trans _ _ _ (md_fcov _ _ _ M t (nth_error_In _ _ Hk') Hf) Mb).
    + apply (proj2 (Cov' t Hin) Hf).
  - intros ev Hm. destruct (proj1 (Up ev) Hm) as [Hm'|(t & Hin & Hm')].
    + destruct (md_up _ _ _ M ev Hm') as [He|(k & t & Hk & Hb & Hs)]; [left; exact He|right].
      destruct (Hold k t Hk) as (t' & Hk' & Hst & Hfo). exists k, t'. split; [exact Hk'|]. unfold smask in *. rewrite Hst, Hfo. split; assumption.
    + right. destruct (Hin_new t Hin) as (k & Hk & Hl). exists k, t. split; [exact Hk|]. split; [right; left; lia|exact Hm'].
  - intros ev Hm. destruct (proj2 (Up ev) Hm) as [Hm'|(t & Hin & Hf & Hm')].
    + destruct (md_fup _ _ _ M ev Hm') as (t & Hin & Hf & Hs). apply In_nth_error in Hin. destruct Hin as [k Hk].
      destruct (Hold k t Hk) as (t' & Hk' & Hst & Hfo). exists t'. split; [eapply nth_error_In; eauto|]. unfold smask in *. rewrite Hst, Hfo. split; assumption.
    + destruct (Hin_new t Hin) as (k & Hk & Hl). exists t. split; [eapply nth_error_In; eauto|]. split; assumption.
  - intros k t x Hk Hb Hx Hx'. destruct (Hnew k t Hk) as [[-> ->]|[[Hne Hk']|[Hk' Hin]]].
    + destruct (Htrans x Hx) as (y & Hy & Ty). rewrite Hx' in Ty. exact (m_sub_trans _ _ _ (md_this _ _ _ M j tk y Ht Hb Hy Ty) Ma).
    + exact (m_sub_trans _ _ _ (md_this _ _ _ M k t x Hk' Hb Hx Hx') Ma).
    + exact (This'' t x Hin Hx Hx').
  - rewrite E3. apply Forall_app. split; [exact Nz|apply (md_trig _ _ _ M)].
  - intros Kn k t x Hb Hni Hk Hx Hx'. destruct (Hnew k t Hk) as [[-> ->]|[[Hne Hk']|[Hk' Hin]]].
    + apply (Stale' Kn (proj1 Hb) x Hx Hx').
    + apply (md_stale _ _ _ M Kn k t x Hb); auto. intros [Hc|Hc]; [congruence|contradiction].
    + lia.
  - intros U t. rewrite cnt_app, E3, cnt_app, <- (md_now _ _ _ M U t), E1.
    set (f := fun k tk => if mem k (j :: rem) then cb t 0 k tk else O). set (f' := fun k tk => if mem k rem then cb t 0 k tk else O).
    pose proof (wsum_step f f' (s_toks s) j tk tk' new) as G.
    assert (G1 : forall k u, k <> j -> (k < length (s_toks s))%nat -> f k u = f' k u).
    { intros k u Hne _. unfold f, f', mem. cbn [existsb]. replace (k =? j)%nat with false by lia. reflexivity. }
    specialize (G G1 Ht).
    assert (G2 : f j tk = cb t 0 j tk). { unfold f. replace (mem j (j :: rem)) with true; [reflexivity|]. symmetry. apply mem_In. left. reflexivity. }
    assert (G3 : f' j tk' = O). { unfold f'. replace (mem j rem) with false; [reflexivity|]. symmetry. apply mem_not. exact Hjr. }
    assert (G4 : wsum f' (length (s_toks s)) new = O).
    { apply wsum_0. intros k u _. unfold f'. replace (mem (length (s_toks s) + k) rem) with false; [reflexivity|].
      symmetry. apply mem_not. intro Hc. specialize (Hrem _ Hc). lia. }
    specialize (Now' U t). lia.
  - intros t i. rewrite <- (md_lat _ _ _ M t i), E1.
    set (f := fun k tk => if mem k (j :: rem) then cb t (S i) k tk else ga t i k tk). set (f' := fun k tk => if mem k rem then cb t (S i) k tk else ga t i k tk).
    pose proof (wsum_step f f' (s_toks s) j tk tk' new) as G.
    assert (G1 : forall k u, k <> j -> (k < length (s_toks s))%nat -> f k u = f' k u).
    { intros k u Hne _. unfold f, f', mem. cbn [existsb]. replace (k =? j)%nat with false by lia. reflexivity. }
    specialize (G G1 Ht).
    assert (G2 : f j tk = cb t (S i) j tk). { unfold f. replace (mem j (j :: rem)) with true; [reflexivity|]. symmetry. apply mem_In. left. reflexivity. }
    assert (G3 : f' j tk' = ga t i j tk'). { unfold f'. replace (mem j rem) with false; [reflexivity|]. symmetry. apply mem_not. exact Hjr. }
    assert (G4 : wsum f' (length (s_toks s)) new = wsum (ga t i) (length (s_toks s)) new).
    { apply wsum_ext. intros k u _. unfold f'. replace (mem (length (s_toks s) + k) rem) with false; [reflexivity|].
      symmetry. apply mem_not. intro Hc. specialize (Hrem _ Hc). lia. }
    specialize (Lat' t i). lia.
Qed.
End Event.
