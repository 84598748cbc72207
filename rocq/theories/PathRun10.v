(** Paths with attributes in all descendants: the results of a selector for an automaton. *)
From Coq Require Import Lia ZifyBool ZifyNat.
From Verif Require Import Base XmlScanner PathAtm PathSelect PathSpec PathDesc PathTrie PathKill PathRun1 PathRun2 PathRun3 PathRun4 PathRun5 PathRun6 PathRun7 PathRun8 PathRun9.

(** ** lists of elements with contents left out *)
Lemma blank1_true ev : blank1 true ev = ev.
Proof. unfold blank1. destruct (fst ev); reflexivity. Qed.
Lemma blank1_kind b ev : kind_of (fst (blank1 b ev)) = kind_of (fst ev) \/ fst ev = EContent /\ b = false /\ kind_of (fst (blank1 b ev)) = KOther.
Proof. unfold blank1. destruct (fst ev) eqn:E; try (left; rewrite E; reflexivity). destruct b; [left; rewrite E; reflexivity|right; auto]. Qed.
Lemma ordered_weaken : forall l p n, p <> PVal -> ordered PBody n l = true -> ordered p n l = true.
Proof.
  induction l as [|ev l IH]; intros p n Hp H; [reflexivity|]. cbn [ordered] in *.
  destruct (level_after n (kind_of (fst ev))) as [n'|]; [|destruct (phase_after PBody _); discriminate].
  destruct (kind_of (fst ev)) eqn:Ek; cbn [phase_after] in *; destruct p; try discriminate; try contradiction; try exact H; cbn [phase_after]; apply IH; auto; discriminate.
Qed.
Lemma blank_ordered : forall evs bs p n, ordered p n evs = true -> ordered p n (blank bs evs) = true.
Proof.
  induction evs as [|ev l IH]; intros bs p n H; destruct bs as [|b bs]; cbn [blank]; try exact H. cbn [ordered] in *.
  destruct (blank1_kind b ev) as [->|(E & -> & ->)].
  - destruct (phase_after p (kind_of (fst ev))) as [p'|]; [|discriminate]. destruct (level_after n (kind_of (fst ev))) as [n'|]; [|discriminate]. apply IH. exact H.
  - rewrite E in H. cbn [kind_of] in H. destruct p; cbn [phase_after level_after] in *; try discriminate; apply IH, ordered_weaken; auto; discriminate.
Qed.
Lemma blank_nth : forall evs bs i, nth_error (blank bs evs) i = option_map (blank1 (nth i bs true)) (nth_error evs i).
Proof.
  induction evs as [|ev l IH]; intros [|b bs] [|i]; cbn [blank nth_error nth option_map]; try reflexivity.
  - rewrite blank1_true. reflexivity.
  - destruct (nth_error l i); [|reflexivity]. cbn [option_map]. rewrite blank1_true. reflexivity.
  - apply IH.
Qed.
Lemma blank_length : forall evs bs, length (blank bs evs) = length evs.
Proof. induction evs as [|ev l IH]; intros [|b bs]; cbn [blank length]; auto. Qed.
Lemma looks_length E evs n : length (looks E evs n) = n.
Proof. induction n; cbn [looks]; [reflexivity|]. rewrite app_length. cbn [length]. lia. Qed.
Lemma nth_error_ext' {A} : forall (l l' : list A), (forall i, nth_error l i = nth_error l' i) -> l = l'.
Proof.
  induction l as [|x l IH]; intros [|y l'] H; [reflexivity|specialize (H O); discriminate|specialize (H O); discriminate|].
  pose proof (H O) as H0. cbn in H0. injection H0 as ->. f_equal. apply IH. intro i. apply (H (S i)).
Qed.

(** ** sums *)
Lemma wsum_ge g : forall l n k t, nth_error l k = Some t -> (g (n + k)%nat t <= wsum g n l)%nat.
Proof.
  induction l as [|u l IH]; intros n [|k] t H; cbn [nth_error wsum] in *; try discriminate.
  - injection H as ->. rewrite Nat.add_0_r. lia.
  - specialize (IH (S n) k t H). rewrite Nat.add_succ_comm in IH. lia.
Qed.
Lemma wsum_pos g : forall l n, (0 < wsum g n l)%nat -> exists k t, nth_error l k = Some t /\ (0 < g (n + k)%nat t)%nat.
Proof.
  induction l as [|u l IH]; intros n H; cbn [wsum] in H; [lia|]. destruct (Nat.eq_dec (g n u) 0) as [E|E].
  - destruct (IH (S n)) as (k & t & H1 & H2); [lia|]. exists (S k), t. split; [exact H1|]. rewrite <- Nat.add_succ_comm. exact H2.
  - exists O, u. split; [reflexivity|]. rewrite Nat.add_0_r. lia.
Qed.

Section Run.
Variable a : atm.
Hypothesis W : atm_wf a.
Notation exprs := (tok_exprs a).

(** a content is looked at iff some path has arrived where it reports it *)
Lemma vis_iff s ph key l : Inv true a s ph ->
  (m_matches (sc_mask (s_scope s)) EContent = true <-> exists t, (0 < tot true true a s ph ((EContent, key) :: l) t 0)%nat).
Proof.
  intro I. destruct (iv_cov _ _ _ _ I) as [C1 _ _ C4 _]. pose proof (iv_ok _ _ _ _ I) as Ok. rewrite Forall_forall in Ok. pose proof (iv_stk _ _ _ _ I) as Sk.
  split.
  - intro Hm. destruct (C4 EContent Hm) as [He|(k & tk & Hk & _ & Hn & Hs)]; [discriminate|].
    destruct (Ok tk (nth_error_In _ _ Hk)) as (st & H1 & H2 & H3 & H4 & H5 & H6).
    assert (Hc : content a tk = true) by exact Hs.
    unfold smask in Hs. rewrite H1 in Hs.
    destruct (proj1 (W _ _ H1)) as [C _ _|o f j C _ _|r f t b ee C Ht _ _|od C Hx0]; rewrite C in Hs; cbn [c_mask core_new] in Hs.
    { rewrite m_zero_matches in Hs. discriminate. } { rewrite op_matches in Hs. destruct o; discriminate. } 2:{ rewrite op_matches in Hs. destruct od; discriminate. }
    rewrite rep_matches in Hs. assert (r = RContent) by (destruct r; try discriminate; reflexivity). subst r.
    assert (Ty : c_type (st_core st) <> 0%Z) by (rewrite C; exact Ht).
    exists t. unfold tot. eapply Nat.lt_le_trans; [|apply (wsum_ge _ _ O k tk Hk)]. cbn [Nat.add]. unfold contr.
    assert (G : gone true a tk = false) by (unfold gone; rewrite Hc; apply andb_false_r). rewrite G, (tok_expr_out a _ _ H1 Ty). cbn [map]. rewrite list_sum_cons.
    assert (Hr : rep_of (c_mask (st_core st)) = RContent) by (rewrite C; reflexivity).
    unfold cx. replace (x_type (out_of st (t_core tk)) =? t)%Z with true by (unfold out_of; cbn [x_type]; rewrite C; cbn [c_type]; lia).
    assert (Tx : transient (out_of st (t_core tk)) = false) by (unfold transient, out_of; cbn [x_edges x_rep]; rewrite Hr; reflexivity).
    rewrite Tx. cbn [andb hitsk]. unfold now. rewrite lift_edges, lift_report. cbn [out_of x_edges].
    assert (Hl : x_range (lift true (out_of st (t_core tk))) = None) by (unfold lift, unrange, out_of; cbn [x_rep]; rewrite Hr; reflexivity).
    fold (out_of st (t_core tk)). rewrite Hl. cbn [range_now]. rewrite andb_true_r. unfold report_at. unfold out_of at 1 2. cbn [x_follow x_rep fst]. rewrite Hr. cbn [kind_of reports].
    assert (Nr : near (dep (s_stk s) k) (c_follow (st_core st)) = true).
    { unfold near. destruct Hn as [Hn|Hn]; [rewrite (stack_dep _ _ _ Sk Hn); apply orb_true_r|]. unfold t_follow in Hn. rewrite <- H2, Hn. reflexivity. }
    rewrite Nr. cbn [andb]. lia.
  - intros (t & Hp). apply wsum_pos in Hp. destruct Hp as (k & tk & Hk & Hp). cbn [Nat.add] in Hp.
    assert (Tk : tok_ok a tk) by (apply Ok; eapply nth_error_In; eauto).
    destruct (m_matches (smask a tk) EContent) eqn:Ms.
    2:{ rewrite contr_now0 in Hp; [lia|]. apply quiet_mask; assumption. }
    apply (C1 k tk Hk); [apply nth_error_Some; congruence| |exact Ms].
    destruct (t_follow tk) eqn:Ef; [right; reflexivity|left]. destruct (Nat.leb_spec (eff_from s) k); [assumption|exfalso].
    rewrite contr_now0 in Hp; [lia|]. destruct (s_stk s) as [|sc r]; cbn [stack_ok] in Sk; [lia|]. destruct Sk as (Sk & _).
    rewrite dep_top by lia. apply quiet_far; assumption.
Qed.

(** one element *)
Lemma element_d s ph e key ph' n' : Inv true a s ph -> phase_after ph (kind_of e) = Some ph' -> level_after (length (s_stk s)) (kind_of e) = Some n' ->
  exists b N s3 out ph2, (forall f ff, (N <= f)%nat -> (N <= ff)%nat -> sel_element f ff a e (Some key) s = Ret s3 out) /\
    Inv true a s3 ph2 /\ length (s_stk s3) = n' /\ (ph2 = ph' \/ (ph' = PBody /\ ph2 <> PVal)) /\
    (e = EContent -> (b = true <-> forall l, exists t, (0 < tot true true a s ph ((e, key) :: l) t 0)%nat)) /\
    (e = EContent -> b = false -> forall l t, tot true true a s ph ((e, key) :: l) t 0 = O) /\
    forall l, ordered ph2 n' l = true ->
      (forall t, cnt t out = tot true false a s ph (blank1 b (e, key) :: l) t 0) /\
      (forall ub t i, tot true ub a s3 ph2 l t i = tot true ub a s ph (blank1 b (e, key) :: l) t (S i)).
Proof.
  intros I Hph Hlv.
  assert (V := fun l => vis_iff s ph key l I).
  (* an element that is looked at, or not a content *)
  assert (Main : forall e0 ph0, phase_after ph (kind_of e0) = Some ph0 -> level_after (length (s_stk s)) (kind_of e0) = Some n' ->
     (kind_of e0 = KContent -> m_matches (sc_mask (s_scope s)) e0 = true) ->
     exists N s3 out, (forall f ff, (N <= f)%nat -> (N <= ff)%nat -> sel_element f ff a e0 (Some key) s = Ret s3 out) /\
       Inv true a s3 ph0 /\ length (s_stk s3) = n' /\
       forall l, ordered ph0 n' l = true ->
         (forall t, cnt t out = tot true false a s ph ((e0, key) :: l) t 0) /\
         (forall ub t i, tot true ub a s3 ph0 l t i = tot true ub a s ph ((e0, key) :: l) t (S i))).
  { intros e0 ph0 Hp0 Hl0 Hv.
    destruct (element_spec true false a W s ph ph0 n' e0 key [] I Hp0 Hl0 eq_refl (fun _ => Hv)) as (N & s3 & out & E & I3 & L3 & _).
    exists N, s3, out. split; [exact E|]. split; [exact I3|]. split; [exact L3|]. intros l Hl.
    assert (Det : forall ub, (ub = false -> forall t, cnt t out = tot true ub a s ph ((e0, key) :: l) t 0) /\
       (forall t i, tot true ub a s3 ph0 l t i = tot true ub a s ph ((e0, key) :: l) t (S i))).
    { intro ub. destruct (element_spec true ub a W s ph ph0 n' e0 key l I Hp0 Hl0 Hl (fun _ => Hv)) as (N2 & s4 & out2 & E2 & _ & _ & H1 & H2).
      pose proof (E (Nat.max N N2) (Nat.max N N2) ltac:(lia) ltac:(lia)) as X1. rewrite (E2 (Nat.max N N2) (Nat.max N N2) ltac:(lia) ltac:(lia)) in X1.
      injection X1 as -> ->. split; assumption. }
    split; [apply (proj1 (Det false) eq_refl)|]. intro ub. apply (proj2 (Det ub)). }
  destruct (etype_idx e =? 13) eqn:Ei.
  2:{ assert (Hne : e <> EContent) by (intros ->; discriminate).
      destruct (Main e ph' Hph Hlv) as (N & s3 & out & E & I3 & L3 & H3); [intro Hk; destruct e; try discriminate; contradiction|].
      exists true, N, s3, out, ph'. split; [exact E|]. split; [exact I3|]. split; [exact L3|]. split; [left; reflexivity|].
      split; [contradiction|]. split; [contradiction|]. rewrite blank1_true. exact H3. }
  assert (e = EContent) by (destruct e; try discriminate; reflexivity). subst e.
  destruct (m_matches (sc_mask (s_scope s)) EContent) eqn:G.
  - destruct (Main EContent ph' Hph Hlv (fun _ => G)) as (N & s3 & out & E & I3 & L3 & H3).
    exists true, N, s3, out, ph'. split; [exact E|]. split; [exact I3|]. split; [exact L3|]. split; [left; reflexivity|].
    split; [intros _; split; [intros _ l; apply (V l); reflexivity|reflexivity]|]. split; [discriminate|]. rewrite blank1_true. exact H3.
  - assert (Hpn : ph <> PVal) by (intros ->; discriminate).
    assert (Hpb : ph' = PBody) by (destruct ph; cbn in Hph; congruence).
    destruct (Main ENone ph) as (N & s3 & out & E & I3 & L3 & H3).
    { destruct ph; try reflexivity. contradiction. } { exact Hlv. } { discriminate. }
    assert (Gn : m_matches (sc_mask (s_scope s)) ENone = false).
    { destruct (m_matches (sc_mask (s_scope s)) ENone) eqn:Gn; [exfalso|reflexivity]. destruct (cv_up _ _ _ _ _ _ (iv_cov _ _ _ _ I) ENone Gn) as [He|(k & tk & Hk & _ & _ & Hs)]; [discriminate|].
      unfold smask in Hs. destruct (nth_error a (t_state tk)) as [st|] eqn:H1; [|rewrite m_zero_matches in Hs; discriminate].
      destruct (proj1 (W _ _ H1)) as [C _ _|o f j C _ _|r f t b ee C Ht _ _|od C Hx0]; rewrite C in Hs; cbn [c_mask core_new] in Hs.
      { rewrite m_zero_matches in Hs. discriminate. } { rewrite op_matches in Hs. destruct o; discriminate. } { rewrite rep_matches in Hs. destruct r; discriminate. } { rewrite op_matches in Hs. destruct od; discriminate. } }
    assert (Run : forall e0, (e0 = EContent \/ e0 = ENone) -> forall f ff, (1 <= f)%nat -> sel_element f ff a e0 (Some key) s = Ret (sel_no_key (sel_init e0 (Some key) s)) []).
    { intros e0 He f ff Hf. destruct f as [|f]; [lia|]. unfold sel_element. cbn [fetch_all]. unfold sel_fetch.
      destruct He as [-> | ->]; cbn [sel_init s_scope sc_mask s_type]; rewrite ?G, ?Gn; reflexivity. }
    pose proof (E (S N) (S N) ltac:(lia) ltac:(lia)) as X. rewrite (Run ENone (or_intror eq_refl) (S N) (S N) ltac:(lia)) in X. injection X as Es <-.
    exists false, 1%nat, (sel_no_key (sel_init EContent (Some key) s)), [], ph.
    split; [intros f ff Hf _; apply (Run EContent (or_introl eq_refl) f ff Hf)|].
    split; [|split; [|split; [|split; [|split]]]].
    + rewrite <- Es in I3. destruct I3. constructor; assumption.
    + rewrite <- Es in L3. exact L3.
    + right. split; [exact Hpb|exact Hpn].
    + intros _. split; [discriminate|]. intro H. apply (V []) in H. congruence.
    + intros _ _ l t. destruct (Nat.eq_dec (tot true true a s ph ((EContent, key) :: l) t 0) 0) as [Z|Z]; [exact Z|exfalso].
      assert (H : false = true) by (apply (V l); exists t; lia). discriminate.
    + intros l Hl. destruct (H3 l Hl) as [A1 A2]. change (blank1 false (EContent, key)) with (ENone, key). split; [exact A1|].
      intros ub t i. etransitivity; [|apply (A2 ub t i)]. rewrite <- Es. reflexivity.
Qed.

Theorem run_d : forall evs s ph, Inv true a s ph -> ordered ph (length (s_stk s)) evs = true ->
  exists N s' rs v, (forall f ff, (N <= f)%nat -> (N <= ff)%nat -> sel_run f ff a evs s = Ret s' rs) /\ length rs = length evs /\ length v = length evs /\
    (forall t i, (i < length evs)%nat -> cnt t (nth i rs []) = tot true false a s ph (blank v evs) t i) /\
    (forall i key, nth_error evs i = Some (EContent, key) ->
       (nth i v true = true <-> exists t, (0 < tot true true a s ph (blank (firstn i v) evs) t i)%nat)).
Proof.
  induction evs as [|[e key] l IH]; intros s ph I Ho.
  - exists O, s, [], []. split; [reflexivity|]. split; [reflexivity|]. split; [reflexivity|]. split; [intros t i H; cbn [length] in H; lia|intros [|i] k H; discriminate].
  - cbn [ordered fst] in Ho. destruct (phase_after ph (kind_of e)) as [ph'|] eqn:Hph; [|discriminate].
    destruct (level_after (length (s_stk s)) (kind_of e)) as [n'|] eqn:Hlv; [|discriminate].
    destruct (element_d s ph e key ph' n' I Hph Hlv) as (b & N1 & s3 & o & ph2 & E1 & I3 & L3 & Hp & Hb & Hb0 & HS).
    assert (Ho2 : ordered ph2 n' l = true) by (destruct Hp as [-> |[-> Hp]]; [exact Ho|apply ordered_weaken; assumption]).
    rewrite <- L3 in Ho2. destruct (IH s3 ph2 I3 Ho2) as (N2 & s4 & rs & v & E2 & L2 & Lv & H2 & HV). rewrite L3 in Ho2.
    exists (Nat.max N1 N2), s4, (o :: rs), (b :: v). split; [|split; [cbn [length]; congruence|split; [cbn [length]; congruence|split]]].
    + intros f ff Hf Hff. cbn [sel_run]. rewrite (E1 f ff) by lia. cbn [bind]. rewrite (E2 f ff) by lia. reflexivity.
    + intros t i Hi. cbn [blank]. destruct (HS (blank v l) (blank_ordered l v ph2 n' Ho2)) as [A1 A2]. destruct i as [|i]; cbn [nth length] in *.
      * apply A1.
      * rewrite <- A2. apply H2. lia.
    + intros [|i] k Hk; cbn [nth_error nth firstn blank] in *.
      * injection Hk as -> ->. destruct b.
        -- split; [intros _|reflexivity]. apply (proj1 (Hb eq_refl) eq_refl l).
        -- split; [discriminate|]. intros (t & Ht). exfalso. apply Nat.neq_0_lt_0 in Ht. apply Ht. exact (Hb0 eq_refl eq_refl l t).
      * rewrite (HV i k Hk). destruct (HS (blank (firstn i v) l) (blank_ordered l _ ph2 n' Ho2)) as [_ A2].
        split; intros (t & Ht); exists t; [rewrite <- A2|rewrite A2]; exact Ht.
Qed.
End Run.

Lemma lift_hits_false t E evs i : lift_hits true false t E evs i = hits_d_of t E 0 evs i.
Proof. unfold lift_hits, hits_d_of. apply list_sum_ext. intros x _. rewrite <- hitsk_true. reflexivity. Qed.
Lemma looked_iff E evs i : looked E evs i = true <-> exists t, (0 < lift_hits true true t E evs i)%nat.
Proof.
  unfold looked. rewrite existsb_exists. unfold lift_hits. split.
  - intros (x & Hx & H). exists (x_type x). apply in_split in Hx. destruct Hx as (l1 & l2 & ->). rewrite map_app, list_sum_app. cbn [map]. rewrite list_sum_cons, Z.eqb_refl, hitsk_true.
    change (lift true x) with (unrange x). destruct (hits_d (unrange x) 0 evs i); [discriminate|lia].
  - intros (t & H). induction E as [|x E IH]; cbn [map] in H; [cbn in H; lia|]. rewrite list_sum_cons in H.
    destruct (Nat.eq_dec (if (x_type x =? t)%Z then hitsk true (lift true x) 0 evs i else O) 0) as [Z|Z].
    + destruct IH as (y & Hy & H'); [lia|]. exists y. split; [right; exact Hy|exact H'].
    + exists x. split; [left; reflexivity|]. rewrite hitsk_true in Z. change (lift true x) with (unrange x) in Z. destruct (_ =? _)%Z; [|lia].
      destruct (hits_d (unrange x) 0 evs i); [lia|reflexivity].
Qed.

Theorem select_spec_d a evs : atm_wf a -> (0 < length a)%nat -> (forall x, In x (lang a 0) -> wf_expr_d x = true) -> ordered PStart 0 evs = true ->
  exists N s rs, (forall f ff, (N <= f)%nat -> (N <= ff)%nat -> select f ff a evs = Ret s rs) /\ length rs = length evs /\
    forall t i, (i < length evs)%nat -> cnt t (nth i rs []) = hits_d_of t (lang a 0) 0 (visible (lang a 0) evs) i.
Proof.
  intros W Ha Hw Ho.
  assert (Hw' : forall x, In x (lang a 0) -> wf_exprk true x = true) by (intros x Hx; rewrite wf_exprk_true; apply Hw; exact Hx).
  destruct (new_inv true false a W Ha Hw') as (s & E & I & Hs & Ht). destruct (new_inv true true a W Ha Hw') as (s' & E' & I' & _ & Ht').
  rewrite E in E'. injection E' as <-.
  destruct (run_d a W evs s PStart I) as (N & s2 & rs & v & ER & L & Lv & H & HV); [rewrite Hs; exact Ho|].
  set (E0 := lang a 0) in *.
  assert (B : forall n, (n <= length evs)%nat -> blank (firstn n v) evs = blank (looks E0 evs n) evs).
  { induction n as [|n IH]; intro Hn; [reflexivity|]. specialize (IH ltac:(lia)). apply nth_error_ext'. intro i. rewrite !blank_nth.
    assert (IHi := f_equal (fun q => nth_error q i) IH). cbn beta in IHi. rewrite !blank_nth in IHi.
    destruct (nth_error evs i) as [ev|] eqn:Hi; [|reflexivity]. cbn [option_map] in *.
    pose proof (looks_length E0 evs n) as Ll.
    assert (Fs : firstn (S n) v = firstn n v ++ [nth n v true]).
    { assert (G : forall (q : list bool) m, (m < length q)%nat -> firstn (S m) q = firstn m q ++ [nth m q true]).
      { induction q as [|x q IHq]; intros [|m] Hm; cbn [length] in Hm; try lia; [reflexivity|]. cbn [firstn nth app]. f_equal. apply IHq. lia. }
      apply G. lia. }
    rewrite Fs. cbn [looks]. assert (Lf : length (firstn n v) = n) by (rewrite firstn_length; lia).
    destruct (Nat.lt_trichotomy i n) as [Hlt|[->|Hgt]].
    - rewrite !app_nth1 by lia. exact IHi.
    - rewrite !app_nth2 by lia. rewrite Ll, Lf, Nat.sub_diag. cbn [nth]. f_equal. destruct ev as [e key]. unfold blank1. cbn [fst].
      destruct e; try reflexivity.
      assert (Eb : nth n v true = looked E0 (blank (looks E0 evs n) evs) n); [|rewrite Eb; reflexivity].
      apply eq_true_iff_eq. rewrite (HV n key Hi), looked_iff, IH. split; intros (t & Hp); exists t; [rewrite Ht' in Hp|rewrite Ht']; exact Hp.
    - rewrite !(nth_overflow (_ ++ _)) by (rewrite app_length; cbn [length]; lia). reflexivity. }
  exists N, s2, rs. split; [|split; [exact L|]].
  - intros f ff Hf Hff. unfold select. rewrite E. cbn [bind]. apply ER; assumption.
  - intros t i Hi. rewrite H, Ht, lift_hits_false by exact Hi. f_equal. unfold visible. rewrite <- B by lia. rewrite <- Lv, firstn_all. reflexivity.
Qed.
