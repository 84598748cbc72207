(** The processing of one element, and of all elements of a document. *)
From Coq Require Import Lia ZifyBool ZifyNat.
From Verif Require Import Base XmlScanner PathAtm PathSelect PathSpec PathDesc PathTrie PathKill PathRun1 PathRun2 PathRun3 PathRun4 PathRun5 PathRun6 PathRun7.

(** ** more fuel does not matter *)
Lemma bind_Ret {S A B} (m : out S A) (k : S -> A -> out S B) s x : bind m k = Ret s x -> exists s1 x1, m = Ret s1 x1 /\ k s1 x1 = Ret s x.
Proof. destruct m; cbn [bind]; intro H; try discriminate. eauto. Qed.

Section Mono.
Variable a : atm.
Lemma fetch_loop_mono : forall f s s' t, fetch_loop f a s = Ret s' t -> forall f', (f <= f')%nat -> fetch_loop f' a s = Ret s' t.
Proof.
  induction f as [|f IH]; intros s s' t H f' Hf; [discriminate|]. destruct f' as [|f']; [lia|]. assert (Hf' : (f <= f')%nat) by lia.
  cbn [fetch_loop] in *.
  assert (Ag : forall s1 t1, (if (t1 =? 0)%Z then fetch_loop f a s1 else Ret s1 t1) = Ret s' t -> (if (t1 =? 0)%Z then fetch_loop f' a s1 else Ret s1 t1) = Ret s' t).
  { intros s1 t1 E. destruct (t1 =? 0)%Z; [apply (IH _ _ _ E); exact Hf'|exact E]. }
  destruct (Nat.ltb _ _).
  - apply bind_Ret in H. destruct H as (s1 & t1 & E1 & E2). rewrite E1. cbn [bind]. apply Ag. exact E2.
  - assert (Tr : match s_trig s with t1 :: l => if (t1 =? 0)%Z then fetch_loop f a (sel_set_trig l s) else Ret (sel_set_trig l s) t1 | [] => Ret (sel_no_key s) 0%Z end = Ret s' t ->
       match s_trig s with t1 :: l => if (t1 =? 0)%Z then fetch_loop f' a (sel_set_trig l s) else Ret (sel_set_trig l s) t1 | [] => Ret (sel_no_key s) 0%Z end = Ret s' t).
    { destruct (s_trig s); [auto|]. apply Ag. }
    destruct (Nat.ltb _ _); [|apply Tr; exact H]. destruct (nth_error _ _) as [j|]; [|discriminate].
    destruct (Nat.ltb _ _); [|apply Tr; exact H]. apply bind_Ret in H. destruct H as (s1 & t1 & E1 & E2). rewrite E1. cbn [bind]. apply Ag. exact E2.
Qed.
Lemma sel_fetch_mono ff s s' t : sel_fetch ff a s = Ret s' t -> forall ff', (ff <= ff')%nat -> sel_fetch ff' a s = Ret s' t.
Proof. unfold sel_fetch. destruct (m_matches _ _); [|auto]. intros H ff' Hf. eapply fetch_loop_mono; eauto. Qed.
Lemma fetch_all_mono : forall f ff s s' t, fetch_all f ff a s = Ret s' t -> forall f' ff', (f <= f')%nat -> (ff <= ff')%nat -> fetch_all f' ff' a s = Ret s' t.
Proof.
  induction f as [|f IH]; intros ff s s' t H f' ff' Hf Hff; [discriminate|]. destruct f' as [|f']; [lia|]. cbn [fetch_all] in *.
  apply bind_Ret in H. destruct H as (s1 & t1 & E1 & E2). rewrite (sel_fetch_mono _ _ _ _ E1 ff' Hff). cbn [bind].
  destruct (t1 =? 0)%Z; [exact E2|]. apply bind_Ret in E2. destruct E2 as (s2 & l2 & E2 & E3). rewrite (IH _ _ _ _ E2 f' ff' ltac:(lia) Hff). cbn [bind]. exact E3.
Qed.
End Mono.

(** ** the state between two elements *)
Definition eff_from (s : sel) : nat := match s_type s with EOpenTag => sc_to (s_scope s) | _ => sc_from (s_scope s) end.
Fixpoint stack_ok (stk : list scope) (F : nat) : Prop :=
  match stk with
  | [] => F = O
  | sc :: r => F = sc_to sc /\ (sc_from sc <= sc_to sc)%nat /\ stack_ok r (sc_from sc)
  end.
Lemma stack_dep : forall stk F k, stack_ok stk F -> (F <= k)%nat -> dep stk k = O.
Proof.
  unfold dep. induction stk as [|sc r IH]; intros F k H Hk; cbn [filter length]; [reflexivity|]. destruct H as (-> & H1 & H2).
  replace (Nat.ltb k (sc_to sc)) with false by lia. apply (IH (sc_from sc)); [exact H2|lia].
Qed.
Lemma dep_top sc r k : (k < sc_to sc)%nat -> dep (sc :: r) k = S (dep r k).
Proof. intro H. unfold dep. cbn [filter]. replace (Nat.ltb k (sc_to sc)) with true by lia. reflexivity. Qed.
Lemma dep_new sc r k : (sc_to sc <= k)%nat -> dep (sc :: r) k = dep r k.
Proof. intro H. unfold dep. cbn [filter]. replace (Nat.ltb k (sc_to sc)) with false by lia. reflexivity. Qed.

Section Run.
Variables kb ub : bool.
Variable a : atm.
Hypothesis W : atm_wf a.
Notation exprs := (tok_exprs a).
Notation wfx := (wfx kb).

(** the masks of a scope cover its tokens *)
Record covers (toks : list tok) (from to : nat) (m fm : mask) : Prop := {
  cv_mask : forall k tk, nth_error toks k = Some tk -> (k < to)%nat -> (from <= k)%nat \/ t_follow tk = true -> m_sub (smask a tk) m;
  cv_fmask : forall k tk, nth_error toks k = Some tk -> (k < to)%nat -> t_follow tk = true -> m_sub (smask a tk) fm;
  cv_this : forall k tk x, nth_error toks k = Some tk -> (from <= k < to)%nat -> In x (exprs tk) -> transient x = true -> m_sub (m_op OpAttribute) m;
  cv_up : forall ev, m_matches m ev = true -> ev = EOpenTag \/
          exists k tk, nth_error toks k = Some tk /\ (k < to)%nat /\ ((from <= k)%nat \/ t_follow tk = true) /\ m_matches (smask a tk) ev = true;
  cv_fup : forall ev, m_matches fm ev = true -> exists k tk, nth_error toks k = Some tk /\ (k < to)%nat /\ t_follow tk = true /\ m_matches (smask a tk) ev = true }.
Definition scope_ok (toks : list tok) (sc : scope) : Prop :=
  (sc_to sc <= length toks)%nat /\ sc_fidx sc = length (fidx 0 (firstn (sc_to sc) toks)) /\
  covers toks (sc_from sc) (sc_to sc) (sc_mask sc) (sc_fmask sc).

Record Inv (s : sel) (ph : phase) : Prop := {
  iv_trig : s_trig s = [];
  iv_stk : stack_ok (s_stk s) (eff_from s);
  iv_F : (eff_from s <= length (s_toks s))%nat;
  iv_fol : s_follows s = fidx 0 (s_toks s);
  iv_ok : Forall (tok_ok a) (s_toks s);
  iv_wf : forall tk x, In tk (s_toks s) -> In x (exprs tk) -> wfx x;
  iv_cov : covers (s_toks s) (eff_from s) (length (s_toks s)) (sc_mask (s_scope s)) (sc_fmask (s_scope s));
  iv_scopes : Forall (scope_ok (s_toks s)) (s_stk s);
  iv_stale : ph = PVal -> forall k tk x, (eff_from s <= k < sc_to (s_scope s))%nat -> nth_error (s_toks s) k = Some tk ->
             In x (exprs tk) -> transient x = true -> dead tk = true }.

Definition tot (s : sel) (ph : phase) (evs : list event) (t : Z) (i : nat) : nat :=
  wsum (fun k tk => contr kb ub a t (frB (sc_to (s_scope s)) ph k) (Some (dep (s_stk s) k)) evs i tk) 0 (s_toks s).

(** tokens with the same state *)
Lemma same_state_trans tk tk' x : t_state tk = t_state tk' -> In x (exprs tk) -> exists y, In y (exprs tk') /\ transient y = transient x.
Proof.
  intros E Hx. unfold tok_exprs in *. rewrite <- E. destruct (nth_error a (t_state tk)) as [st|]; [|destruct Hx].
  unfold alts in *. destruct (_ =? _)%Z.
  - exists x. auto.
  - destruct Hx as [<-|[]]. eexists. split; [left; reflexivity|reflexivity].
Qed.
Lemma same_state_smask tk tk' : t_state tk = t_state tk' -> smask a tk = smask a tk'.
Proof. intro E. unfold smask. rewrite E. reflexivity. Qed.
Lemma same_state_follow tk tk' : tok_ok a tk -> tok_ok a tk' -> t_state tk = t_state tk' -> t_follow tk = t_follow tk'.
Proof. intros (st & S1 & S2 & _) (st' & S1' & S2' & _) E. unfold t_follow. rewrite S2, S2'. congruence. Qed.

Lemma covers_same toks toks' from to m fm : (forall k tk', (k < to)%nat -> nth_error toks' k = Some tk' -> exists tk, nth_error toks k = Some tk /\ t_state tk = t_state tk' /\ t_follow tk = t_follow tk') ->
  (forall k tk, (k < to)%nat -> nth_error toks k = Some tk -> exists tk', nth_error toks' k = Some tk' /\ t_state tk = t_state tk' /\ t_follow tk = t_follow tk') ->
  covers toks from to m fm -> covers toks' from to m fm.
Proof.
  intros H Hr [C1 C2 C3 C4 C5]. constructor.
  - intros k tk' Hk Hto Hf. destruct (H k tk' Hto Hk) as (tk & H1 & H2 & H3). rewrite <- (same_state_smask _ _ H2). apply (C1 k tk H1 Hto). rewrite H3. exact Hf.
  - intros k tk' Hk Hto Hf. destruct (H k tk' Hto Hk) as (tk & H1 & H2 & H3). rewrite <- (same_state_smask _ _ H2). apply (C2 k tk H1 Hto). rewrite H3. exact Hf.
  - intros k tk' x Hk Hto Hx Tx. destruct (H k tk' (proj2 Hto) Hk) as (tk & H1 & H2 & H3). destruct (same_state_trans tk' tk x (eq_sym H2) Hx) as (y & Hy & Ty).
    apply (C3 k tk y H1 Hto Hy). congruence.
  - intros ev Hm. destruct (C4 ev Hm) as [He|(k & tk & H1 & H2 & H3 & H4)]; [left; exact He|right]. destruct (Hr k tk H2 H1) as (tk' & R1 & R2 & R3).
    exists k, tk'. rewrite <- (same_state_smask _ _ R2), <- R3. auto.
  - intros ev Hm. destruct (C5 ev Hm) as (k & tk & H1 & H2 & H3 & H4). destruct (Hr k tk H2 H1) as (tk' & R1 & R2 & R3).
    exists k, tk'. rewrite <- (same_state_smask _ _ R2), <- R3. auto.
Qed.
Lemma kept_nofollow tk ev : tok_ok a tk -> t_follow tk = false -> forall x, In x (exprs tk) -> kept kb x ev.
Proof.
  intros (st & H1 & H2 & H3 & H4 & H5) F x Hx. unfold t_follow in F. rewrite F in H2. symmetry in H2. unfold kept. apply andb_false_intro2.
  destruct (Z.eq_dec (c_type (st_core st)) 0) as [T|T].
  - rewrite (tok_expr_edge a _ _ H1 T) in Hx. destruct (st_next st); [|destruct Hx].
    apply in_map_iff in Hx. destruct Hx as (y & <- & Hy). unfold refused, add_edge, rest_of. cbn [x_edges]. unfold edge_of. cbn [e_op e_follow]. rewrite H2.
    destruct (kind_of (fst ev)); try reflexivity. destruct (sop_of _); reflexivity.
  - rewrite (tok_expr_out a _ _ H1 T) in Hx. destruct Hx as [<-|[]]. apply refused_out. reflexivity.
Qed.
Lemma kept_kind x ev : kind_of (fst ev) <> KContent -> kept kb x ev.
Proof. intro H. unfold kept, refused. apply andb_false_intro2. destruct (kind_of (fst ev)); try reflexivity. contradiction. Qed.

Section Element.
Variables (s : sel) (ph ph' : phase) (n' : nat) (e : etype) (key : list N) (l : list event).
Hypothesis I : Inv s ph.
Hypothesis Hph : phase_after ph (kind_of e) = Some ph'.
Hypothesis Hlv : level_after (length (s_stk s)) (kind_of e) = Some n'.
Hypothesis Hord : ordered ph' n' l = true.
Let vis : Prop := kb = true -> kind_of e = KContent -> m_matches (sc_mask (s_scope s)) e = true.
Let s1 := sel_init e (Some key) s.
Let F := eff_from s.
Let toks0 := s_toks s.
Let stk1 := s_stk s1.
Let prev_to := sc_to (s_scope s).
Notation Mid := (Mid kb ub a toks0 (s_stk s) stk1 F (length (s_follows s)) prev_to e key l ph ph').
Notation rem := (rem_of toks0 F F).

Lemma el_dep k : (F <= k)%nat -> dep (s_stk s) k = O.
Proof. apply stack_dep. apply (iv_stk _ _ I). Qed.
Lemma el_far k : (k < F)%nat -> exists d, dep (s_stk s) k = S d.
Proof.
  pose proof (iv_stk _ _ I) as H. fold F in H. destruct (s_stk s) as [|sc r]; cbn [stack_ok] in H; [lia|]. destruct H as (-> & _ & _).
  intro Hk. rewrite dep_top by exact Hk. eauto.
Qed.
Lemma el_rem k tk : nth_error toks0 k = Some tk -> mem k rem = false -> (k < F)%nat /\ t_follow tk = false.
Proof.
  intros Hk Hm. apply mem_not in Hm. assert (Hl : (k < T0 toks0)%nat) by (apply nth_error_Some; congruence).
  assert (Hin : In k rem <-> (F <= k)%nat \/ In k (fc toks0 F)).
  { unfold rem_of. destruct (Nat.ltb_spec F (T0 toks0)).
    - rewrite in_app_iff, in_seq. assert (k < F + (T0 toks0 - F))%nat by lia. tauto.
    - pose proof (iv_F _ _ I) as HF. fold F toks0 in HF. unfold T0 in *. replace (F - length toks0)%nat with O by lia. cbn [skipn].
      split; [tauto|]. intros [Hc|Hc]; [lia|exact Hc]. }
  rewrite Hin in Hm. assert (HkF : (k < F)%nat) by (destruct (Nat.ltb_spec k F); [assumption|exfalso; apply Hm; left; assumption]).
  split; [exact HkF|]. destruct (t_follow tk) eqn:E; [|reflexivity]. exfalso. apply Hm. right. unfold fc. apply fidx_In. exists tk.
  split; [lia|]. split; [|exact E]. rewrite Nat.sub_0_r. rewrite <- (firstn_skipn F toks0) in Hk. rewrite nth_error_app1 in Hk; [exact Hk|].
  rewrite firstn_length. unfold T0 in Hl. lia.
Qed.
Lemma el_ok k tk : nth_error toks0 k = Some tk -> tok_ok a tk.
Proof. intro H. pose proof (iv_ok _ _ I) as Ok. rewrite Forall_forall in Ok. apply Ok. eapply nth_error_In; eauto. Qed.
Lemma el_lt k tk : nth_error toks0 k = Some tk -> (k < T0 toks0)%nat.
Proof. intro H. apply nth_error_Some. congruence. Qed.

Lemma el_quiet t k tk : nth_error toks0 k = Some tk -> (forall x, In x (exprs tk) -> quiet x (dep (s_stk s) k) (e, key)) -> (forall x, In x (exprs tk) -> kept kb x (e, key)) ->
  cb kb ub a (s_stk s) prev_to e key l ph t 0 k tk = O /\
  forall i, ga kb ub a toks0 (s_stk s) e key l ph' t i k tk = cb kb ub a (s_stk s) prev_to e key l ph t (S i) k tk.
Proof.
  intros Hk Q Kp. destruct (contr_quiet kb ub a t (frB prev_to ph k) (dep (s_stk s) k) (e, key) l tk Q Kp) as [Q1 Q2]. split; [exact Q1|].
  intro i. rewrite (ga_old kb ub a toks0 (s_stk s) F prev_to e key l ph ph' n' Hph Hord el_dep (iv_stale _ _ I)) by (eapply el_lt; eauto). symmetry. apply Q2.
Qed.
Lemma el_other t k tk : nth_error toks0 k = Some tk -> mem k rem = false ->
  cb kb ub a (s_stk s) prev_to e key l ph t 0 k tk = O /\
  forall i, ga kb ub a toks0 (s_stk s) e key l ph' t i k tk = cb kb ub a (s_stk s) prev_to e key l ph t (S i) k tk.
Proof.
  intros Hk Hm. destruct (el_rem k tk Hk Hm) as [H1 H2]. apply el_quiet; [exact Hk| |apply (kept_nofollow tk (e, key) (el_ok k tk Hk) H2)]. destruct (el_far k H1) as [d ->].
  apply quiet_far; [eapply el_ok; eauto|exact H2].
Qed.

Lemma init_scope : sc_from (s_scope s1) = F /\ sc_to (s_scope s1) = T0 toks0 /\ sc_fidx (s_scope s1) = length (s_follows s).
Proof. unfold s1, sel_init. destruct e; cbn [s_scope sc_from sc_to sc_fidx]; splits; reflexivity. Qed.
Lemma init_other : s_toks s1 = toks0 /\ s_follows s1 = s_follows s /\ s_trig s1 = s_trig s /\ s_type s1 = e /\ s_key s1 = Some key /\ s_iter s1 = F /\ sc_fmask (s_scope s1) = sc_fmask (s_scope s).
Proof. unfold s1, sel_init. destruct e; cbn [s_toks s_follows s_trig s_type s_key s_iter s_scope sc_fmask]; splits; reflexivity. Qed.
Lemma init_mask : sc_mask (s_scope s1) = match kind_of e with KOpen => m_match EOpenTag (sc_fmask (s_scope s)) | _ => sc_mask (s_scope s) end.
Proof. unfold s1, sel_init. destruct e; reflexivity. Qed.

Lemma Mid_init rem0 : (forall k, In k rem0 -> In k rem) ->
  (kind_of e = KName -> forall k tk x, (F <= k < T0 toks0)%nat -> ~ In k rem0 -> nth_error toks0 k = Some tk -> In x (exprs tk) -> transient x = true -> dead tk = true) ->
  (forall k tk, nth_error toks0 k = Some tk -> mem k rem0 = false -> forall t,
     cb kb ub a (s_stk s) prev_to e key l ph t 0 k tk = O /\
     forall i, ga kb ub a toks0 (s_stk s) e key l ph' t i k tk = cb kb ub a (s_stk s) prev_to e key l ph t (S i) k tk) ->
  Mid s1 rem0 [].
Proof.
  intros Hsub Hst Hq. destruct init_other as (O1 & O2 & O3 & O4 & O5 & O6 & O7). destruct (iv_cov _ _ I) as [C1 C2 C3 C4 C5]. fold toks0 F in C1, C2, C3, C4, C5.
  constructor; rewrite ?O1, ?O2, ?O3, ?O7.
  - reflexivity.
  - exact O4.
  - exact init_scope.
  - apply (iv_fol _ _ I).
  - apply (iv_ok _ _ I).
  - apply (iv_wf _ _ I).
  - apply firstn_all2. rewrite map_length. apply Nat.le_refl.
  - reflexivity.
  - intros k tk Hk Hb. pose proof (el_lt k tk Hk) as Hl. unfold T0 in Hl. rewrite init_mask. unfold base in Hb.
    destruct (kind_of e) eqn:Ek; try (apply (C1 k tk Hk Hl Hb)).
    destruct Hb as [Hb|Hb]; [unfold T0 in Hb; lia|]. exact (m_sub_trans _ _ _ (C2 k tk Hk Hl Hb) (m_match_sub _ _)).
  - intros tk Hin Hf. apply In_nth_error in Hin. destruct Hin as [k Hk]. apply (C2 k tk Hk (el_lt k tk Hk) Hf).
  - intros ev Hm. rewrite init_mask in Hm. unfold base.
    assert (C4' : m_matches (sc_mask (s_scope s)) ev = true -> ev = EOpenTag \/ exists k tk, nth_error toks0 k = Some tk /\ (F <= k \/ T0 toks0 <= k \/ t_follow tk = true)%nat /\ m_matches (smask a tk) ev = true).
    { intro Hm'. destruct (C4 ev Hm') as [He|(k & tk & H1 & H2 & H3 & H4)]; [left; exact He|right]. exists k, tk. split; [exact H1|]. split; [|exact H4]. tauto. }
    destruct (kind_of e) eqn:Ek; try (apply C4'; exact Hm).
    apply m_match_inv in Hm. destruct Hm as [Hm|He]; [right|left; exact He].
    destruct (C5 ev Hm) as (k & tk & H1 & H2 & H3 & H4). exists k, tk. split; [exact H1|]. split; [tauto|exact H4].
  - intros ev Hm. destruct (C5 ev Hm) as (k & tk & H1 & H2 & H3 & H4). exists tk. split; [eapply nth_error_In; eauto|]. split; assumption.
  - intros k tk x Hk Hb Hx Tx. pose proof (el_lt k tk Hk) as Hl. rewrite init_mask. unfold base in Hb.
    destruct (kind_of e) eqn:Ek; try (apply (C3 k tk x Hk (conj Hb Hl) Hx Tx)). exfalso. lia.
  - rewrite (iv_trig _ _ I). constructor.
  - intros Kn k tk x Hb Hni Hk. apply (Hst Kn k tk x Hb Hni Hk).
  - intros _ t. rewrite (iv_trig _ _ I), !cnt_nil. cbn [Nat.add]. apply wsum_ext. intros k tk Hk. cbn [Nat.add].
    destruct (mem k rem0) eqn:Em; [reflexivity|]. symmetry. apply (Hq k tk Hk Em t).
  - intros t i. apply wsum_ext. intros k tk Hk. cbn [Nat.add]. destruct (mem k rem0) eqn:Em; [reflexivity|]. apply (Hq k tk Hk Em t).
Qed.

Lemma element_mid : vis -> exists N s2 out, (forall f ff, (N <= f)%nat -> (N <= ff)%nat -> fetch_all f ff a s1 = Ret s2 out) /\ Mid s2 [] out /\ s_trig s2 = [].
Proof.
  intro Hvis. unfold vis in Hvis. destruct init_other as (O1 & O2 & O3 & O4 & O5 & O6 & O7).
  destruct (m_matches (sc_mask (s_scope s1)) e) eqn:G.
  - assert (M : Mid s1 (rem_of toks0 F (s_iter s1)) []).
    { rewrite O6. apply Mid_init.
      - auto.
      - intros _ k tk x Hb Hni Hk _ _. exfalso. apply Hni. unfold rem_of.
        replace (Nat.ltb F (T0 toks0)) with true by lia. apply in_or_app. left. apply in_seq. lia.
      - intros k tk Hk Hm t. apply el_other; assumption. }
    assert (Hfx : length (s_follows s) = length (fidx 0 toks0)) by (rewrite (iv_fol _ _ I); reflexivity).
    destruct (fetch_all_spec kb ub a W toks0 (s_stk s) stk1 F (length (s_follows s)) prev_to e key l ph ph' n' Hph Hord el_dep (iv_stale _ _ I)
                (iv_ok _ _ I) (iv_F _ _ I) Hfx (S (meas a toks0 F s1)) (S (meas a toks0 F s1)) s1 []) as (s2 & out & E & M2 & T2);
      try (apply Nat.lt_succ_diag_r); auto; [rewrite O6; apply Nat.le_refl|].
    exists (S (meas a toks0 F s1)), s2, out. split; [|split; assumption]. intros f ff Hf Hff. eapply fetch_all_mono; eauto.
  - assert (Ko : kind_of e <> KOpen).
    { intro Ko. rewrite init_mask, Ko in G. destruct e; try discriminate Ko. rewrite m_match_self in G. discriminate. }
    assert (Hmask : sc_mask (s_scope s1) = sc_mask (s_scope s)) by (rewrite init_mask; destruct (kind_of e); try reflexivity; contradiction).
    destruct (iv_cov _ _ I) as [C1 C2 C3 C4 C5]. fold toks0 F in C1, C2, C3, C4, C5.
    exists 1%nat, (sel_no_key s1), []. split; [|split].
    + intros f ff Hf _. destruct f as [|f]; [lia|]. cbn [fetch_all]. unfold sel_fetch. rewrite O4, G. reflexivity.
    + apply Mid_nokey, Mid_init.
      * intros k [].
      * intros Kn k tk x Hb _ Hk Hx Tx. exfalso. specialize (C3 k tk x Hk (conj (proj1 Hb) (el_lt k tk Hk)) Hx Tx e). rewrite <- Hmask, G in C3.
        discriminate C3. change OpAttribute with (op_of SAttr). rewrite op_matches, Kn. reflexivity.
      * intros k tk Hk _ t. destruct (mem k rem) eqn:Em; [|apply el_other; assumption].
        apply el_quiet; [exact Hk| |].
        2:{ intros x _. destruct kb eqn:Eb; [|reflexivity]. rewrite <- Eb. apply kept_kind. cbn [fst]. intro Hc. rewrite Hmask, (Hvis eq_refl Hc) in G. discriminate. }
        apply quiet_mask; [exact W|eapply el_ok; eauto|].
        destruct (m_matches (smask a tk) e) eqn:Ms; [|reflexivity]. exfalso.
        assert (Hcand : (F <= k)%nat \/ t_follow tk = true).
        { destruct (Nat.leb_spec F k); [left; assumption|right]. apply mem_In in Em. unfold rem_of in Em.
          assert (Hfc : In k (fc toks0 F)).
          { destruct (Nat.ltb_spec F (T0 toks0)); [|eapply skipn_In; eauto]. apply in_app_or in Em. destruct Em as [Em|Em]; [apply in_seq in Em; lia|exact Em]. }
          unfold fc in Hfc. apply fidx_In in Hfc. destruct Hfc as (t' & _ & Ht' & Hf'). rewrite Nat.sub_0_r in Ht'.
          assert (nth_error toks0 k = Some t'); [|congruence]. rewrite <- (firstn_skipn F toks0). rewrite nth_error_app1; [exact Ht'|]. apply nth_error_Some. congruence. }
        pose proof (C1 k tk Hk (el_lt k tk Hk) Hcand e) as Hs. rewrite <- Hmask, G in Hs. discriminate (Hs Ms).
    + cbn [sel_no_key s_trig]. rewrite O3. apply (iv_trig _ _ I).
Qed.

(** the tokens of the previous state are still there *)
Lemma mid_old s2 rem0 acc : Mid s2 rem0 acc -> forall k tk', (k < T0 toks0)%nat -> nth_error (s_toks s2) k = Some tk' ->
  exists tk, nth_error toks0 k = Some tk /\ t_state tk = t_state tk' /\ t_follow tk = t_follow tk'.
Proof.
  intros M k tk' Hk Hn. destruct (nth_error toks0 k) as [tk|] eqn:E; [|apply nth_error_None in E; unfold T0 in Hk; lia].
  assert (Es : t_state tk = t_state tk').
  { pose proof (md_state _ _ _ _ _ _ _ _ _ _ _ _ _ _ _ _ _ M) as Hs. apply (f_equal (fun q => nth_error q k)) in Hs.
    rewrite firstn_map, (map_nth_error t_state _ _ E) in Hs. rewrite (map_nth_error t_state k (firstn (T0 toks0) (s_toks s2)) (d := tk')) in Hs; [congruence|].
    rewrite <- Hn. symmetry. rewrite <- (firstn_skipn (T0 toks0) (s_toks s2)) at 1. apply nth_error_app1. rewrite firstn_length.
    pose proof (md_len _ _ _ _ _ _ _ _ _ _ _ _ _ _ _ _ _ M). lia. }
  exists tk. split; [reflexivity|]. split; [exact Es|]. apply same_state_follow; [eapply el_ok; eauto| |exact Es].
  pose proof (md_ok _ _ _ _ _ _ _ _ _ _ _ _ _ _ _ _ _ M) as Ok. rewrite Forall_forall in Ok. apply Ok. eapply nth_error_In; eauto.
Qed.
Lemma mid_old_rev s2 rem0 acc : Mid s2 rem0 acc -> forall k tk, nth_error toks0 k = Some tk ->
  exists tk', nth_error (s_toks s2) k = Some tk' /\ t_state tk = t_state tk' /\ t_follow tk = t_follow tk'.
Proof.
  intros M k tk Hk. pose proof (el_lt k tk Hk) as Hl. pose proof (md_len _ _ _ _ _ _ _ _ _ _ _ _ _ _ _ _ _ M) as Len.
  destruct (nth_error (s_toks s2) k) as [tk'|] eqn:E; [|apply nth_error_None in E; lia].
  destruct (mid_old s2 rem0 acc M k tk' Hl E) as (tk0 & H1 & H2 & H3). assert (tk0 = tk) by congruence. subst. exists tk'. auto.
Qed.
Lemma mid_fidx s2 rem0 acc m : Mid s2 rem0 acc -> (m <= T0 toks0)%nat -> fidx 0 (firstn m (s_toks s2)) = fidx 0 (firstn m toks0).
Proof.
  intros M Hm. apply fidx_ext. apply nth_ext with (d := false) (d' := false).
  - rewrite !map_length, !firstn_length. pose proof (md_len _ _ _ _ _ _ _ _ _ _ _ _ _ _ _ _ _ M). unfold T0 in *. lia.
  - intros k Hk. rewrite map_length, firstn_length in Hk. assert (Hk' : (k < m)%nat) by lia.
    destruct (nth_error (s_toks s2) k) as [tk'|] eqn:E'; [|apply nth_error_None in E'; lia].
    destruct (mid_old s2 rem0 acc M k tk' ltac:(lia) E') as (tk & E & _ & Ef).
    assert (G : forall (q : list tok) x, nth_error q k = Some x -> nth_error (firstn m q) k = Some x).
    { intros q x Hq. rewrite <- Hq. symmetry. rewrite <- (firstn_skipn m q) at 1. apply nth_error_app1. rewrite firstn_length.
      assert (k < length q)%nat by (apply nth_error_Some; congruence). lia. }
    rewrite !(nth_error_nth _ _ _ (map_nth_error t_follow _ _ (G _ _ E'))), !(nth_error_nth _ _ _ (map_nth_error t_follow _ _ (G _ _ E))). congruence.
Qed.
Lemma mid_scope s2 rem0 acc sc : Mid s2 rem0 acc -> scope_ok toks0 sc -> scope_ok (s_toks s2) sc.
Proof.
  intros M (S1 & S2 & S3). pose proof (md_len _ _ _ _ _ _ _ _ _ _ _ _ _ _ _ _ _ M) as Len. unfold T0 in Len. split; [lia|].
  split; [rewrite (mid_fidx s2 rem0 acc (sc_to sc) M S1); exact S2|]. apply (covers_same toks0); [| |exact S3].
  2:{ intros k tk Hk Hn. apply (mid_old_rev s2 rem0 acc M k tk Hn). }
  intros k tk' Hk Hn. apply (mid_old s2 rem0 acc M k tk'); [unfold T0; lia|exact Hn].
Qed.
Lemma wsum_mid s2 acc t : ub = false -> Mid s2 [] acc -> s_trig s2 = [] -> cnt t acc = tot s ph ((e, key) :: l) t 0.
Proof.
  intros U M T. pose proof (md_now _ _ _ _ _ _ _ _ _ _ _ _ _ _ _ _ _ M U t) as H. rewrite T, cnt_nil, (wsum_0 _ (s_toks s2) 0) in H.
  - rewrite !Nat.add_0_r in H. exact H.
  - reflexivity.
Qed.
Lemma wsum_lat s2 acc t i : Mid s2 [] acc -> wsum (ga kb ub a toks0 (s_stk s) e key l ph' t i) 0 (s_toks s2) = tot s ph ((e, key) :: l) t (S i).
Proof. intro M. exact (md_lat _ _ _ _ _ _ _ _ _ _ _ _ _ _ _ _ _ M t i). Qed.

(** what is left after the results have been fetched *)
Lemma close_spec s2 acc : Mid s2 [] acc -> s_trig s2 = [] ->
  exists s3, sel_close s2 = Ret s3 tt /\ Inv s3 ph' /\ length (s_stk s3) = n' /\ forall t i, tot s3 ph' l t i = tot s ph ((e, key) :: l) t (S i).
Proof.
  intros M T. pose proof (md_len _ _ _ _ _ _ _ _ _ _ _ _ _ _ _ _ _ M) as Len. destruct (md_sc _ _ _ _ _ _ _ _ _ _ _ _ _ _ _ _ _ M) as (Q1 & Q2 & Q3).
  pose proof (md_type _ _ _ _ _ _ _ _ _ _ _ _ _ _ _ _ _ M) as Ty. pose proof (md_stk _ _ _ _ _ _ _ _ _ _ _ _ _ _ _ _ _ M) as Stk.
  pose proof (iv_F _ _ I) as HF. fold F toks0 in HF. pose proof (iv_scopes _ _ I) as Sc. fold toks0 in Sc.
  assert (Sc2 : Forall (scope_ok (s_toks s2)) (s_stk s)) by (eapply Forall_impl; [|exact Sc]; intros sc; apply (mid_scope s2 [] acc sc M)).
  pose proof (iv_stk _ _ I) as Sk. fold F in Sk.
  assert (Up : forall b, (b <= T0 toks0)%nat -> b = base toks0 F e -> forall ev, m_matches (sc_mask (s_scope s2)) ev = true -> ev = EOpenTag \/
      exists k tk, nth_error (s_toks s2) k = Some tk /\ (k < length (s_toks s2))%nat /\ ((b <= k)%nat \/ t_follow tk = true) /\ m_matches (smask a tk) ev = true).
  { intros b Hb Eb ev Hm. destruct (md_up _ _ _ _ _ _ _ _ _ _ _ _ _ _ _ _ _ M ev Hm) as [He|(k & tk & H1 & H2 & H3)]; [left; exact He|right]. exists k, tk.
    split; [exact H1|]. split; [apply nth_error_Some; congruence|]. split; [|exact H3]. rewrite <- Eb in H2. destruct H2 as [H2|[H2|H2]]; [left; exact H2|left; lia|right; exact H2]. }
  assert (Fup : forall ev, m_matches (sc_fmask (s_scope s2)) ev = true -> exists k tk, nth_error (s_toks s2) k = Some tk /\ (k < length (s_toks s2))%nat /\ t_follow tk = true /\ m_matches (smask a tk) ev = true).
  { intros ev Hm. destruct (md_fup _ _ _ _ _ _ _ _ _ _ _ _ _ _ _ _ _ M ev Hm) as (tk & H1 & H2 & H3). apply In_nth_error in H1. destruct H1 as [k Hk]. exists k, tk.
    split; [exact Hk|]. split; [apply nth_error_Some; congruence|]. split; assumption. }
  unfold base in Up.
  destruct (kind_of e) eqn:Ek.
  all: cbn [level_after] in Hlv.
  (* elements that neither open nor close *)
  all: try (assert (Et : s_type s2 <> EOpenTag) by (rewrite Ty; intros ->; discriminate Ek);
    assert (Ec : sel_close s2 = Ret s2 tt) by (unfold sel_close; rewrite Ty; destruct e; try reflexivity; discriminate Ek);
    assert (Es : stk1 = s_stk s) by (unfold stk1, s1, sel_init; destruct e; try reflexivity; discriminate Ek);
    assert (Ef : eff_from s2 = F) by (unfold eff_from; destruct (s_type s2); try exact Q1; contradiction);
    assert (Hn : n' = length (s_stk s)) by congruence;
    exists s2; split; [exact Ec|]; split; [|split; [rewrite Stk, Es; congruence|]];
    [ constructor; rewrite ?Ef, ?Q2, ?Stk, ?Es;
      [ exact T | exact Sk | exact (Nat.le_trans _ _ _ HF Len) | apply (md_fol _ _ _ _ _ _ _ _ _ _ _ _ _ _ _ _ _ M) | apply (md_ok _ _ _ _ _ _ _ _ _ _ _ _ _ _ _ _ _ M)
      | apply (md_wf _ _ _ _ _ _ _ _ _ _ _ _ _ _ _ _ _ M)
      | pose proof (md_cov _ _ _ _ _ _ _ _ _ _ _ _ _ _ _ _ _ M) as C1; pose proof (md_fcov _ _ _ _ _ _ _ _ _ _ _ _ _ _ _ _ _ M) as C2;
        pose proof (md_this _ _ _ _ _ _ _ _ _ _ _ _ _ _ _ _ _ M) as C3; unfold base in C1, C3; rewrite Ek in C1, C3; constructor;
        [ intros k tk Hk _ Hf; exact (C1 k tk Hk Hf) | intros k tk Hk _ Hf; apply (C2 tk); [eapply nth_error_In; eauto|exact Hf]
        | intros k tk x Hk Hb Hx Tx; exact (C3 k tk x Hk (proj1 Hb) Hx Tx) | exact (Up F HF eq_refl) | exact Fup ]
      | exact Sc2
      | intro Hv; subst ph'; 
        try (exfalso; destruct ph; discriminate Hph);
        intros k tk x Hb Hk Hx Tx; exact (md_stale _ _ _ _ _ _ _ _ _ _ _ _ _ _ _ _ _ M Ek k tk x Hb (@in_nil nat k) Hk Hx Tx) ]
    | intros t i; rewrite <- (wsum_lat s2 acc t i M); unfold tot; apply wsum_ext; intros k tk Hk; cbn [Nat.add]; unfold ga, frB, frA, dA;
      rewrite Q2, Stk, Es, Ek; destruct (Nat.ltb_spec k (T0 toks0)) as [Hkt|Hkt];
      [ unfold depth_after; cbn [fst]; rewrite Ek; reflexivity | rewrite (el_dep k (Nat.le_trans _ _ _ HF Hkt)); reflexivity ] ]).
  - (* an opening tag *)
    assert (Ee : e = EOpenTag) by (destruct e; try discriminate Ek; reflexivity).
    set (sc1 := mkScope (sc_mask (s_scope s)) (sc_fmask (s_scope s)) F (T0 toks0) (length (s_follows s))).
    assert (Es : stk1 = sc1 :: s_stk s) by (unfold stk1, s1, sel_init; rewrite Ee; reflexivity).
    assert (Ef : eff_from s2 = T0 toks0) by (unfold eff_from; rewrite Ty, Ee; exact Q2).
    assert (S1 : scope_ok toks0 sc1).
    { split; [apply Nat.le_refl|]. split; [cbn [sc1 sc_fidx sc_to]; rewrite (iv_fol _ _ I); unfold T0; rewrite firstn_all; reflexivity|]. exact (iv_cov _ _ I). }
    exists s2. split; [unfold sel_close; rewrite Ty, Ee; reflexivity|]. split; [|split; [rewrite Stk, Es; cbn [length]; congruence|]].
    + constructor; rewrite ?Ef, ?Q2, ?Stk, ?Es.
      * exact T.
      * cbn [stack_ok]. split; [reflexivity|]. split; [exact HF|exact Sk].
      * exact Len.
      * apply (md_fol _ _ _ _ _ _ _ _ _ _ _ _ _ _ _ _ _ M).
      * apply (md_ok _ _ _ _ _ _ _ _ _ _ _ _ _ _ _ _ _ M).
      * apply (md_wf _ _ _ _ _ _ _ _ _ _ _ _ _ _ _ _ _ M).
      * pose proof (md_cov _ _ _ _ _ _ _ _ _ _ _ _ _ _ _ _ _ M) as C1; pose proof (md_fcov _ _ _ _ _ _ _ _ _ _ _ _ _ _ _ _ _ M) as C2;
        pose proof (md_this _ _ _ _ _ _ _ _ _ _ _ _ _ _ _ _ _ M) as C3; unfold base in C1, C3; rewrite Ek in C1, C3; constructor.
        -- intros k tk Hk _ Hf; exact (C1 k tk Hk Hf).
        -- intros k tk Hk _ Hf; apply (C2 tk); [eapply nth_error_In; eauto|exact Hf].
        -- intros k tk x Hk Hb Hx Tx; exact (C3 k tk x Hk (proj1 Hb) Hx Tx).
        -- exact (Up (T0 toks0) (Nat.le_refl _) eq_refl).
        -- exact Fup.
      * constructor; [apply (mid_scope s2 [] acc sc1 M S1)|exact Sc2].
      * intros _ k tk x Hb. lia.
    + intros t i; rewrite <- (wsum_lat s2 acc t i M); unfold tot; apply wsum_ext; intros k tk Hk; cbn [Nat.add]; unfold ga, frB, frA, dA.
      rewrite Q2, Stk, Es, Ek. destruct (Nat.ltb_spec k (T0 toks0)) as [Hkt|Hkt].
      * rewrite dep_top by exact Hkt. unfold depth_after; cbn [fst]. rewrite Ek. reflexivity.
      * rewrite dep_new by exact Hkt. rewrite (el_dep k (Nat.le_trans _ _ _ HF Hkt)). reflexivity.
  - (* a closing tag *)
    assert (Es : stk1 = s_stk s) by (unfold stk1, s1, sel_init; destruct e; try reflexivity; discriminate Ek).
    pose proof (fun t i => wsum_lat s2 acc t i M) as Lat.
    destruct (s_stk s) as [|sc r] eqn:Er; [discriminate Hlv|]. cbn [length] in Hlv. injection Hlv as Hn.
    cbn [stack_ok] in Sk. destruct Sk as (SF & Sle & Sr).
    pose proof (Forall_inv Sc2) as Hsc. pose proof (Forall_inv_tail Sc2) as Hr. destruct Hsc as (S1 & S2 & S3).
    assert (Sto : (sc_to sc <= T0 toks0)%nat) by (unfold T0; rewrite <- SF; exact HF).
    set (s3 := mkSel r (firstn (sc_fidx sc) (s_follows s2)) (s_trig s2) (firstn (sc_to sc) (s_toks s2)) (s_type s2) (s_key s2) sc (s_iter s2)).
    assert (Efol : s_follows s2 = fidx 0 (firstn (sc_to sc) (s_toks s2)) ++ fidx (sc_to sc) (skipn (sc_to sc) (s_toks s2))).
    { rewrite (md_fol _ _ _ _ _ _ _ _ _ _ _ _ _ _ _ _ _ M). rewrite <- (firstn_skipn (sc_to sc) (s_toks s2)) at 1. rewrite fidx_app, firstn_length. f_equal. f_equal. lia. }
    assert (Ec : sel_close s2 = Ret s3 tt).
    { unfold sel_close. rewrite Stk, Es. replace (Nat.leb (sc_to sc) (length (s_toks s2))) with true by lia.
      replace (Nat.leb (sc_fidx sc) (length (s_follows s2))) with true by (rewrite Efol, app_length; lia). cbn [andb].
      assert (Hcl : kind_of (s_type s2) = KClose) by (rewrite Ty; exact Ek). unfold s3. destruct (s_type s2); try discriminate Hcl; reflexivity. }
    assert (Ef : eff_from s3 = sc_from sc) by (unfold eff_from, s3; cbn [s_type s_scope]; rewrite Ty; destruct e; try discriminate Ek; reflexivity).
    assert (Hpb : ph' = PBody) by (destruct ph; cbn [phase_after] in Hph; congruence).
    assert (Fst : forall k tk, nth_error (firstn (sc_to sc) (s_toks s2)) k = Some tk -> nth_error (s_toks s2) k = Some tk /\ (k < sc_to sc)%nat).
    { intros k tk Hk. assert (Hl : (k < length (firstn (sc_to sc) (s_toks s2)))%nat) by (apply nth_error_Some; congruence).
      rewrite firstn_length in Hl. split; [|lia]. rewrite <- (firstn_skipn (sc_to sc) (s_toks s2)). rewrite nth_error_app1; [exact Hk|]. rewrite firstn_length. lia. }
    assert (Fst' : forall k tk, (k < sc_to sc)%nat -> nth_error (s_toks s2) k = Some tk -> nth_error (firstn (sc_to sc) (s_toks s2)) k = Some tk).
    { intros k tk Hk Hn'. rewrite <- Hn'. symmetry. rewrite <- (firstn_skipn (sc_to sc) (s_toks s2)) at 1. apply nth_error_app1. rewrite firstn_length.
      assert (k < length (s_toks s2))%nat by (apply nth_error_Some; congruence). lia. }
    assert (Fl : length (firstn (sc_to sc) (s_toks s2)) = sc_to sc) by (rewrite firstn_length; lia).
    exists s3. split; [exact Ec|]. split; [|split; [exact Hn|]].
    + constructor; rewrite ?Ef; unfold s3; cbn [s_stk s_follows s_trig s_toks s_scope]; rewrite ?Fl.
      * exact T.
      * exact Sr.
      * exact Sle.
      * rewrite Efol, S2. rewrite firstn_app, Nat.sub_diag, firstn_all, firstn_O, app_nil_r. reflexivity.
      * pose proof (md_ok _ _ _ _ _ _ _ _ _ _ _ _ _ _ _ _ _ M) as Ok. rewrite <- (firstn_skipn (sc_to sc) (s_toks s2)) in Ok. apply Forall_app in Ok. exact (proj1 Ok).
      * intros tk x Hin. apply (md_wf _ _ _ _ _ _ _ _ _ _ _ _ _ _ _ _ _ M). rewrite <- (firstn_skipn (sc_to sc) (s_toks s2)). apply in_or_app. left. exact Hin.
      * apply (covers_same (s_toks s2)); [| |exact S3]; intros k tk' Hlt Hk; [destruct (Fst k tk' Hk) as [Hk' _]|pose proof (Fst' k tk' Hlt Hk) as Hk']; exists tk'; splits; auto.
      * rewrite Forall_forall in Hr |- *. intros sc' Hin. destruct (Hr sc' Hin) as (R1 & R2 & R3).
        assert (Hle : (sc_to sc' <= sc_to sc)%nat).
        { pose proof (stack_dep r (sc_from sc) (sc_to sc) Sr Sle) as Hd. destruct (Nat.leb_spec (sc_to sc') (sc_to sc)); [assumption|exfalso].
          unfold dep in Hd. apply length_zero_iff_nil in Hd. assert (Hi : In sc' (filter (fun sc' => Nat.ltb (sc_to sc) (sc_to sc')) r)) by (apply filter_In; split; [exact Hin|lia]).
          rewrite Hd in Hi. destruct Hi. }
        split; [rewrite Fl; exact Hle|]. split; [rewrite firstn_firstn; replace (Nat.min (sc_to sc') (sc_to sc)) with (sc_to sc') by lia; exact R2|].
        apply (covers_same (s_toks s2)); [| |exact R3]; intros k tk' Hlt Hk; [destruct (Fst k tk' Hk) as [Hk' _]|pose proof (Fst' k tk' (Nat.lt_le_trans _ _ _ Hlt Hle) Hk) as Hk']; exists tk'; splits; auto.
      * rewrite Hpb. discriminate.
    + intros t i; rewrite <- (Lat t i). unfold tot, s3; cbn [s_stk s_toks s_scope].
      assert (Z : forall k tk, (sc_to sc <= k)%nat -> ga kb ub a toks0 (sc :: r) e key l ph' t i k tk = O).
      { intros k tk Hk. unfold ga, dA. pose proof (el_dep k) as Hd. rewrite Er in Hd. rewrite Hd by (rewrite SF; exact Hk). unfold depth_after. cbn [fst]. rewrite Ek.
        destruct (Nat.ltb k (T0 toks0)); unfold contr; destruct (gone ub a tk); reflexivity. }
      rewrite <- (wsum_firstn (ga kb ub a toks0 (sc :: r) e key l ph' t i) (s_toks s2) (sc_to sc) 0) by (intros k tk _ Hk; apply Z; exact Hk).
      apply wsum_ext. intros k tk Hk. cbn [Nat.add]. destruct (Fst k tk Hk) as [_ Hlt]. unfold ga, frA, frB, dA. rewrite Hpb.
      replace (Nat.ltb k (T0 toks0)) with true by lia. rewrite dep_top by exact Hlt. unfold depth_after. cbn [fst]. rewrite Ek. reflexivity.
Qed.

Lemma element_spec : vis -> exists N s3 out, (forall f ff, (N <= f)%nat -> (N <= ff)%nat -> sel_element f ff a e (Some key) s = Ret s3 out) /\
  Inv s3 ph' /\ length (s_stk s3) = n' /\ (ub = false -> forall t, cnt t out = tot s ph ((e, key) :: l) t 0) /\
  (forall t i, tot s3 ph' l t i = tot s ph ((e, key) :: l) t (S i)).
Proof.
  intro Hvis. destruct (element_mid Hvis) as (N & s2 & out & E & M & T). destruct (close_spec s2 out M T) as (s3 & E3 & I3 & L3 & H3).
  exists N, s3, out. split; [|split; [exact I3|]; split; [exact L3|]; split; [|exact H3]].
  - intros f ff Hf Hff. unfold sel_element. fold s1. rewrite (E f ff Hf Hff). cbn [bind]. rewrite E3. reflexivity.
  - intros U t. apply (wsum_mid s2 out t U M T).
Qed.
End Element.

(** all elements *)
Theorem run_spec : kb = false -> ub = false -> forall evs s ph, Inv s ph -> ordered ph (length (s_stk s)) evs = true ->
  exists N s' rs, (forall f ff, (N <= f)%nat -> (N <= ff)%nat -> sel_run f ff a evs s = Ret s' rs) /\ length rs = length evs /\
    forall t i, (i < length evs)%nat -> cnt t (nth i rs []) = tot s ph evs t i.
Proof.
  intros Kb U. induction evs as [|[e key] l IH]; intros s ph I Ho.
  - exists O, s, []. split; [reflexivity|]. split; [reflexivity|]. intros t i H. cbn [length] in H. lia.
  - cbn [ordered fst] in Ho. destruct (phase_after ph (kind_of e)) as [ph'|] eqn:Hph; [|discriminate].
    destruct (level_after (length (s_stk s)) (kind_of e)) as [n'|] eqn:Hlv; [|discriminate].
    destruct (element_spec s ph ph' n' e key l I Hph Hlv Ho ltac:(intro; congruence)) as (N1 & s1 & o & E1 & I1 & L1 & H0 & HS).
    rewrite <- L1 in Ho. destruct (IH s1 ph' I1 Ho) as (N2 & s2 & rs & E2 & L2 & H2).
    exists (Nat.max N1 N2), s2, (o :: rs). split; [|split; [cbn [length]; congruence|]].
    + intros f ff Hf Hff. cbn [sel_run]. rewrite (E1 f ff) by lia. cbn [bind]. rewrite (E2 f ff) by lia. reflexivity.
    + intros t [|i] Hi; cbn [nth length] in *; [apply (H0 U)|]. rewrite <- HS. apply H2. lia.
Qed.
End Run.
