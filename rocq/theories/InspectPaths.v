(** The types listed by getEmmitedTokens are the types of the paths that end with the step of the state. *)
From Coq Require Import Lia ZifyBool ZifyNat.
From Verif Require Import Base Charset XmlScanner PathAtm PathSelect PathSpec PathProg PathInspect InspectSpec PathTrie PathRun1 PathRun2 PathRun3 PathRun8 PathBuild PathBuild2 PathBuild3.

Lemma step_edge a i st j : atm_wf a -> nth_error a i = Some st -> st_next st = Some j -> step_of st = edge_of st.
Proof.
  intros W E Nx. destruct (W i st E) as [Sh _]. destruct Sh as [H1 H2 H3|o f j' H1 H2 H3|r f t b e H1 H2 H3 H4|od H1 H2]; try congruence.
  unfold step_of, edge_of. rewrite H1. cbn [c_mask c_follow]. rewrite !op_matches, sop_of_op. destruct o; reflexivity.
Qed.
Definition ind (es : list edge) (e : etype) (t : Z) (x : expr) : nat := if ends_at es e t x then 1 else 0.
Lemma ind_filter es e t : forall l, sm (ind es e t) l = length (filter (ends_at es e t) l).
Proof. induction l as [|x l IH]; [reflexivity|]. rewrite sm_cons, IH. unfold ind. cbn [filter]. destruct (ends_at es e t x); reflexivity. Qed.
Lemma ind_add ed ed' es e t x : ind (ed :: es) e t (add_edge ed' x) = if edge_eq ed' ed then ind es e t x else O.
Proof.
  unfold ind, ends_at, add_edge, rest_of. cbn [x_edges x_rep x_type].
  destruct (edge_eq ed' ed) as [->|N].
  - destruct (list_eq_dec edge_eq (ed :: x_edges x) (ed :: es)) as [H|H], (list_eq_dec edge_eq (x_edges x) es) as [H'|H']; try congruence; reflexivity.
  - destruct (list_eq_dec edge_eq (ed' :: x_edges x) (ed :: es)) as [H|H]; [congruence|reflexivity].
Qed.
Lemma ind_add_nil ed' e t x : ind [] e t (add_edge ed' x) = O.
Proof. unfold ind, ends_at, add_edge, rest_of. cbn [x_edges]. destruct (list_eq_dec edge_eq (ed' :: x_edges x) []); [discriminate|reflexivity]. Qed.
Lemma sm_zero {A} (h : A -> nat) l : (forall x, In x l -> h x = O) -> sm h l = O.
Proof. apply list_sum_0. Qed.

Section Atm.
Variable a : atm.
Hypothesis W : atm_wf a.

(** the list of states *)
Lemma emit_spec e t : forall f i, (i < length a)%nat -> (length a - i < f)%nat ->
  exists l, emit_loop f a e (Some i) = Ret a l /\ cnt t l = sm (ind [] e t) (lang a i).
Proof.
  induction f as [|f IH]; intros i Hi Hf; [lia|]. cbn [emit_loop]. destruct (nth_error a i) as [st|] eqn:E; [|apply nth_error_None in E; lia].
  assert (K : exists l, emit_loop f a e (st_link st) = Ret a l /\ cnt t l = sm (ind [] e t) (match st_link st with Some j => lang a j | None => [] end)).
  { destruct (st_link st) as [j|] eqn:L; [pose proof (link_up a i st j W E L); apply IH; lia|]. destruct f as [|f]; [lia|]. exists []. split; reflexivity. }
  destruct K as [l [-> Hl]]. cbn [bind]. eexists. split; [reflexivity|]. rewrite (lang_eq a W i st E), sm_app, <- Hl. unfold alts.
  destruct (W i st E) as [Sh _]. destruct Sh as [H1 H2 H3|o f' j H1 H2 H3|r f' u b e' H1 H2 H3 H4|od H1 H2]; rewrite H1; cbn [core_new c_type c_mask].
  - rewrite H3. reflexivity.
  - cbn [Z.eqb negb andb]. rewrite H2. rewrite sm_map. rewrite sm_zero; [reflexivity|]. intros x _. apply ind_add_nil.
  - replace (u =? 0)%Z with false by lia. cbn [negb andb]. rewrite rep_matches. rewrite sm_cons, sm_nil. unfold ind, ends_at, out_of. rewrite H1. cbn [x_edges x_rep x_type c_mask c_type].
    rewrite rep_of_mask. destruct (list_eq_dec edge_eq [] []) as [_|X]; [|contradiction]. cbn [andb].
    destruct (reports r (kind_of e)); cbn [andb]; [|lia]. change (u :: l) with ([u] ++ l). rewrite cnt_app, cnt_one. destruct (u =? t)%Z; lia.
  - cbn [Z.eqb negb andb]. rewrite H2. reflexivity.
Qed.
Lemma types_spec e t i st j : nth_error a i = Some st -> st_next st = Some j -> cnt t (types_of a e i) = sm (ind [] e t) (lang a j).
Proof.
  intros E Nx. unfold types_of, atm_emitted. rewrite E, Nx. pose proof (next_up a i st j W E Nx).
  destruct (emit_spec e t (S (length a)) j ltac:(lia) ltac:(lia)) as [l [-> H1]]. exact H1.
Qed.

(** the states that make the last of the steps [es] from the list of [i] *)
Fixpoint arr_f (f : nat) (es : list edge) (i : nat) : list nat :=
  match f with
  | O => []
  | S f =>
      match nth_error a i with
      | None => []
      | Some st =>
          match st_next st, es with
          | Some j, [ed] => if edge_eq (edge_of st) ed then [i] else []
          | Some j, ed :: es' => if edge_eq (edge_of st) ed then arr_f f es' j else []
          | _, _ => []
          end ++ match st_link st with Some j => arr_f f es j | None => [] end
      end
  end.
Lemma arr_sum e t : forall f es i, es <> [] -> (length a - i < f)%nat ->
  sm (ind es e t) (lang a i) = sm (fun K => cnt t (types_of a e K)) (arr_f f es i).
Proof.
  induction f as [|f IH]; intros es i Hes Hf; [lia|]. cbn [arr_f]. destruct (nth_error a i) as [st|] eqn:E.
  2:{ rewrite sm_nil. unfold lang. destruct (length a); cbn [lang_f]; rewrite ?E; reflexivity. }
  rewrite (lang_eq a W i st E), !sm_app. f_equal.
  - unfold alts. destruct (W i st E) as [Sh _]. destruct Sh as [H1 H2 H3|o f' j H1 H2 H3|r f' u b e' H1 H2 H3 H4|od H1 H2].
    + rewrite H1, H3. reflexivity.
    + rewrite H2. rewrite H1 at 1. cbn [c_type Z.eqb]. rewrite sm_map. destruct es as [|ed es']; [contradiction|].
      rewrite (sm_ext _ (fun x => if edge_eq (edge_of st) ed then ind es' e t x else O)) by (intros x _; apply ind_add).
      destruct (edge_eq (edge_of st) ed).
      * destruct es' as [|ed2 es']; [rewrite sm_cons, sm_nil, (types_spec e t i st j E H2), Nat.add_0_r; reflexivity|]. apply IH; [discriminate|lia].
      * rewrite sm_zero by reflexivity. destruct es'; reflexivity.
    + rewrite H1 at 1. cbn [c_type]. replace (u =? 0)%Z with false by lia. rewrite H4. rewrite sm_cons, sm_nil. cbn [app].
      unfold ind, ends_at, out_of. cbn [x_edges]. destruct (list_eq_dec edge_eq [] es) as [X|X]; [congruence|]. reflexivity.
    + rewrite H1 at 1. cbn [c_type Z.eqb]. rewrite H2. reflexivity.
  - destruct (st_link st) as [j|] eqn:L; [|reflexivity]. pose proof (link_up a i st j W E L). apply IH; [exact Hes|lia].
Qed.
Lemma arr_sound f : forall es i K es0, leads a es0 i -> In K (arr_f f es i) -> last_step a (es0 ++ es) K.
Proof.
  induction f as [|f IH]; intros es i K es0 Hl Hin; cbn [arr_f] in Hin; [contradiction|]. destruct (nth_error a i) as [st|] eqn:E; [|contradiction].
  apply in_app_or in Hin. destruct Hin as [Hin|Hin].
  - destruct (st_next st) as [j|] eqn:Nx; [|contradiction]. destruct es as [|ed es']; [contradiction|].
    destruct es' as [|ed2 es'].
    + destruct (edge_eq (edge_of st) ed) as [<-|]; [|contradiction]. destruct Hin as [<-|[]]. exists es0, st, j. rewrite (step_edge a i st j W E Nx). auto.
    + destruct (edge_eq (edge_of st) ed) as [<-|]; [|contradiction].
      replace (es0 ++ edge_of st :: ed2 :: es') with ((es0 ++ [edge_of st]) ++ ed2 :: es') by (rewrite <- app_assoc; reflexivity).
      eapply IH; [rewrite <- (step_edge a i st j W E Nx); eapply ld_next; eauto|exact Hin].
  - destruct (st_link st) as [j|] eqn:L; [|contradiction]. eapply IH; [eapply ld_link; eauto|exact Hin].
Qed.
(** how often a state is listed *)
Lemma arr_count K : forall f es i, (length a - i < f)%nat -> (count_occ Nat.eq_dec (arr_f f es i) K <= length (paths a K i))%nat.
Proof.
  induction f as [|f IH]; intros es i Hf; [lia|]. cbn [arr_f]. destruct (nth_error a i) as [st|] eqn:E; [|cbn; lia].
  rewrite count_occ_app, (paths_eq a W), E, !app_length.
  assert (B : (count_occ Nat.eq_dec (match st_link st with Some j => arr_f f es j | None => [] end) K <= length (match st_link st with Some j => paths a K j | None => [] end))%nat).
  { destruct (st_link st) as [j|] eqn:L; [|cbn; lia]. pose proof (link_up a i st j W E L). apply IH. lia. }
  assert (A : (count_occ Nat.eq_dec (match st_next st, es with
          | Some j, [ed] => if edge_eq (edge_of st) ed then [i] else []
          | Some j, ed :: es' => if edge_eq (edge_of st) ed then arr_f f es' j else []
          | _, _ => []
          end) K <= length (if Nat.eqb i K then [[]] else @nil (list edge)) + length (match st_next st with Some j => map (cons (edge_of st)) (paths a K j) | None => [] end))%nat).
  { destruct (st_next st) as [j|] eqn:Nx; [|cbn; lia]. rewrite map_length. pose proof (next_up a i st j W E Nx). destruct es as [|ed es']; [cbn; lia|].
    destruct es' as [|ed2 es']; (destruct (edge_eq (edge_of st) ed); [|cbn; lia]).
    - cbn [count_occ]. destruct (Nat.eq_dec i K) as [->|]; [rewrite Nat.eqb_refl; cbn; lia|lia].
    - specialize (IH (ed2 :: es') j ltac:(lia)). lia. }
  lia.
Qed.
End Atm.

Section Good.
Variable a : atm.
Hypothesis G : good a.
Lemma leads_paths es i : leads a es i -> paths a i 0 = [es].
Proof.
  induction 1 as [|es i st j H IH E L|es i st j H IH E L].
  - apply (gd_root a G).
  - rewrite (gd_link a G i st j E L). exact IH.
  - rewrite (gd_next a G i st j E L), IH, (step_edge a i st j (gd_wf a G) E L). reflexivity.
Qed.
Lemma leads_lt es i : leads a es i -> (i < length a)%nat.
Proof.
  induction 1 as [|es i st j H IH E L|es i st j H IH E L].
  - apply (gd_pos a G).
  - pose proof (link_up a i st j (gd_wf a G) E L). lia.
  - pose proof (next_up a i st j (gd_wf a G) E L). lia.
Qed.
Lemma arr_in_step f : forall es i st j ed, nth_error a i = Some st -> st_next st = Some j -> es = [ed] -> edge_of st = ed -> (0 < f)%nat -> In i (arr_f a f es i).
Proof.
  intros es i st j ed E Nx -> He Hf. destruct f as [|f]; [lia|]. cbn [arr_f]. rewrite E, Nx. destruct (edge_eq (edge_of st) ed); [|contradiction]. left. reflexivity.
Qed.
Lemma arr_complete : forall es0 i, leads a es0 i -> forall f es K, es <> [] -> In K (arr_f a f es i) -> In K (arr_f a (S (length a)) (es0 ++ es) 0).
Proof.
  assert (M : forall f es i K, In K (arr_f a f es i) -> forall f', (f <= f')%nat -> In K (arr_f a f' es i)).
  { induction f as [|f IH]; intros es i K H f' Hf; [contradiction|]. destruct f' as [|f']; [lia|]. cbn [arr_f] in *. destruct (nth_error a i) as [st|]; [|contradiction].
    apply in_app_or in H. apply in_or_app. destruct H as [H|H].
    - left. destruct (st_next st) as [j|]; [|contradiction]. destruct es as [|ed es']; [contradiction|]. destruct es' as [|ed2 es']; [exact H|]. destruct (edge_eq (edge_of st) ed); [|contradiction]. apply (IH _ _ _ H). lia.
    - right. destruct (st_link st) as [j|]; [|contradiction]. apply (IH _ _ _ H). lia. }
  assert (M2 : forall f es i K, In K (arr_f a f es i) -> In K (arr_f a (S (length a) - i) es i)).
  { assert (X : forall d f es i K, (length a - i < d)%nat -> In K (arr_f a f es i) -> In K (arr_f a d es i)).
    { induction d as [|d IH]; intros f es i K Hd H; [lia|]. destruct f as [|f]; [contradiction|]. cbn [arr_f] in *. destruct (nth_error a i) as [st|] eqn:E; [|contradiction].
      apply in_app_or in H. apply in_or_app. destruct H as [H|H].
      - left. destruct (st_next st) as [j|] eqn:Nx; [|contradiction]. pose proof (next_up a i st j (gd_wf a G) E Nx). destruct es as [|ed es']; [contradiction|]. destruct es' as [|ed2 es']; [exact H|]. destruct (edge_eq (edge_of st) ed); [|contradiction]. apply (IH f _ j K); [lia|exact H].
      - right. destruct (st_link st) as [j|] eqn:L; [|contradiction]. pose proof (link_up a i st j (gd_wf a G) E L). apply (IH f _ j K); [lia|exact H]. }
    intros f es i K H. destruct (Nat.lt_ge_cases i (S (length a))) as [Hi|Hi]; [apply (X (S (length a) - i)%nat f); [lia|exact H]|].
    exfalso. destruct f as [|f]; [contradiction|]. cbn [arr_f] in H. replace (nth_error a i) with (@None pstate) in H by (symmetry; apply nth_error_None; lia). contradiction. }
  induction 1 as [|es0 i st j H IH E L|es0 i st j H IH E L]; intros f es K Hes Hin.
  - cbn [app]. specialize (M2 f es O K Hin). apply (M _ _ _ _ M2). lia.
  - pose proof (link_up a i st j (gd_wf a G) E L). apply (IH (S f) es K); [exact Hes|]. cbn [arr_f]. rewrite E. apply in_or_app. right. rewrite L. exact Hin.
  - pose proof (next_up a i st j (gd_wf a G) E L). rewrite (step_edge a i st j (gd_wf a G) E L), <- app_assoc. cbn [app]. apply (IH (S f) (edge_of st :: es) K); [discriminate|]. cbn [arr_f]. rewrite E. apply in_or_app. left. rewrite L.
    destruct es as [|ed es]; [contradiction|]. destruct (edge_eq (edge_of st) (edge_of st)); [exact Hin|contradiction].
Qed.
Definition arr (es : list edge) : list nat := arr_f a (S (length a)) es 0.
Lemma arr_iff es K : In K (arr es) <-> last_step a es K.
Proof.
  split.
  - intro H. change es with ([] ++ es). eapply (arr_sound a (gd_wf a G)); [apply ld_root|exact H].
  - intros [es' [st [j [H1 [H2 [H3 ->]]]]]]. pose proof (leads_lt es' K H1). rewrite (step_edge a K st j (gd_wf a G) H2 H3). apply (arr_complete es' K H1 (S (length a)) [edge_of st]); [discriminate|].
    eapply arr_in_step; eauto. lia.
Qed.
Lemma arr_NoDup es : NoDup (arr es).
Proof.
  apply (NoDup_count_occ Nat.eq_dec). intro K. destruct (in_dec Nat.eq_dec K (arr es)) as [H|H].
  - apply arr_iff in H. destruct H as [es' [st [j [H1 _]]]]. pose proof (arr_count a (gd_wf a G) K (S (length a)) es 0 ltac:(lia)) as X. rewrite (leads_paths es' K H1) in X. exact X.
  - apply (count_occ_not_In Nat.eq_dec) in H. lia.
Qed.
Lemma cnt_flat e t : forall l, cnt t (flat_map (types_of a e) l) = sm (fun K => cnt t (types_of a e K)) l.
Proof. induction l as [|x l IH]; [reflexivity|]. cbn [flat_map]. rewrite cnt_app, sm_cons, IH. reflexivity. Qed.
Theorem emitted_good es e : es <> [] -> exists L, NoDup L /\ (forall i, In i L <-> last_step a es i) /\
  forall t, cnt t (flat_map (types_of a e) L) = length (filter (ends_at es e t) (lang a 0)).
Proof.
  intro Hes. exists (arr es). split; [apply arr_NoDup|]. split; [intro; apply arr_iff|]. intro t. rewrite cnt_flat, <- ind_filter. symmetry. apply (arr_sum a (gd_wf a G)); [exact Hes|lia].
Qed.
End Good.

Theorem emitted_spec cs ps E : (forall m, In m (prog_names ps) -> usable cs m) -> paths_of ps = Some E ->
  exists a, add_paths cs ps [] = Ret a tt /\ forall es e, es <> [] -> exists L, NoDup L /\ (forall i, In i L <-> last_step a es i) /\
    forall t, cnt t (flat_map (types_of a e) L) = length (filter (ends_at es e t) E).
Proof.
  intros Hn HE. destruct (add_spec cs ps E [] good_new Hn HE) as (a & A1 & A2 & A3). exists a. split; [exact A1|]. intros es e Hes.
  assert (L0 : forall h : expr -> nat, sm h (lang (norm a) 0) = sm h E) by (intro h; rewrite (A3 h); change (lang (norm []) 0) with (@nil expr); rewrite sm_nil; lia).
  destruct a as [|st a0].
  - exists []. split; [constructor|]. split.
    + intro i. split; [contradiction|]. intros [es' [st [j [_ [H _]]]]]. destruct i; discriminate.
    + intro t. rewrite <- ind_filter, <- L0. reflexivity.
  - change (norm (st :: a0)) with (st :: a0) in *. destruct (emitted_good _ A2 es e Hes) as [L [H1 [H2 H3]]]. exists L. split; [exact H1|]. split; [exact H2|].
    intro t. rewrite H3, <- !ind_filter, L0. reflexivity.
Qed.
