(** The loop over the candidates for one element. *)
From Coq Require Import Lia ZifyBool ZifyNat.
From Verif Require Import Base XmlScanner PathAtm PathSelect PathSpec PathDesc PathTrie PathKill PathRun1 PathRun2 PathRun3 PathRun4 PathRun5 PathRun6.

Lemma skipn_nth {A} : forall (l : list A) i x, nth_error l i = Some x -> skipn i l = x :: skipn (S i) l.
Proof.
  induction l as [|y l IH]; intros [|i] x H; cbn [nth_error skipn] in *; try discriminate; [congruence|]. apply IH. exact H.
Qed.
Lemma NoDup_skipn {A} (l : list A) : forall i, NoDup l -> NoDup (skipn i l).
Proof. induction l as [|x l IH]; intros [|i] H; cbn [skipn]; auto. inversion H. auto. Qed.
Lemma skipn_In {A} (l : list A) i x : In x (skipn i l) -> In x l.
Proof. intro H. rewrite <- (firstn_skipn i l). apply in_or_app. right. exact H. Qed.

Section Event.
Variables kb ub : bool.
Variable a : atm.
Hypothesis W : atm_wf a.
Notation exprs := (tok_exprs a).
Variables (toks0 : list tok) (stk stk1 : list scope) (F fx prev_to : nat) (e : etype) (key : list N) (l : list event) (ph ph' : phase) (n' : nat).
Notation T0 := (T0 toks0).
Hypothesis Hph : phase_after ph (kind_of e) = Some ph'.
Hypothesis Hord : ordered ph' n' l = true.
Hypothesis Hdep : forall k, (F <= k)%nat -> dep stk k = O.
Hypothesis Hstale : ph = PVal -> forall k tk x, (F <= k < prev_to)%nat -> nth_error toks0 k = Some tk -> In x (exprs tk) -> transient x = true -> dead tk = true.
Hypothesis Hok0 : Forall (tok_ok a) toks0.
Hypothesis HF : (F <= T0)%nat.
Hypothesis Hfx : fx = length (fidx 0 toks0).
Notation Mid := (Mid kb ub a toks0 stk stk1 F fx prev_to e key l ph ph').

Definition fc : list nat := fidx 0 (firstn F toks0).
Definition rem_of (it : nat) : list nat := if Nat.ltb it T0 then seq it (T0 - it) ++ fc else skipn (it - T0) fc.

Lemma fc_lt k : In k fc -> (k < F)%nat.
Proof.
  unfold fc. rewrite fidx_In. intros (t & _ & H & _). rewrite Nat.sub_0_r in H.
  assert (k < length (firstn F toks0))%nat by (apply nth_error_Some; congruence). rewrite firstn_length in H0. lia.
Qed.
Lemma fc_follow k : In k fc -> exists t, nth_error toks0 k = Some t /\ t_follow t = true.
Proof.
  intro H. pose proof (fc_lt k H). unfold fc in H. rewrite fidx_In in H. destruct H as (t & _ & H & Hf). rewrite Nat.sub_0_r in H. exists t. split; [|exact Hf].
  rewrite <- (firstn_skipn F toks0). rewrite nth_error_app1; [exact H|]. apply nth_error_Some. congruence.
Qed.
Lemma rem_lt it k : In k (rem_of it) -> (k < T0)%nat.
Proof.
  unfold rem_of. destruct (Nat.ltb_spec it T0).
  - rewrite in_app_iff, in_seq. intros [H'|H']; [lia|]. apply fc_lt in H'. lia.
  - intro H'. apply skipn_In, fc_lt in H'. lia.
Qed.
Lemma rem_NoDup it : (F <= it)%nat -> NoDup (rem_of it).
Proof.
  intro Hit. unfold rem_of. destruct (Nat.ltb_spec it T0); [|apply NoDup_skipn, fidx_NoDup].
  assert (G : forall (l1 l2 : list nat), NoDup l1 -> NoDup l2 -> (forall x, In x l1 -> ~ In x l2) -> NoDup (l1 ++ l2)).
  { induction l1 as [|x l1 IH]; intros l2 N1 N2 D; [exact N2|]. cbn [app]. inversion N1; subst. constructor.
    - rewrite in_app_iff. intros [?|?]; [contradiction|]. apply (D x); [left; reflexivity|assumption].
    - apply IH; auto. intros y Hy. apply D. right. exact Hy. }
  apply G; [apply seq_NoDup|apply fidx_NoDup|]. intros x Hx Hx'. apply in_seq in Hx. apply fc_lt in Hx'. lia.
Qed.

(** the follow tokens of the selector during the processing *)
Lemma follows_fc s rem acc : Mid s rem acc -> exists r, s_follows s = fc ++ r /\ (forall k, In k r -> (F <= k)%nat) /\ (fx <= length (s_follows s))%nat.
Proof.
  intro M. pose proof (md_ok _ _ _ _ _ _ _ _ _ _ _ _ _ _ _ _ _ M) as Ok. pose proof (md_state _ _ _ _ _ _ _ _ _ _ _ _ _ _ _ _ _ M) as Hs.
  pose proof (md_len _ _ _ _ _ _ _ _ _ _ _ _ _ _ _ _ _ M) as Len.
  assert (Fl : map t_follow (firstn T0 (s_toks s)) = map t_follow toks0).
  { rewrite firstn_map in Hs.
    assert (G : forall l1 l2, Forall (tok_ok a) l1 -> Forall (tok_ok a) l2 -> map t_state l1 = map t_state l2 -> map t_follow l1 = map t_follow l2).
    { induction l1 as [|x l1 IH]; intros [|y l2] O1 O2 E; cbn [map] in *; try discriminate; [reflexivity|].
      injection E as E1 E2. inversion O1 as [|? ? Hx Hl1]; subst. inversion O2 as [|? ? Hy Hl2]; subst. f_equal; [|apply IH; auto].
      destruct Hx as (st & S1 & S2 & _), Hy as (st' & S1' & S2' & _). unfold t_follow. rewrite S2, S2'. congruence. }
    apply G; auto. rewrite <- (firstn_skipn T0 (s_toks s)) in Ok. apply Forall_app in Ok. apply (proj1 Ok). }
  assert (E : fidx 0 (s_toks s) = fidx 0 toks0 ++ fidx T0 (skipn T0 (s_toks s))).
  { rewrite <- (firstn_skipn T0 (s_toks s)) at 1. rewrite fidx_app, (fidx_ext _ _ 0 Fl), firstn_length. f_equal. f_equal. lia. }
  assert (E0 : fidx 0 toks0 = fc ++ fidx F (skipn F toks0)).
  { rewrite <- (firstn_skipn F toks0) at 1. rewrite fidx_app, firstn_length. unfold fc. f_equal. f_equal. unfold PathRun5.T0 in HF. lia. }
  rewrite (md_fol _ _ _ _ _ _ _ _ _ _ _ _ _ _ _ _ _ M), E, Hfx. 
  exists (fidx F (skipn F toks0) ++ fidx T0 (skipn T0 (s_toks s))). split; [rewrite E0, app_assoc; reflexivity|]. split.
  - intros k Hk. apply in_app_or in Hk. destruct Hk as [Hk|Hk]; apply fidx_In in Hk; destruct Hk as (t & Hk & _); lia.
  - rewrite app_length. lia.
Qed.

Lemma Mid_iter s i rem acc : Mid s rem acc -> Mid (sel_set_iter i s) rem acc.
Proof. intros []. constructor; auto. Qed.
Lemma Mid_nokey s rem acc : Mid s rem acc -> Mid (sel_no_key s) rem acc.
Proof. intros []. constructor; auto. Qed.
Lemma Mid_pop s t q rem acc : Mid s rem acc -> s_trig s = t :: q -> Mid (sel_set_trig q s) rem (acc ++ [t]).
Proof.
  intros [] E. constructor; auto.
  - cbn [sel_set_trig s_trig]. rewrite E in md_trig. inversion md_trig. assumption.
  - intros U u. rewrite cnt_app, <- (md_now U u), E. cbn [sel_set_trig s_trig s_toks]. change (t :: q) with ([t] ++ q). rewrite (cnt_app u [t]). lia.
Qed.

Definition meas (s : sel) : nat := (length (rem_of (s_iter s)) * (length a + 1) + length (s_trig s))%nat.

(** processing the candidate at the iterator *)
Lemma candidate_at s j rem acc tk : Mid s (j :: rem) acc -> s_key s = Some key -> NoDup (j :: rem) -> (forall k, In k rem -> (k < T0)%nat) -> (j < T0)%nat ->
  nth_error toks0 j = Some tk -> (F <= j)%nat \/ t_follow tk = true ->
  exists s' rt, sel_match a j s = Ret s' rt /\ Mid s' rem (acc ++ ptail rt) /\ keep s s' /\ (length (s_trig s') <= length (s_trig s) + length a)%nat.
Proof.
  intros M K ND Hr Hj Ht Hc.
  assert (Ht' : nth_error (s_toks s) j = Some tk) by (rewrite <- Ht; apply (md_rem _ _ _ _ _ _ _ _ _ _ _ _ _ _ _ _ _ M); left; reflexivity).
  pose proof (md_ok _ _ _ _ _ _ _ _ _ _ _ _ _ _ _ _ _ M) as Ok. rewrite Forall_forall in Ok.
  destruct (Ok tk (nth_error_In _ _ Ht')) as (st & Hst & _).
  eapply (candidate kb ub a W toks0 stk stk1 F fx prev_to e key l ph ph' n' Hph Hord Hdep Hstale s j rem acc tk st); eauto.
Qed.

Lemma fetch_loop_spec : forall f s acc, (meas s < f)%nat -> Mid s (rem_of (s_iter s)) acc -> s_key s = Some key -> (F <= s_iter s)%nat ->
  exists s' t, fetch_loop f a s = Ret s' t /\ m_sub (sc_mask (s_scope s)) (sc_mask (s_scope s')) /\
    ((t <> 0%Z /\ Mid s' (rem_of (s_iter s')) (acc ++ [t]) /\ (meas s' < meas s)%nat /\ s_key s' = Some key /\ (F <= s_iter s')%nat) \/
     (t = 0%Z /\ Mid s' [] acc /\ s_trig s' = [])).
Proof.
  induction f as [|f IH]; intros s acc Hm M K Hit; [lia|].
  destruct (md_sc _ _ _ _ _ _ _ _ _ _ _ _ _ _ _ _ _ M) as (Q1 & Q2 & Q3).
  destruct (follows_fc _ _ _ M) as (r & Efol & Hr & Lf).
  (* continuing with the next candidate *)
  assert (Next : forall j rem tk, rem_of (s_iter s) = j :: rem -> rem = rem_of (S (s_iter s)) -> nth_error toks0 j = Some tk -> (F <= j)%nat \/ t_follow tk = true ->
     exists s' t, (let! (s, t) := sel_match a j s in
                   if (t =? 0)%Z then fetch_loop f a (sel_set_iter (S (s_iter s)) s) else Ret (sel_set_iter (S (s_iter s)) s) t) = Ret s' t /\
       m_sub (sc_mask (s_scope s)) (sc_mask (s_scope s')) /\
       ((t <> 0%Z /\ Mid s' (rem_of (s_iter s')) (acc ++ [t]) /\ (meas s' < meas s)%nat /\ s_key s' = Some key /\ (F <= s_iter s')%nat) \/
        (t = 0%Z /\ Mid s' [] acc /\ s_trig s' = []))).
  { intros j rem tk Er Er' Ht Hc.
    pose proof (rem_NoDup _ Hit) as ND. rewrite Er in ND, M.
    assert (Hlt : forall k, In k (j :: rem) -> (k < T0)%nat) by (intros k Hk; apply (rem_lt (s_iter s)); rewrite Er; exact Hk).
    destruct (candidate_at s j rem acc tk M K ND (fun k Hk => Hlt k (or_intror Hk)) (Hlt j (or_introl eq_refl)) Ht Hc) as (s1 & rt & E1 & M1 & (Ki & Kk & Km) & Lt).
    rewrite E1. cbn [bind]. rewrite Ki.
    assert (Ms : (meas (sel_set_iter (S (s_iter s)) s1) < meas s)%nat).
    { unfold meas. cbn [sel_set_iter s_iter s_trig]. rewrite Er, <- Er'. cbn [length]. lia. }
    destruct (Z.eqb_spec rt 0) as [->|Hrt].
    - unfold ptail in M1. cbn [Z.eqb] in M1. rewrite app_nil_r in M1.
      destruct (IH (sel_set_iter (S (s_iter s)) s1) acc) as (s' & t & E2 & Hsub & R).
      + lia.
      + cbn [sel_set_iter s_iter]. rewrite <- Er'. apply Mid_iter. exact M1.
      + cbn [sel_set_iter s_key]. rewrite Kk. exact K.
      + cbn [sel_set_iter s_iter]. lia.
      + exists s', t. split; [exact E2|]. split; [exact (m_sub_trans _ _ _ Km Hsub)|]. destruct R as [(R1 & R2 & R3 & R4 & R5)|R]; [left|right; exact R].
        split; [exact R1|]. split; [exact R2|]. split; [lia|]. split; assumption.
    - exists (sel_set_iter (S (s_iter s)) s1), rt. split; [reflexivity|]. split; [exact Km|]. left. split; [exact Hrt|].
      unfold ptail in M1. rewrite (proj2 (Z.eqb_neq rt 0) Hrt) in M1.
      split; [cbn [sel_set_iter s_iter]; rewrite <- Er'; apply Mid_iter; exact M1|]. split; [exact Ms|]. split; [cbn [sel_set_iter s_key]; rewrite Kk; exact K|]. cbn [sel_set_iter s_iter]. lia. }
  cbn [fetch_loop]. rewrite Q1, Q2, Q3.
  destruct (Nat.ltb_spec (s_iter s) T0) as [Hlt|Hge].
  - destruct (nth_error toks0 (s_iter s)) as [tk|] eqn:Ht; [|apply nth_error_None in Ht; unfold PathRun5.T0 in Hlt; lia].
    apply (Next (s_iter s) (rem_of (S (s_iter s))) tk); auto.
    unfold rem_of. replace (Nat.ltb (s_iter s) T0) with true by lia.
    replace (T0 - s_iter s)%nat with (S (T0 - S (s_iter s))) by lia. cbn [seq app]. f_equal.
    destruct (Nat.ltb_spec (S (s_iter s)) T0); [reflexivity|]. replace (T0 - S (s_iter s))%nat with O by lia. replace (S (s_iter s) - T0)%nat with O by lia. reflexivity.
  - (* triggers *)
    assert (Trig : rem_of (s_iter s) = [] -> exists s' t,
       match s_trig s with t :: q => if (t =? 0)%Z then fetch_loop f a (sel_set_trig q s) else Ret (sel_set_trig q s) t | [] => Ret (sel_no_key s) 0%Z end = Ret s' t /\
       m_sub (sc_mask (s_scope s)) (sc_mask (s_scope s')) /\
       ((t <> 0%Z /\ Mid s' (rem_of (s_iter s')) (acc ++ [t]) /\ (meas s' < meas s)%nat /\ s_key s' = Some key /\ (F <= s_iter s')%nat) \/
        (t = 0%Z /\ Mid s' [] acc /\ s_trig s' = []))).
    { intro Er. pose proof (md_trig _ _ _ _ _ _ _ _ _ _ _ _ _ _ _ _ _ M) as Nz. destruct (s_trig s) as [|t q] eqn:Et.
      - exists (sel_no_key s), 0%Z. split; [reflexivity|]. split; [apply m_sub_refl|]. right. split; [reflexivity|]. split; [apply Mid_nokey; rewrite Er in M; exact M|exact Et].
      - assert (Ht : t <> 0%Z) by (inversion Nz; assumption). rewrite (proj2 (Z.eqb_neq t 0) Ht).
        exists (sel_set_trig q s), t. split; [reflexivity|]. split; [apply m_sub_refl|]. left. split; [exact Ht|]. split; [apply (Mid_pop s t q); assumption|].
        split; [unfold meas; cbn [sel_set_trig s_trig s_iter]; rewrite Et; cbn [length]; lia|]. split; assumption. }
    set (ii := (s_iter s - T0)%nat) in *.
    assert (Er : rem_of (s_iter s) = skipn ii fc) by (unfold rem_of; replace (Nat.ltb (s_iter s) T0) with false by lia; reflexivity).
    destruct (Nat.ltb_spec ii fx) as [Hii|Hii].
    + destruct (nth_error (s_follows s) ii) as [j|] eqn:Ej; [|apply nth_error_None in Ej; lia].
      destruct (Nat.ltb_spec ii (length fc)) as [Hl|Hl].
      * assert (Ej' : nth_error fc ii = Some j) by (rewrite Efol, nth_error_app1 in Ej by exact Hl; exact Ej).
        pose proof (nth_error_In _ _ Ej') as Hin. pose proof (fc_lt j Hin) as Hjf. replace (Nat.ltb j F) with true by lia.
        destruct (fc_follow j Hin) as (tk & Htk & Hfl).
        apply (Next j (rem_of (S (s_iter s))) tk); auto.
        rewrite Er, (skipn_nth _ _ _ Ej'). f_equal. unfold rem_of. replace (Nat.ltb (S (s_iter s)) T0) with false by lia. f_equal. unfold ii. lia.
      * rewrite Efol, nth_error_app2 in Ej by exact Hl. pose proof (Hr j (nth_error_In _ _ Ej)) as Hjf. replace (Nat.ltb j F) with false by lia.
        apply Trig. rewrite Er. apply skipn_all2. exact Hl.
    + apply Trig. rewrite Er. apply skipn_all2. destruct (follows_fc _ _ _ M) as (r' & E' & _).
      assert (length fc <= fx)%nat; [|lia]. rewrite Hfx. unfold fc. rewrite <- (firstn_skipn F toks0) at 2. rewrite fidx_app, app_length. lia.
Qed.

Lemma fetch_all_spec ff : forall f s acc, (meas s < f)%nat -> (meas s < ff)%nat -> m_matches (sc_mask (s_scope s)) e = true ->
  Mid s (rem_of (s_iter s)) acc -> s_key s = Some key -> (F <= s_iter s)%nat ->
  exists s' out, fetch_all f ff a s = Ret s' out /\ Mid s' [] (acc ++ out) /\ s_trig s' = [].
Proof.
  induction f as [|f IH]; intros s acc Hm Hmf G M K Hit; [lia|].
  cbn [fetch_all]. unfold sel_fetch. rewrite (md_type _ _ _ _ _ _ _ _ _ _ _ _ _ _ _ _ _ M), G.
  destruct (fetch_loop_spec ff s acc Hmf M K Hit) as (s1 & t & E & Hsub & [(R1 & R2 & R3 & R4 & R5)|(R1 & R2 & R3)]); rewrite E; cbn [bind].
  - rewrite (proj2 (Z.eqb_neq t 0) R1). destruct (IH s1 (acc ++ [t])) as (s2 & out & E2 & M2 & T2); try lia; auto.
    rewrite E2. cbn [bind]. exists s2, (t :: out). split; [reflexivity|]. split; [|exact T2]. rewrite <- app_assoc in M2. exact M2.
  - subst t. cbn [Z.eqb]. exists s1, []. rewrite app_nil_r. split; [reflexivity|]. split; assumption.
Qed.
End Event.
