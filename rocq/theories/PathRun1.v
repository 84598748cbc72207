(** The tokens of the selector and the paths they stand for: one token and one element. *)
From Coq Require Import Lia ZifyBool ZifyNat.
From Verif Require Import Base XmlScanner PathAtm PathSelect PathSpec PathTrie.

(** ** sums over tokens *)
Fixpoint wsum (g : nat -> tok -> nat) (n : nat) (l : list tok) : nat :=
  match l with [] => O | t :: l => (g n t + wsum g (S n) l)%nat end.
Lemma wsum_app g l' : forall l n, wsum g n (l ++ l') = (wsum g n l + wsum g (n + length l) l')%nat.
Proof.
  induction l as [|t l IH]; intro n; cbn [wsum app length].
  - rewrite Nat.add_0_r. reflexivity.
  - rewrite IH. rewrite Nat.add_succ_r, Nat.add_succ_l. lia.
Qed.
Lemma wsum_upd g t' : forall l n j t, nth_error l j = Some t ->
  (wsum g n (upd j t' l) + g (n + j)%nat t = wsum g n l + g (n + j)%nat t')%nat.
Proof.
  induction l as [|u l IH]; intros n j t H; destruct j; cbn [nth_error upd wsum] in *; try discriminate.
  - injection H as ->. rewrite Nat.add_0_r. lia.
  - specialize (IH (S n) j t H). rewrite <- Nat.add_succ_comm. lia.
Qed.
Lemma wsum_ext g h : forall l n, (forall k t, nth_error l k = Some t -> g (n + k)%nat t = h (n + k)%nat t) -> wsum g n l = wsum h n l.
Proof.
  induction l as [|u l IH]; intros n H; cbn [wsum]; [reflexivity|].
  rewrite (IH (S n)). 2:{ intros k t Hk. rewrite Nat.add_succ_comm. apply (H (S k)). exact Hk. }
  specialize (H O u eq_refl). rewrite Nat.add_0_r in H. rewrite H. reflexivity.
Qed.
Lemma wsum_0 g l n : (forall k t, nth_error l k = Some t -> g (n + k)%nat t = O) -> wsum g n l = O.
Proof.
  intro H. rewrite (wsum_ext g (fun _ _ => O)) by exact H. clear H. revert n. induction l; intro n; cbn; auto.
Qed.
Lemma wsum_firstn g l : forall m n, (forall k t, nth_error l k = Some t -> (m <= k)%nat -> g (n + k)%nat t = O) ->
  wsum g n (firstn m l) = wsum g n l.
Proof.
  intros m n H. rewrite <- (firstn_skipn m l) at 2. rewrite wsum_app.
  rewrite (wsum_0 _ (skipn m l)); [lia|]. intros k t Hk.
  assert (length (firstn m l) = m).
  { rewrite firstn_length. enough (m <= length l)%nat by lia. destruct (Nat.le_gt_cases m (length l)); [assumption|].
    rewrite skipn_all2 in Hk by lia. destruct k; discriminate. }
  rewrite H0, <- Nat.add_assoc. apply H; [|lia].
  rewrite <- (firstn_skipn m l). rewrite nth_error_app2 by lia. rewrite H0. replace (m + k - m)%nat with k by lia. exact Hk.
Qed.

(** ** indices of the follow tokens *)
Definition t_follow (t : tok) : bool := c_follow (t_core t).
Fixpoint fidx (n : nat) (l : list tok) : list nat :=
  match l with [] => [] | t :: l => if t_follow t then n :: fidx (S n) l else fidx (S n) l end.
Lemma fidx_app l' : forall l n, fidx n (l ++ l') = fidx n l ++ fidx (n + length l) l'.
Proof.
  induction l as [|t l IH]; intro n; cbn [fidx app length].
  - rewrite Nat.add_0_r. reflexivity.
  - rewrite IH. rewrite Nat.add_succ_r, Nat.add_succ_l. destruct (t_follow t); reflexivity.
Qed.
Lemma fidx_ext : forall l l' n, map t_follow l = map t_follow l' -> fidx n l = fidx n l'.
Proof.
  induction l as [|t l IH]; intros [|t' l'] n H; cbn [map fidx] in *; try discriminate; [reflexivity|].
  injection H as H1 H2. rewrite H1, (IH l' (S n) H2). reflexivity.
Qed.
Lemma fidx_In : forall l n k, In k (fidx n l) <-> exists t, (n <= k)%nat /\ nth_error l (k - n) = Some t /\ t_follow t = true.
Proof.
  induction l as [|t l IH]; intros n k; cbn [fidx].
  - split; [intros []|]. intros (t & _ & H & _). destruct (k - n)%nat; discriminate.
  - destruct (t_follow t) eqn:E.
    + cbn [In]. rewrite IH. split.
      * intros [->|(u & H1 & H2 & H3)].
        -- exists t. rewrite Nat.sub_diag. auto.
        -- exists u. replace (k - n)%nat with (S (k - S n)) by lia. cbn [nth_error]. split; [lia|auto].
      * intros (u & H1 & H2 & H3). destruct (Nat.eq_dec n k) as [->|Hn]; [left; reflexivity|right].
        exists u. replace (k - n)%nat with (S (k - S n)) in H2 by lia. cbn [nth_error] in H2. split; [lia|auto].
    + rewrite IH. split; intros (u & H1 & H2 & H3); exists u.
      * replace (k - n)%nat with (S (k - S n)) by lia. split; [lia|auto].
      * destruct (Nat.eq_dec n k) as [->|Hn]; [rewrite Nat.sub_diag in H2; cbn in H2; congruence|].
        replace (k - n)%nat with (S (k - S n)) in H2 by lia. cbn [nth_error] in H2. split; [lia|auto].
Qed.
Lemma fidx_NoDup : forall l n, NoDup (fidx n l).
Proof.
  induction l as [|t l IH]; intro n; cbn [fidx]; [constructor|].
  destruct (t_follow t); [|apply IH]. constructor; [|apply IH]. rewrite fidx_In. intros (u & H & _). lia.
Qed.
Lemma map_upd {A B} (f : A -> B) x : forall l i, (forall y, nth_error l i = Some y -> f x = f y) -> map f (upd i x l) = map f l.
Proof.
  induction l as [|y l IH]; intros [|i] H; cbn [upd map]; try reflexivity.
  - rewrite (H y eq_refl). reflexivity.
  - rewrite IH; [reflexivity|]. intros z Hz. apply H. exact Hz.
Qed.
Lemma nth_upd {A} (x : A) : forall l i j, nth_error (upd i x l) j = if (i =? j)%nat then (if nth_error l j then Some x else None) else nth_error l j.
Proof.
  induction l as [|y l IH]; intros [|i] [|j]; cbn [upd nth_error Nat.eqb]; try reflexivity.
  - destruct (_ =? _)%nat; reflexivity.
  - apply IH.
Qed.
Lemma upd_length {A} (x : A) : forall l i, length (upd i x l) = length l.
Proof. induction l as [|y l IH]; intros [|i]; cbn [upd length]; auto. Qed.
