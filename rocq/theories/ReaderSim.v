(** A TextScanner over a byte stream behaves as the ideal byte reader (proofs). *)
From Verif Require Import Base Iter CharMap CodePages Charset TextScanner Ideal.

Ltac Zify.zify_post_hook ::= Z.div_mod_to_equations.

(** ** lists *)
Lemma upd_length : forall {A} (l : list A) i x, length (upd i x l) = length l.
Proof. induction l as [|y l IH]; intros i x; destruct i; cbn [upd length]; auto. Qed.

Lemma nth_upd_same : forall {A} (l : list A) i x d, (i < length l)%nat -> nth i (upd i x l) d = x.
Proof.
  induction l as [|y l IH]; intros i x d H; cbn [length] in H; [lia|].
  destruct i; cbn [upd nth]; auto. apply IH; lia.
Qed.

Lemma nth_upd_other : forall {A} (l : list A) i j x d, i <> j -> nth j (upd i x l) d = nth j l d.
Proof.
  induction l as [|y l IH]; intros i j x d H; destruct i, j; cbn [upd nth]; auto; try lia.
Qed.

Lemma skipn_S_tl : forall {A} n (l : list A), skipn (S n) l = tl (skipn n l).
Proof. induction n as [|n IH]; destruct l; cbn [skipn tl]; auto. rewrite <- IH. destruct l; auto. Qed.

Lemma nth_skipn : forall {A} n (l : list A) i d, nth i (skipn n l) d = nth (n + i) l d.
Proof. induction n as [|n IH]; intros l i d; destruct l; cbn [skipn nth plus]; auto; destruct i; auto. Qed.

Lemma skipn_skipn : forall {A} a b (l : list A), skipn a (skipn b l) = skipn (a + b) l.
Proof.
  intros A a b. revert a. induction b as [|b IH]; intros a l.
  - rewrite Nat.add_0_r. reflexivity.
  - destruct l as [|x l]; [destruct a; reflexivity|].
    rewrite Nat.add_succ_r. cbn [skipn]. apply IH.
Qed.

Lemma nth_firstn_lt : forall {A} n (l : list A) i d, (i < n)%nat -> nth i (firstn n l) d = nth i l d.
Proof.
  induction n as [|n IH]; intros l i d H; [lia|]. destruct l; cbn [firstn]; [destruct i; auto|].
  destruct i; cbn [nth]; auto. apply IH; lia.
Qed.

Lemma nth_repeat0 : forall n i, nth i (repeat 0 n) 0 = 0.
Proof. induction n; destruct i; cbn; auto. Qed.

Lemma nth_pad : forall n l i, (i < n)%nat -> nth i (pad n l) 0 = nb l i.
Proof.
  intros n l i H. unfold pad, nb. rewrite nth_firstn_lt by lia.
  destruct (Nat.lt_ge_cases i (length l)) as [H1|H1].
  - rewrite app_nth1 by lia. reflexivity.
  - rewrite app_nth2 by lia. rewrite nth_repeat0. symmetry. apply nth_overflow. lia.
Qed.

Lemma pad_length : forall n l, length (pad n l) = n.
Proof.
  intros n l. unfold pad. rewrite firstn_length, app_length, repeat_length. lia.
Qed.

Lemma nb_ge : forall l i, (length l <= i)%nat -> nb l i = 0.
Proof. intros. apply nth_overflow. lia. Qed.

Lemma nb_byte : forall l i, Forall isByte l -> nb l i < 256.
Proof.
  intros l i H. unfold nb. destruct (Nat.lt_ge_cases i (length l)) as [H1|H1].
  - rewrite Forall_forall in H. apply H. apply nth_In; lia.
  - rewrite nth_overflow by lia. lia.
Qed.

Lemma firstn_ext : forall {A} n (a b : list A) d,
  (n <= length a)%nat -> (n <= length b)%nat ->
  (forall i, (i < n)%nat -> nth i a d = nth i b d) -> firstn n a = firstn n b.
Proof.
  intros A n; induction n as [|n IH]; intros a b d Ha Hb H; [reflexivity|].
  destruct a as [|x a]; [cbn in Ha; lia|]. destruct b as [|y b]; [cbn in Hb; lia|].
  cbn [firstn]. f_equal.
  - apply (H 0%nat). lia.
  - apply (IH a b d); cbn in Ha, Hb; try lia.
    intros i Hi. apply (H (S i)). lia.
Qed.

(** ** the buffered part of a character *)
Record rrel (l : list N) (m : endmode) (p : N) (k : nat) (r : rd stream) : Prop := mkRrel {
  rr_len : length (rbuf r) = 8%nat;
  rr_pos : rpos r = k;
  rr_rest : rest (rit r) = skipn k l;
  rr_mode : emode (rit r) = m;
  rr_spos : spos (rit r) = p + N.of_nat k;
  rr_buf : forall j, (j < k)%nat -> nth j (rbuf r) 0 = nb l j;
  rr_end : m = EndZero \/ (k <= length l)%nat
}.

Lemma fetch1_spec : forall l m p k r, rrel l m p k r -> (k < 8)%nat ->
  ((m = EndZero \/ (k < length l)%nat) /\
     exists r', fetch1 stream_ops r = Ret r' tt /\ rrel l m p (S k) r')
  \/ (m = EndJump /\ k = length l /\ fetch1 stream_ops r = Jump r)
  \/ (m = EndUndef /\ k = length l /\ fetch1 stream_ops r = Undef).
Proof.
  intros l m p k r [Hlen Hpos Hrest Hmode Hspos Hbuf Hend] Hk.
  unfold fetch1. cbn [deref incr stream_ops]. unfold stream_deref.
  assert (Hstep : forall b, nb l k = b -> (m = EndZero \/ (k < length l)%nat) ->
     exists r', (if Nat.ltb (rpos r) 8
      then let r1 := mkRdr (upd (rpos r) b (rbuf r)) (rpos r) (rit r) in
           let! (r2, u) := omap (rd_it r1) (stream_incr (rit r)) in
           Ret (mkRdr (rbuf r2) (S (rpos r2)) (rit r2)) tt
      else Undef) = Ret r' tt /\ rrel l m p (S k) r').
  { intros b Hb Hok. rewrite Hpos. destruct (Nat.ltb_spec k 8) as [_|]; [|lia].
    eexists. split; [reflexivity|].
    constructor; cbn [rbuf rpos rit rd_it rest emode spos].
    - rewrite upd_length. assumption.
    - reflexivity.
    - rewrite skipn_S_tl, Hrest. reflexivity.
    - assumption.
    - rewrite Hspos. lia.
    - intros j Hj. destruct (Nat.eq_dec j k) as [->|Hne].
      + rewrite nth_upd_same by lia. auto.
      + rewrite nth_upd_other by lia. apply Hbuf. lia.
    - destruct Hok; [left|right]; auto. }
  destruct (rest (rit r)) as [|b t] eqn:E.
  - assert (Hl : (length l <= k)%nat).
    { destruct (Nat.le_gt_cases (length l) k) as [|Hc]; auto.
      assert (length (skipn k l) = 0%nat) by (rewrite <- Hrest; reflexivity).
      rewrite skipn_length in *. lia. }
    rewrite Hmode. destruct m eqn:Em.
    + left. split; [auto|]. apply Hstep; auto. apply nb_ge; lia.
    + right; left. destruct Hend as [Hend|Hend]; [discriminate|].
      repeat split; auto; try lia. destruct r; reflexivity.
    + right; right. destruct Hend as [Hend|Hend]; [discriminate|].
      repeat split; auto; lia.
  - assert (Hl : (k < length l)%nat).
    { destruct (Nat.lt_ge_cases k (length l)) as [|Hc]; auto.
      rewrite skipn_all2 in Hrest by lia. discriminate. }
    left. split; [auto|]. apply Hstep; auto.
    unfold nb. replace k with (k + 0)%nat by lia. rewrite <- nth_skipn, <- Hrest. reflexivity.
Qed.

(** [n] bytes can be delivered *)
Definition ready (m : endmode) (n : nat) (l : list N) : bool :=
  Nat.leb n (length l) || match m with EndZero => true | _ => false end.

Lemma ready_spec : forall m n l, ready m n l = true <-> (m = EndZero \/ (n <= length l)%nat).
Proof.
  intros m n l. unfold ready. rewrite orb_true_iff, Nat.leb_le.
  destruct m; split; intros [H|H]; auto; discriminate.
Qed.

(** the outcome of an operation that needs [n] bytes *)
Definition onneed {A} (l : list N) (m : endmode) (p : N) (n : nat)
  (x : out (rd stream) A) (post : rd stream -> A -> Prop) : Prop :=
  if ready m n l then exists r' a, x = Ret r' a /\ post r' a
  else match m with
       | EndJump => exists r', x = Jump r' /\ rrel l m p (length l) r' /\ (length l < n)%nat
       | _ => x = Undef
       end.

Lemma repeatM_fetch : forall n l m p k r, rrel l m p k r -> (k + n <= 8)%nat ->
  onneed l m p (k + n) (repeatM n (fetch1 stream_ops) r) (fun r' _ => rrel l m p (k + n) r').
Proof.
  induction n as [|n IH]; intros l m p k r Hr Hn.
  - unfold onneed. cbn [repeatM]. replace (k + 0)%nat with k by lia.
    assert (Hrd : ready m k l = true) by (apply ready_spec; apply (rr_end _ _ _ _ _ Hr)).
    rewrite Hrd. exists r, tt. auto.
  - cbn [repeatM]. destruct (fetch1_spec l m p k r Hr) as [[Hok [r' [E Hr']]]|[[Em [Ek E]]|[Em [Ek E]]]]; [lia| | |].
    + rewrite E. cbn [bind]. replace (k + S n)%nat with (S k + n)%nat by lia. apply IH; auto. lia.
    + rewrite E. unfold onneed. 
      assert (Hrd : ready m (k + S n) l = false).
      { destruct (ready m (k + S n) l) eqn:R; auto. apply ready_spec in R. destruct R as [R|R]; [congruence|lia]. }
      rewrite Hrd, Em. cbn [bind]. exists r. split; [reflexivity|]. split; [|lia].
      rewrite Em in Hr. rewrite <- Ek. exact Hr.
    + rewrite E. unfold onneed.
      assert (Hrd : ready m (k + S n) l = false).
      { destruct (ready m (k + S n) l) eqn:R; auto. apply ready_spec in R. destruct R as [R|R]; [congruence|lia]. }
      rewrite Hrd, Em. reflexivity.
Qed.

Lemma fill_spec : forall n l m p k r, rrel l m p k r -> (k <= n <= 8)%nat ->
  onneed l m p n (fill stream_ops n r) (fun r' _ => rrel l m p n r').
Proof.
  intros n l m p k r Hr Hn. unfold fill. rewrite (rr_pos _ _ _ _ _ Hr).
  pose proof (repeatM_fetch (n - k) l m p k r Hr) as H.
  replace (k + (n - k))%nat with n in H by lia. apply H. lia.
Qed.

(** after advance, with the buffer reset *)
Definition reset (r : rd stream) : rd stream := mkRdr (rbuf r) 0 (rit r).

Lemma repeatM_skip : forall n r,
  exists r', repeatM n (skip1 stream_ops) r = Ret r' tt /\ rbuf r' = rbuf r
    /\ rest (rit r') = skipn n (rest (rit r)) /\ emode (rit r') = emode (rit r)
    /\ spos (rit r') = spos (rit r) + N.of_nat n.
Proof.
  induction n as [|n IH]; intros r.
  - exists r. cbn [repeatM skipn]. repeat split; auto. lia.
  - cbn [repeatM]. unfold skip1 at 1. cbn [incr stream_ops omap bind stream_incr].
    edestruct IH as [r' [E [Hb [Hr [Hm Hp]]]]]. rewrite E. exists r'.
    cbn [rbuf rpos rit rd_it rest emode spos] in *. repeat split; auto.
    + rewrite Hr. destruct (rest (rit r)); cbn [tl skipn]; auto. destruct n; auto.
    + rewrite Hp. lia.
Qed.

Lemma advance_spec : forall n l m p k r, rrel l m p k r -> (k <= n)%nat ->
  exists r', advance stream_ops n r = Ret r' tt /\
    rrel (skipn n l) m (p + N.of_nat n) 0 (reset r').
Proof.
  intros n l m p k r [Hlen Hpos Hrest Hmode Hspos Hbuf Hend] Hn.
  unfold advance. rewrite Hpos.
  destruct (repeatM_skip (n - k) r) as [r' [E [Hb [Hr [Hm Hp]]]]].
  exists r'. split; [exact E|].
  constructor; unfold reset; cbn [rbuf rpos rit].
  - congruence.
  - reflexivity.
  - rewrite Hr, Hrest. cbn [skipn]. rewrite skipn_skipn.
    replace (n - k + k)%nat with n by lia. reflexivity.
  - congruence.
  - rewrite Hp, Hspos. lia.
  - intros j Hj. lia.
  - right. lia.
Qed.

(** ** sequencing *)
Lemma onneed_bind : forall {A B} l m p n n2 (x : out (rd stream) A)
   (f : rd stream -> A -> out (rd stream) B) post post2,
  onneed l m p n x post -> (n <= n2)%nat ->
  (forall r a, post r a -> onneed l m p n2 (f r a) post2) ->
  onneed l m p n2 (bind x f) post2.
Proof.
  intros A B l m p n n2 x f post post2 H Hn Hf. unfold onneed in H.
  destruct (ready m n l) eqn:R.
  - destruct H as [r' [a [E Hp]]]. rewrite E. cbn [bind]. apply Hf, Hp.
  - unfold onneed.
    assert (R2 : ready m n2 l = false).
    { destruct (ready m n2 l) eqn:R2; auto.
      assert (ready m n l = true); [|congruence].
      apply ready_spec in R2. apply ready_spec. destruct R2; [auto|right;lia]. }
    rewrite R2. destruct m.
    + unfold ready in R. rewrite orb_true_r in R. discriminate.
    + destruct H as [r' [E [Hr Hl]]]. rewrite E. exists r'. split; [reflexivity|]. split; [auto|lia].
    + rewrite H. reflexivity.
Qed.

Lemma onneed_ret : forall {A} l m p n (r : rd stream) (a : A) (post : rd stream -> A -> Prop),
  (m = EndZero \/ (n <= length l)%nat) -> post r a -> onneed l m p n (Ret r a) post.
Proof.
  intros A l m p n r a post H Hp. unfold onneed.
  apply ready_spec in H. rewrite H. exists r, a. auto.
Qed.

Lemma onneed_mono : forall {A} l m p n (x : out (rd stream) A) (post post2 : rd stream -> A -> Prop),
  onneed l m p n x post -> (forall r a, post r a -> post2 r a) -> onneed l m p n x post2.
Proof.
  intros A l m p n x post post2 H Hi. unfold onneed in *. destruct (ready m n l); auto.
  destruct H as [r' [a [E Hp]]]. exists r', a. auto.
Qed.

(** a bound that is not reached without the smaller one being reached *)
Lemma onneed_same : forall {A} l m p n n2 (x : out (rd stream) A) post,
  onneed l m p n x post -> ready m n l = ready m n2 l -> (n <= n2)%nat -> onneed l m p n2 x post.
Proof.
  intros A l m p n n2 x post H Hr Hn. unfold onneed in *. rewrite <- Hr.
  destruct (ready m n l); auto. destruct m; auto.
  destruct H as [r' [E [H1 H2]]]. exists r'. split; [auto|]. split; [auto|lia].
Qed.

Lemma ready_le : forall m n n2 l, ready m n l = true -> (n2 <= n)%nat -> ready m n2 l = true.
Proof. intros m n n2 l H Hn. apply ready_spec in H. apply ready_spec. destruct H; [auto|right;lia]. Qed.

Lemma rr_at : forall l m p k r i, rrel l m p k r -> (i < k)%nat -> bufat r i = nb l i.
Proof. intros l m p k r i H Hi. unfold bufat. apply (rr_buf _ _ _ _ _ H). auto. Qed.

(** ** UTF8 *)
Lemma utf8LengthTab_get : forall b, b < 256 ->
  cm_get utf8LengthTab b = Some (nth (N.to_nat b) utf8LengthTab 0).
Proof.
  intros b H. unfold cm_get. apply nth_error_nth'.
  replace (length utf8LengthTab) with 256%nat by reflexivity. lia.
Qed.

Lemma utf8Length_le8 : forall b, nth b utf8LengthTab 0 <= 8.
Proof.
  intros b.
  assert (H : forallb (fun x => x <=? 8) utf8LengthTab = true) by (vm_compute; reflexivity).
  rewrite forallb_forall in H.
  destruct (Nat.lt_ge_cases b (length utf8LengthTab)) as [H1|H1].
  - apply N.leb_le, H, nth_In, H1.
  - rewrite nth_overflow by lia. lia.
Qed.

Definition ulen (l : list N) : nat := N.to_nat (nth (N.to_nat (nb l 0)) utf8LengthTab 0).

Lemma ulen_le8 : forall l, (ulen l <= 8)%nat.
Proof. intros l. unfold ulen. pose proof (utf8Length_le8 (N.to_nat (nb l 0))). lia. Qed.

Lemma clen_utf8 : forall l, clen UTF8 l = Nat.max 1 (ulen l).
Proof. reflexivity. Qed.

Lemma utf8_first_spec : forall l m p k r, rrel l m p k r -> (k <= 8)%nat ->
  onneed l m p 1 (utf8_first stream_ops r) (fun r' _ => rrel l m p (Nat.max 1 k) r').
Proof.
  intros l m p k r Hr Hk. unfold utf8_first. rewrite (rr_pos _ _ _ _ _ Hr).
  destruct (Nat.eqb_spec k 0) as [->|Hne].
  - pose proof (repeatM_fetch 1 l m p 0 r Hr) as H. cbn [repeatM plus] in H.
    replace (Nat.max 1 0) with 1%nat by lia.
    specialize (H ltac:(lia)).
    assert (Hb : (let! (r', u) := fetch1 stream_ops r in Ret r' tt) = fetch1 stream_ops r).
    { destruct (fetch1 stream_ops r) as [s []| | | |]; reflexivity. }
    rewrite Hb in H. exact H.
  - replace (Nat.max 1 k) with k by lia. apply onneed_ret; [|exact Hr].
    destruct (rr_end _ _ _ _ _ Hr); [auto|right;lia].
Qed.

Lemma utf8_size_spec : forall l m p k r, rrel l m p k r -> (k <= 8)%nat -> Forall isByte l ->
  onneed l m p 1 (utf8_size stream_ops r)
    (fun r' n => rrel l m p (Nat.max 1 k) r' /\ n = ulen l).
Proof.
  intros l m p k r Hr Hk Hl. unfold utf8_size.
  eapply onneed_bind; [apply utf8_first_spec; eauto|lia|].
  intros r1 u1 H1. cbn beta in H1. rewrite (rr_at _ _ _ _ _ 0%nat H1) by lia.
  rewrite utf8LengthTab_get by (apply nb_byte; auto).
  apply onneed_ret; [|auto].
  destruct (rr_end _ _ _ _ _ H1); [auto|right;lia].
Qed.

Lemma utf8_fetch_spec : forall l m p k r, rrel l m p k r -> (k <= clen UTF8 l)%nat -> Forall isByte l ->
  onneed l m p (clen UTF8 l) (utf8_fetch stream_ops r) (fun r' _ => rrel l m p (clen UTF8 l) r').
Proof.
  intros l m p k r Hr Hk Hl. pose proof (ulen_le8 l) as H8. rewrite clen_utf8 in *. unfold utf8_fetch.
  eapply onneed_bind; [eapply utf8_first_spec; [eassumption|lia]|lia|].
  intros r1 u1 H1. cbn beta in H1.
  eapply onneed_bind; [eapply utf8_size_spec; [eassumption|lia|assumption]|lia|].
  intros r2 n [H2 ->].
  destruct (Nat.le_gt_cases (Nat.max 1 (Nat.max 1 k)) (ulen l)) as [Hc|Hc].
  - replace (Nat.max 1 (ulen l)) with (ulen l) by lia.
    eapply fill_spec; [eassumption|lia].
  - assert (E : fill stream_ops (ulen l) r2 = Ret r2 tt).
    { unfold fill. rewrite (rr_pos _ _ _ _ _ H2).
      replace (ulen l - Nat.max 1 (Nat.max 1 k))%nat with 0%nat by lia. reflexivity. }
    rewrite E. replace (Nat.max 1 (ulen l)) with (Nat.max 1 (Nat.max 1 k)) by lia.
    apply onneed_ret; [|exact H2]. apply (rr_end _ _ _ _ _ H2).
Qed.

Lemma bufs_agree : forall l m p k r n, rrel l m p k r -> (n <= k <= 8)%nat ->
  forall i, (i < n)%nat -> nth i (rbuf r) 0 = nth i (pad 8 l) 0.
Proof.
  intros l m p k r n H Hn i Hi. rewrite nth_pad by lia. apply (rr_buf _ _ _ _ _ H). lia.
Qed.

Lemma utf8_value_of_ext : forall a b n, length a = 8%nat -> length b = 8%nat -> (1 <= n <= 8)%nat ->
  (forall i, (i < n)%nat -> nth i a 0 = nth i b 0) -> utf8_value_of a n = utf8_value_of b n.
Proof.
  intros a b n Ha Hb Hn H. unfold utf8_value_of. rewrite (H 0%nat) by lia.
  destruct (127 <? nth 0 b 0); auto. destruct (Nat.ltb_spec n 2); auto.
  f_equal. destruct a as [|x a]; [discriminate|]. destruct b as [|y b]; [discriminate|].
  cbn [tl]. cbn [length] in *. apply (firstn_ext (n-1) a b 0); try lia.
  intros i Hi. apply (H (S i)). lia.
Qed.

Lemma utf8_value_spec : forall l m p k r, rrel l m p k r -> (k <= clen UTF8 l)%nat -> Forall isByte l ->
  onneed l m p (clen UTF8 l) (utf8_value stream_ops r)
    (fun r' v => rrel l m p (clen UTF8 l) r' /\ v = cval UTF8 l).
Proof.
  intros l m p k r Hr Hk Hl. unfold utf8_value. pose proof (ulen_le8 l) as H8.
  eapply onneed_bind; [eapply utf8_fetch_spec; eauto|lia|].
  intros r1 u1 H1. cbn beta in H1. apply onneed_ret; [apply (rr_end _ _ _ _ _ H1)|].
  split; auto. rewrite (rr_pos _ _ _ _ _ H1). cbn [cval].
  apply utf8_value_of_ext.
  - apply (rr_len _ _ _ _ _ H1).
  - apply pad_length.
  - rewrite clen_utf8. lia.
  - intros i Hi. rewrite nth_pad by (rewrite clen_utf8 in Hi; lia).
    apply (rr_buf _ _ _ _ _ H1); auto.
Qed.

Lemma utf8_ascii_spec : forall l m p k r, rrel l m p k r -> (k <= clen UTF8 l)%nat ->
  onneed l m p 1 (utf8_ascii stream_ops r)
    (fun r' v => rrel l m p (Nat.max 1 k) r' /\ v = casc UTF8 l).
Proof.
  intros l m p k r Hr Hk. unfold utf8_ascii. pose proof (ulen_le8 l) as H8. rewrite clen_utf8 in Hk.
  eapply onneed_bind; [eapply utf8_first_spec; [eassumption|lia]|lia|].
  intros r1 u1 H1. cbn beta in H1. apply onneed_ret.
  - destruct (rr_end _ _ _ _ _ H1); [auto|right;lia].
  - split; auto. cbn [casc]. rewrite (rr_at _ _ _ _ _ 0%nat H1) by lia. reflexivity.
Qed.

Lemma utf8_skip_spec : forall l m p k r, rrel l m p k r -> (k <= clen UTF8 l)%nat -> Forall isByte l ->
  onneed l m p 1 (utf8_skip stream_ops r)
    (fun r' _ => rrel (skipn (clen UTF8 l) l) m (p + N.of_nat (clen UTF8 l)) 0 (reset r')).
Proof.
  intros l m p k r Hr Hk Hl. unfold utf8_skip. pose proof (ulen_le8 l) as H8. rewrite clen_utf8 in *.
  eapply onneed_bind; [eapply utf8_size_spec; [eassumption|lia|assumption]|lia|].
  intros r1 n [H1 ->].
  assert (Hr1 : m = EndZero \/ (1 <= length l)%nat) by (destruct (rr_end _ _ _ _ _ H1); [auto|right;lia]).
  destruct (Nat.le_gt_cases (Nat.max 1 k) (ulen l)) as [Hc|Hc].
  - destruct (advance_spec (ulen l) l m p _ r1 H1 Hc) as [r' [E H']].
    rewrite E. apply onneed_ret; auto. replace (Nat.max 1 (ulen l)) with (ulen l) by lia. exact H'.
  - destruct (advance_spec (Nat.max 1 k) l m p _ r1 H1 ltac:(lia)) as [r' [E H']].
    assert (E2 : advance stream_ops (ulen l) r1 = Ret r1 tt).
    { unfold advance. rewrite (rr_pos _ _ _ _ _ H1).
      replace (ulen l - Nat.max 1 k)%nat with 0%nat by lia. reflexivity. }
    assert (E3 : advance stream_ops (Nat.max 1 k) r1 = Ret r1 tt).
    { unfold advance. rewrite (rr_pos _ _ _ _ _ H1).
      replace (Nat.max 1 k - Nat.max 1 k)%nat with 0%nat by lia. reflexivity. }
    rewrite E2. rewrite E in E3. injection E3 as ->.
    apply onneed_ret; auto. replace (Nat.max 1 (ulen l)) with (Nat.max 1 k) by lia. exact H'.
Qed.

(** ** UTF16 *)
Lemma utf16_size_of_24 : forall b, utf16_size_of b = 2%nat \/ utf16_size_of b = 4%nat.
Proof. intros b. unfold utf16_size_of. destruct (_ <? _); auto. Qed.

Lemma utf16_size_spec : forall be l m p k r, rrel l m p k r -> (k <= clen (UTF16 be) l)%nat ->
  onneed l m p 2 (utf16_size stream_ops be r)
    (fun r' n => rrel l m p (Nat.max 2 k) r' /\ n = clen (UTF16 be) l).
Proof.
  intros be l m p k r Hr Hk. cbn [clen] in Hk.
  pose proof (utf16_size_of_24 (nb l (msb be))) as H24. unfold utf16_size.
  assert (Hf : onneed l m p 2 (utf16_fetch stream_ops r) (fun r' _ => rrel l m p (Nat.max 2 k) r')).
  { unfold utf16_fetch. destruct (Nat.le_gt_cases k 2) as [Hc|Hc].
    - replace (Nat.max 2 k) with 2%nat by lia. eapply fill_spec; [eassumption|lia].
    - unfold fill. rewrite (rr_pos _ _ _ _ _ Hr). replace (2 - k)%nat with 0%nat by lia.
      cbn [repeatM]. apply onneed_ret.
      + destruct (rr_end _ _ _ _ _ Hr); [auto|right;lia].
      + replace (Nat.max 2 k) with k by lia. exact Hr. }
  eapply onneed_bind; [exact Hf|lia|].
  intros r1 u1 H1. cbn beta in H1. apply onneed_ret.
  - destruct (rr_end _ _ _ _ _ H1); [auto|right;lia].
  - split; auto. cbn [clen]. rewrite (rr_at _ _ _ _ _ (msb be) H1); [reflexivity|].
    destruct be; cbn [msb]; lia.
Qed.

Lemma utf16_value_of_ext : forall be a b n, (n = 2 \/ n = 4)%nat ->
  (forall i, (i < n)%nat -> nth i a 0 = nth i b 0) -> utf16_value_of be a n = utf16_value_of be b n.
Proof.
  intros be a b n Hn H. unfold utf16_value_of.
  rewrite (H (msb be)), (H (lsb be)) by (destruct be; cbn; lia).
  destruct (Nat.eqb_spec n 4) as [->|]; [|reflexivity].
  rewrite (H (2 + msb be)%nat), (H (2 + lsb be)%nat) by (destruct be; cbn; lia). reflexivity.
Qed.

Lemma utf16_value_spec : forall be l m p k r, rrel l m p k r -> (k <= clen (UTF16 be) l)%nat ->
  onneed l m p (clen (UTF16 be) l) (utf16_value stream_ops be r)
    (fun r' v => rrel l m p (clen (UTF16 be) l) r' /\ v = cval (UTF16 be) l).
Proof.
  intros be l m p k r Hr Hk. unfold utf16_value.
  pose proof (utf16_size_of_24 (nb l (msb be))) as H24.
  change (utf16_size_of (nb l (msb be))) with (clen (UTF16 be) l) in H24.
  eapply onneed_bind; [eapply utf16_size_spec; eauto|lia|].
  intros r1 n [H1 ->].
  assert (Hf : onneed l m p (clen (UTF16 be) l)
      (if Nat.eqb (clen (UTF16 be) l) 4 then fill stream_ops (clen (UTF16 be) l) r1 else Ret r1 tt)
      (fun r' _ => rrel l m p (clen (UTF16 be) l) r')).
  { destruct (Nat.eqb_spec (clen (UTF16 be) l) 4) as [E|E].
    - eapply fill_spec; [eassumption|lia].
    - replace (Nat.max 2 k) with (clen (UTF16 be) l) in H1 by lia.
      apply onneed_ret; [apply (rr_end _ _ _ _ _ H1)|exact H1]. }
  eapply onneed_bind; [exact Hf|lia|].
  intros r2 u2 H2. cbn beta in H2. apply onneed_ret; [apply (rr_end _ _ _ _ _ H2)|].
  split; auto. cbn [cval]. apply utf16_value_of_ext; auto.
  intros i Hi. rewrite nth_pad by lia. apply (rr_buf _ _ _ _ _ H2); auto.
Qed.

(** ** fixed width *)
Lemma fill2_spec : forall l m p k r n, rrel l m p k r -> (k <= n <= 8)%nat ->
  onneed l m p n (fill stream_ops n r) (fun r' _ => rrel l m p n r').
Proof. intros. eapply fill_spec; eauto. Qed.

Lemma ucs2_value_spec : forall be l m p k r, rrel l m p k r -> (k <= 2)%nat ->
  onneed l m p 2 (ucs2_value stream_ops be r)
    (fun r' v => rrel l m p 2 r' /\ v = cval (UCS2 be) l).
Proof.
  intros be l m p k r Hr Hk. unfold ucs2_value, ucs2_fetch.
  eapply onneed_bind; [eapply fill_spec; [eassumption|lia]|lia|].
  intros r1 u1 H1. cbn beta in H1. apply onneed_ret; [apply (rr_end _ _ _ _ _ H1)|].
  split; auto. cbn [cval]. unfold ucs2_value_of.
  rewrite !nth_pad by (destruct be; cbn; lia).
  rewrite !(rr_buf _ _ _ _ _ H1) by (destruct be; cbn; lia). reflexivity.
Qed.

Lemma ucs4_value_spec : forall be l m p k r, rrel l m p k r -> (k <= 4)%nat ->
  onneed l m p 4 (ucs4_value stream_ops be r)
    (fun r' v => rrel l m p 4 r' /\ v = cval (UCS4 be) l).
Proof.
  intros be l m p k r Hr Hk. unfold ucs4_value, ucs4_fetch.
  eapply onneed_bind; [eapply fill_spec; [eassumption|lia]|lia|].
  intros r1 u1 H1. cbn beta in H1. apply onneed_ret; [apply (rr_end _ _ _ _ _ H1)|].
  split; auto. cbn [cval]. unfold ucs4_value_of.
  rewrite !nth_pad by (destruct be; cbn; lia).
  rewrite !(rr_buf _ _ _ _ _ H1) by (destruct be; cbn; lia). reflexivity.
Qed.

Lemma codePage_length : forall p, (1 <=? p) && (p <=? 9) = true ->
  exists cd, codePage p = Some cd /\ length cd = 128%nat.
Proof.
  intros p H.
  assert (Hp : p = 1 \/ p = 2 \/ p = 3 \/ p = 4 \/ p = 5 \/ p = 6 \/ p = 7 \/ p = 8 \/ p = 9) by lia.
  decompose [or] Hp; subst; eexists; split; reflexivity.
Qed.

Lemma ucharcode_some : forall p b, (1 <=? p) && (p <=? 9) = true -> b < 256 ->
  exists v, ucharcode p b = Some v.
Proof.
  intros p b Hp Hb. unfold ucharcode. destruct (N.ltb_spec b 128) as [H|H]; [eauto|].
  destruct (codePage_length p Hp) as [cd [-> Hl]].
  destruct (nth_error cd (N.to_nat (b - 128))) as [v|] eqn:E; [eauto|].
  apply nth_error_None in E. lia.
Qed.

Lemma iso_value_spec : forall q l m p k r, cs_constructible (IsoLatin q) = true ->
  rrel l m p k r -> (k <= 1)%nat -> Forall isByte l ->
  onneed l m p 1 (iso_value stream_ops q r)
    (fun r' v => rrel l m p 1 r' /\ v = cval (IsoLatin q) l).
Proof.
  intros q l m p k r Hq Hr Hk Hl. unfold iso_value, iso_fetch.
  eapply onneed_bind; [eapply fill_spec; [eassumption|lia]|lia|].
  intros r1 u1 H1. cbn beta in H1. rewrite (rr_at _ _ _ _ _ 0%nat H1) by lia.
  destruct (ucharcode_some q (nb l 0) Hq) as [v E]; [apply nb_byte; auto|].
  rewrite E. apply onneed_ret; [apply (rr_end _ _ _ _ _ H1)|].
  split; auto. cbn [cval]. rewrite E. reflexivity.
Qed.

(** ** the operations of TextScanner *)
Lemma clen_bounds : forall cs l, (1 <= clen cs l <= 8)%nat.
Proof.
  intros cs l. destruct cs.
  - rewrite clen_utf8. pose proof (ulen_le8 l). lia.
  - cbn [clen]. destruct (utf16_size_of_24 (nb l (msb be))); lia.
  - cbn; lia.
  - cbn; lia.
  - cbn; lia.
Qed.

Lemma alen_le_clen : forall cs l, (1 <= alen cs l <= clen cs l)%nat.
Proof. intros cs l. pose proof (clen_bounds cs l). destruct cs; cbn [alen]; lia. Qed.

Section Ops.
Variable cs : charset.
Hypothesis Hcs : cs_constructible cs = true.

Lemma cs_value_spec : forall l m p k r, rrel l m p k r -> (k <= clen cs l)%nat -> Forall isByte l ->
  onneed l m p (clen cs l) (cs_value stream_ops cs r)
    (fun r' v => rrel l m p (clen cs l) r' /\ v = cval cs l).
Proof.
  intros l m p k r Hr Hk Hl. destruct cs; cbn [cs_value].
  - eapply utf8_value_spec; eauto.
  - eapply utf16_value_spec; eauto.
  - eapply ucs2_value_spec; eauto.
  - eapply ucs4_value_spec; eauto.
  - eapply iso_value_spec; eauto.
Qed.

Lemma cs_ascii_spec : forall l m p k r, rrel l m p k r -> (k <= clen cs l)%nat -> Forall isByte l ->
  onneed l m p (alen cs l) (cs_ascii stream_ops cs r)
    (fun r' v => rrel l m p (Nat.max (alen cs l) k) r' /\ v = casc cs l).
Proof.
  intros l m p k r Hr Hk Hl.
  assert (Hv := cs_value_spec l m p k r Hr Hk Hl).
  assert (Hmax : cs <> UTF8 -> Nat.max (alen cs l) k = clen cs l).
  { intros Hne. destruct cs; cbn [alen]; try congruence; lia. }
  destruct cs; cbn [cs_ascii cs_value] in *.
  - eapply utf8_ascii_spec; eauto.
  - rewrite Hmax by discriminate. unfold utf16_ascii.
    eapply onneed_bind; [exact Hv|cbn [alen]; lia|]. intros r1 v [H1 ->].
    apply onneed_ret; [apply (rr_end _ _ _ _ _ H1)|auto].
  - rewrite Hmax by discriminate. unfold ucs2_ascii.
    eapply onneed_bind; [exact Hv|cbn [alen]; lia|]. intros r1 v [H1 ->].
    apply onneed_ret; [apply (rr_end _ _ _ _ _ H1)|auto].
  - rewrite Hmax by discriminate. unfold ucs4_ascii.
    eapply onneed_bind; [exact Hv|cbn [alen]; lia|]. intros r1 v [H1 ->].
    apply onneed_ret; [apply (rr_end _ _ _ _ _ H1)|auto].
  - rewrite Hmax by discriminate. unfold iso_ascii, iso_fetch. cbn [clen alen] in *.
    eapply onneed_bind; [eapply fill_spec; [eassumption|lia]|lia|].
    intros r1 u1 H1. cbn beta in H1. apply onneed_ret; [apply (rr_end _ _ _ _ _ H1)|].
    split; auto. cbn [casc]. rewrite (rr_at _ _ _ _ _ 0%nat H1) by lia. reflexivity.
Qed.

(** after control() or ascii() *)
Lemma cs_skip_spec : forall l m p k r, rrel l m p k r -> (k <= clen cs l)%nat -> Forall isByte l ->
  (alen cs l <= k)%nat ->
  exists r', cs_skip stream_ops cs r = Ret r' tt /\
    rrel (skipn (clen cs l) l) m (p + N.of_nat (clen cs l)) 0 (reset r').
Proof.
  intros l m p k r Hr Hk Hl Ha.
  destruct cs; cbn [cs_skip].
  - pose proof (utf8_skip_spec l m p k r Hr Hk Hl) as H. unfold onneed in H.
    assert (R : ready m 1 l = true).
    { apply ready_spec. cbn [alen] in Ha. destruct (rr_end _ _ _ _ _ Hr); [auto|right;lia]. }
    rewrite R in H. destruct H as [r' [[] [E H']]]. eauto.
  - pose proof (utf16_size_spec be l m p k r Hr Hk) as H. unfold onneed in H. cbn [alen] in Ha.
    pose proof (utf16_size_of_24 (nb l (msb be))) as H24.
    change (utf16_size_of (nb l (msb be))) with (clen (UTF16 be) l) in H24.
    assert (R : ready m 2 l = true).
    { apply ready_spec. destruct (rr_end _ _ _ _ _ Hr); [auto|right;lia]. }
    rewrite R in H. destruct H as [r' [n [E [H' ->]]]].
    unfold utf16_skip. rewrite E. cbn [bind].
    eapply advance_spec; eauto. lia.
  - eapply advance_spec; eauto.
  - eapply advance_spec; eauto.
  - eapply advance_spec; eauto.
Qed.

(** at the end of the input null characters are read: skip() does not need a look at the character *)
Lemma cs_skip_spec0 : forall l p k r, rrel l EndZero p k r -> (k <= clen cs l)%nat -> Forall isByte l ->
  exists r', cs_skip stream_ops cs r = Ret r' tt /\
    rrel (skipn (clen cs l) l) EndZero (p + N.of_nat (clen cs l)) 0 (reset r').
Proof.
  intros l p k r Hr Hk Hl.
  destruct cs; cbn [cs_skip].
  - pose proof (utf8_skip_spec l _ p k r Hr Hk Hl) as H. unfold onneed in H.
    unfold ready in H. rewrite orb_true_r in H. destruct H as [r' [[] [E H']]]. eauto.
  - pose proof (utf16_size_spec be l _ p k r Hr Hk) as H. unfold onneed in H.
    pose proof (utf16_size_of_24 (nb l (msb be))) as H24.
    change (utf16_size_of (nb l (msb be))) with (clen (UTF16 be) l) in H24.
    unfold ready in H. rewrite orb_true_r in H. destruct H as [r' [n [E [H' ->]]]].
    unfold utf16_skip. rewrite E. cbn [bind].
    eapply advance_spec; eauto. lia.
  - eapply advance_spec; eauto.
  - eapply advance_spec; eauto.
  - eapply advance_spec; eauto.
Qed.

(** after control() or ascii() *)
Lemma cs_fetch_spec : forall l m p k r, rrel l m p k r -> (k <= clen cs l)%nat -> Forall isByte l ->
  (alen cs l <= k)%nat ->
  onneed l m p (clen cs l) (cs_fetch stream_ops cs r) (fun r' _ => rrel l m p (clen cs l) r').
Proof.
  intros l m p k r Hr Hk Hl Ha.
  destruct cs; cbn [cs_fetch alen] in *.
  - eapply utf8_fetch_spec; eauto.
  - assert (k = clen (UTF16 be) l) by lia. subst k.
    unfold utf16_fetch, fill. rewrite (rr_pos _ _ _ _ _ Hr).
    cbn [clen]. pose proof (utf16_size_of_24 (nb l (msb be))) as H24.
    replace (2 - utf16_size_of (nb l (msb be)))%nat with 0%nat by lia.
    cbn [repeatM]. apply onneed_ret; [apply (rr_end _ _ _ _ _ Hr)|exact Hr].
  - eapply fill_spec; [eassumption|cbn [clen] in *; lia].
  - eapply fill_spec; [eassumption|cbn [clen] in *; lia].
  - eapply fill_spec; [eassumption|cbn [clen] in *; lia].
Qed.

(** ** the relation of TextScanner and ideal reader *)
Definition trel (t : tscan stream) (r : ird) : Prop :=
  Forall isByte (ir_l r) /\
  exists k, rrel (ir_l r) (ir_m r) (ir_p r) k (ts_rd t) /\ (k <= clen cs (ir_l r))%nat /\
    (ts_val t = 0 \/ ts_val t = cval cs (ir_l r) /\ k = clen cs (ir_l r)).
Definition trelp (t : tscan stream) (r : ird) : Prop :=
  trel t r /\ (alen cs (ir_l r) <= rpos (ts_rd t))%nat.

(** interrupted at the end of the input *)
Definition trelj (t : tscan stream) (r : ird) : Prop :=
  trel t r /\ ir_m r = EndJump /\ rpos (ts_rd t) = length (ir_l r) /\ ts_val t = 0.

Lemma trel_jump : forall t r v n, trel t r -> (length (ir_l r) < n)%nat -> (n <= clen cs (ir_l r))%nat ->
  rrel (ir_l r) EndJump (ir_p r) (length (ir_l r)) v -> ts_val t = 0 -> ir_m r = EndJump ->
  trelj (mkTs v (ts_val t) (ts_cur t)) r.
Proof.
  intros t r v n [Hb _] H1 H2 Hr Hz Hm. split; [split; auto|].
  - exists (length (ir_l r)). cbn [ts_rd ts_val]. rewrite Hm.
    (split; [apply Hr|split]); try lia.
  - split; [exact Hm|]. cbn [ts_rd ts_val]. split; [apply (rr_pos _ _ _ _ _ Hr)|exact Hz].
Qed.

(** interrupted operations *)
Lemma need_jump : forall {A} t r n (x : out (rd stream) A) post (f : tscan stream -> A -> out (tscan stream) A)
   (a : A),
  trel t r -> onneed (ir_l r) (ir_m r) (ir_p r) n x post -> (n <= clen cs (ir_l r))%nat ->
  (ready (ir_m r) n (ir_l r) = false -> ts_val t = 0) ->
  (forall v b, post v b -> exists t', f (mkTs v (ts_val t) (ts_cur t)) b = Ret t' a /\ trelp t' r) ->
  orel trelp trelj (bind (ts_lift t x) f) (need n r a).
Proof.
  intros A t r n x post f a Ht Hx Hn Hz Hf. unfold onneed in Hx. unfold need.
  destruct (ready (ir_m r) n (ir_l r)) eqn:R.
  - destruct Hx as [v [b [-> Hp]]]. unfold ts_lift. cbn [omap bind].
    destruct (Hf v b Hp) as [t' [-> Ht']].
    unfold ready in R. destruct (Nat.leb n (length (ir_l r))).
    + constructor; auto.
    + cbn [orb] in R. destruct (ir_m r); try discriminate. constructor; auto.
  - unfold ready in R. apply orb_false_iff in R. destruct R as [R1 R2]. rewrite R1.
    destruct (ir_m r) eqn:Em; [discriminate| |].
    + destruct Hx as [v [-> [Hv Hl]]]. unfold ts_lift. cbn [omap bind].
      constructor. eapply trel_jump; eauto.
    + rewrite Hx. unfold ts_lift. cbn [omap bind]. constructor.
Qed.

Lemma trel_ready_val : forall t r n, trel t r -> (n <= clen cs (ir_l r))%nat ->
  ready (ir_m r) n (ir_l r) = false -> ts_val t = 0.
Proof.
  intros t r n [Hb [k [Hr [Hk Hv]]]] Hn R. destruct Hv as [Hv|[_ Hv]]; auto. subst k.
  pose proof (rr_end _ _ _ _ _ Hr) as He.
  assert (ready (ir_m r) n (ir_l r) = true); [|congruence].
  apply ready_spec. destruct He; [auto|right;lia].
Qed.

Lemma getcur_sim : forall {A} t r (f : tscan stream -> unit -> out (tscan stream) A) (a : A),
  trel t r ->
  (forall v k, rrel (ir_l r) (ir_m r) (ir_p r) k v ->
     (alen cs (ir_l r) <= k <= clen cs (ir_l r))%nat ->
     (ts_val t = 0 \/ ts_val t = cval cs (ir_l r) /\ k = clen cs (ir_l r)) ->
     exists t', f (mkTs v (ts_val t) (casc cs (ir_l r))) tt = Ret t' a /\ trelp t' r) ->
  orel trelp trelj (bind (ts_getcur stream_ops cs t) f) (need (alen cs (ir_l r)) r a).
Proof.
  intros A t r f a Ht Hf. assert (Ht0 := Ht). destruct Ht as [Hb [k [Hr [Hk Hv]]]].
  pose proof (alen_le_clen cs (ir_l r)) as Hac.
  pose proof (cs_ascii_spec _ _ _ _ _ Hr Hk Hb) as Hx.
  unfold onneed in Hx. unfold need, ts_getcur, ts_lift.
  destruct (ready (ir_m r) (alen cs (ir_l r)) (ir_l r)) eqn:R.
  - destruct Hx as [v [b [-> [Hp ->]]]]. cbn [omap bind ts_rd ts_val].
    destruct (Hf v _ Hp) as [t' [-> Ht']]; [lia| |].
    { destruct Hv as [Hv|[Hv ->]]; [left; auto|right]. split; auto. lia. }
    unfold ready in R. destruct (Nat.leb _ (length (ir_l r))).
    + constructor; auto.
    + cbn [orb] in R. destruct (ir_m r); try discriminate. constructor; auto.
  - assert (Hz := trel_ready_val t r _ Ht0 (proj2 Hac) R).
    unfold ready in R. apply orb_false_iff in R. destruct R as [R1 R2]. rewrite R1.
    destruct (ir_m r) eqn:Em; [discriminate| |].
    + destruct Hx as [v [-> [Hv' Hl]]]. cbn [omap bind].
      constructor. eapply trel_jump; eauto. lia.
    + rewrite Hx. cbn [omap bind]. constructor.
Qed.

Lemma controlCharMap_get : forall a, a < 256 -> cm_get controlCharMap a = Some (ctl_of a).
Proof.
  intros a H. unfold cm_get, ctl_of. apply nth_error_nth'.
  replace (length controlCharMap) with 256%nat by reflexivity. lia.
Qed.

Lemma casc_bound : forall l, casc cs l < 256.
Proof.
  intros l.
  assert (H : forall x, (if 127 <? x then 255 else x) < 256).
  { intros x. destruct (N.ltb_spec 127 x); lia. }
  destruct cs; cbn [casc]; unfold ascii_of; apply H.
Qed.

Theorem ts_rsim : rsim eq (ts_ops stream_ops cs) (ir_ops cs) trel trelp trelj.
Proof.
  constructor; cbn [r_control r_ascii r_chr r_raw r_skip r_pos ts_ops ir_ops].
  - intros r t [H _]. exact H.
  - intros t r Ht. unfold ts_control. apply getcur_sim; auto.
    intros v k Hr Hk Hv. cbn [ts_cur]. rewrite controlCharMap_get by apply casc_bound.
    eexists. split; [reflexivity|]. split.
    + split; [apply Ht|]. exists k. cbn [ts_rd ts_val]. (split; [apply Hr|split]); try lia; auto.
    + cbn [ts_rd]. rewrite (rr_pos _ _ _ _ _ Hr). lia.
  - intros t r Ht. unfold ts_ascii. apply getcur_sim; auto.
    intros v k Hr Hk Hv. cbn [ts_cur].
    eexists. split; [reflexivity|]. split.
    + split; [apply Ht|]. exists k. cbn [ts_rd ts_val]. (split; [apply Hr|split]); try lia; auto.
    + cbn [ts_rd]. rewrite (rr_pos _ _ _ _ _ Hr). lia.
  - intros t r Ht. unfold ts_chr. destruct (N.eqb_spec (ts_val t) 0) as [Hz|Hnz].
    + assert (Ht0 := Ht). destruct Ht as [Hb [k [Hr [Hk Hv]]]].
      eapply need_jump; eauto.
      * eapply cs_value_spec; eauto.
      * intros v b [Hrv ->]. eexists. split; [reflexivity|]. cbn [ts_rd ts_val ts_cur]. split.
        -- split; auto. exists (clen cs (ir_l r)). cbn [ts_rd ts_val].
           (split; [apply Hrv|split]); try lia; auto.
        -- cbn [ts_rd]. rewrite (rr_pos _ _ _ _ _ Hrv). pose proof (alen_le_clen cs (ir_l r)). lia.
    + assert (Ht0 := Ht). destruct Ht as [Hb [k [Hr [Hk Hv]]]]. destruct Hv as [Hv|[Hv Hk2]]; [congruence|].
      unfold need. rewrite Hv. pose proof (rr_end _ _ _ _ _ Hr) as He.
      assert (Hp : (alen cs (ir_l r) <= rpos (ts_rd t))%nat).
      { rewrite (rr_pos _ _ _ _ _ Hr), Hk2. apply alen_le_clen. }
      destruct (Nat.leb_spec (clen cs (ir_l r)) (length (ir_l r))) as [Hl|Hl].
      * constructor. split; auto.
      * destruct He as [He|He]; [|lia]. rewrite He. constructor. split; auto.
  - intros t r [Ht Hp]. unfold ts_raw. assert (Ht0 := Ht). destruct Ht as [Hb [k [Hr [Hk Hv]]]].
    rewrite (rr_pos _ _ _ _ _ Hr) in Hp.
    pose proof (cs_fetch_spec _ _ _ _ _ Hr Hk Hb Hp) as Hx.
    unfold onneed in Hx. unfold need, ts_lift.
    destruct (ready (ir_m r) (clen cs (ir_l r)) (ir_l r)) eqn:R.
    + destruct Hx as [v [[] [-> Hrv]]]. cbn [omap bind ts_rd ts_val].
      assert (Hraw : firstn (rpos v) (rbuf v) = pad (clen cs (ir_l r)) (ir_l r)).
      { rewrite (rr_pos _ _ _ _ _ Hrv). pose proof (clen_bounds cs (ir_l r)) as Hcb.
        rewrite <- (firstn_all (pad (clen cs (ir_l r)) (ir_l r))), pad_length.
        apply (firstn_ext _ _ _ 0).
        - rewrite (rr_len _ _ _ _ _ Hrv). lia.
        - rewrite pad_length. lia.
        - intros i Hi. rewrite nth_pad by lia. apply (rr_buf _ _ _ _ _ Hrv). lia. }
      rewrite Hraw.
      assert (Htp : trelp (mkTs v (ts_val t) (ts_cur t)) r).
      { split.
        - split; auto. exists (clen cs (ir_l r)). cbn [ts_rd ts_val].
          (split; [apply Hrv|split]); try lia; destruct Hv as [Hv|[Hv _]]; auto.
        - cbn [ts_rd]. rewrite (rr_pos _ _ _ _ _ Hrv). pose proof (alen_le_clen cs (ir_l r)). lia. }
      unfold ready in R. destruct (Nat.leb _ (length (ir_l r))).
      * constructor; auto.
      * cbn [orb] in R. destruct (ir_m r); try discriminate. constructor; auto.
    + assert (Hz := trel_ready_val t r _ Ht0 (le_n _) R).
      unfold ready in R. apply orb_false_iff in R. destruct R as [R1 R2]. rewrite R1.
      destruct (ir_m r) eqn:Em; [discriminate| |].
      * destruct Hx as [v [-> [Hv' Hl]]]. cbn [omap bind].
        constructor. eapply trel_jump; eauto.
      * rewrite Hx. cbn [omap bind]. constructor.
  - intros t r [Ht Hp]. unfold ts_skip, ts_lift. destruct Ht as [Hb [k [Hr [Hk Hv]]]].
    rewrite (rr_pos _ _ _ _ _ Hr) in Hp.
    destruct (cs_skip_spec _ _ _ _ _ Hr Hk Hb Hp) as [v [-> Hrv]]. cbn [omap bind ts_rd].
    assert (Hg : trel (mkTs (mkRdr (rbuf v) 0 (rit v)) 0 0) (ir_skipto (clen cs (ir_l r)) r)).
    { split.
      - cbn [ir_skipto ir_l]. rewrite Forall_forall in *. intros x Hx. apply Hb.
        rewrite <- (firstn_skipn (clen cs (ir_l r)) (ir_l r)). apply in_or_app. auto.
      - exists 0%nat. cbn [ts_rd ts_val ir_skipto ir_l ir_m ir_p]. (split; [apply Hrv|split]); try lia. }
    unfold need. destruct (Nat.leb_spec (alen cs (ir_l r)) (length (ir_l r))) as [Hl|Hl].
    + cbn [bind]. constructor. exact Hg.
    + destruct (rr_end _ _ _ _ _ Hr) as [He|He]; [|lia]. rewrite He. cbn [bind]. constructor. exact Hg.
  - intros t r [Hb [k [Hr [Hk Hv]]]]. unfold ts_position. cbn [ipos stream_ops].
    rewrite (rr_spos _ _ _ _ _ Hr), (rr_pos _ _ _ _ _ Hr). unfold sub64, u64.
    pose proof (clen_bounds cs (ir_l r)). 
    assert (N.of_nat k mod 2 ^ 64 = N.of_nat k) by (apply N.mod_small; lia).
    rewrite H0. lia.
Qed.

(** the initial state *)
Lemma ts_make_rel : forall l m p, Forall isByte l ->
  trel (ts_make (mkStream l m p)) (mkIr l m p).
Proof.
  intros l m p Hl. split; auto. exists 0%nat. cbn [ir_l ir_m ir_p ts_make ts_rd ts_val].
  repeat split; cbn [rbuf rpos rit rest emode spos skipn]; auto; try lia. 
Qed.

End Ops.
