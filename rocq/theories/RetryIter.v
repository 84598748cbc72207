(** Increments of a stream iterator repeated after failing reads (proofs). *)
From Coq Require Import Lia.
From Verif Require Import Base Iter Retry RetrySpec.

Definition data (reads : list rdres) : list N := concat (map rd_data reads).
Definition rest (i : istrm) : list N := skipn (N.to_nat (is_readpos i)) (is_buf i) ++ data (is_input i).
(** an iterator on a byte, or at the end of the stream *)
Record at_byte (n : nat) (total : nat) (i : istrm) : Prop := mkAtByte {
  ab_reads : Forall (flaky (is_bufsize i)) (is_input i);
  ab_fails : (failures (is_input i) <= n)%nat;
  ab_pos : (is_buf i = [] /\ is_readpos i = 0 /\ is_input i = []) \/ is_readpos i < N.of_nat (length (is_buf i));
  ab_total : is_abs i + is_readpos i + N.of_nat (length (rest i)) = N.of_nat total;
  ab_max : N.of_nat total < 2 ^ 64 }.
Lemma u64_small x : x < 2 ^ 64 -> u64 x = x.
Proof. intro H. unfold u64. apply N.mod_small. exact H. Qed.
Lemma retry_unfold {S A} n (op : S -> out S A) s : retry n op s = match op s with Throw s1 => match n with O => Throw s1 | Datatypes.S n1 => retry n1 op s1 end | x => x end.
Proof. destruct n; reflexivity. Qed.
Lemma skipn_tl {A} n (l : list A) : skipn (S n) l = tl (skipn n l).
Proof. revert l. induction n as [|n IH]; intros [|x l]; try reflexivity. cbn [skipn]. rewrite <- IH. destruct l; reflexivity. Qed.

Lemma retry_fill total N : forall reads n i, is_input i = reads -> N.of_nat (length (is_buf i)) <= is_readpos i + 1 -> Forall (flaky (is_bufsize i)) reads -> (failures reads <= n <= N)%nat ->
  is_abs i + N.of_nat (length (is_buf i)) + N.of_nat (length (data reads)) = N.of_nat total -> N.of_nat total < 2 ^ 64 ->
  exists i', retry n istrm_incr i = Ret i' tt /\ at_byte N total i' /\ rest i' = data reads.
Proof.
  induction reads as [|r reads IH]; intros n i EI L F Fn T M; rewrite retry_unfold; unfold istrm_incr; replace (_ <=? _) with true by (symmetry; apply N.leb_le; exact L); unfold istrm_fillbuf; rewrite EI; rewrite u64_small by lia.
  - cbn [data map concat length] in T. eexists. split; [reflexivity|]. split; [split; cbn; [constructor|lia|auto|lia|exact M]|reflexivity].
  - pose proof (Forall_inv F) as F1. pose proof (Forall_inv_tail F) as F2. unfold data in *. cbn [map concat] in *. rewrite app_length in T. unfold failures in *. cbn [filter] in Fn. destruct F1 as [[E1 E2]|(E1 & E2 & E3)]; rewrite E1 in *.
    + rewrite E2 in *. cbn [length app] in *. replace (is_bufsize i <? N.of_nat 0) with false by lia. destruct n as [|n]; [lia|].
      apply (IH n (mkIs reads [] (is_bufsize i) 0 (is_abs i + N.of_nat (length (is_buf i))))); cbn; [reflexivity|lia|exact F2|lia|lia|exact M].
    + replace (is_bufsize i <? N.of_nat (length (rd_data r))) with false by lia. eexists. split; [reflexivity|]. split; [|reflexivity].
      split; cbn [is_input is_buf is_readpos is_bufsize is_abs]; [exact F2|unfold failures; lia| | |exact M].
      * right. destruct (rd_data r); [congruence|cbn [length]; lia].
      * unfold rest. cbn [is_input is_buf is_readpos]. cbn [N.to_nat skipn]. rewrite app_length. unfold data. lia.
Qed.
Lemma retry_incr n total i : at_byte n total i -> exists i', retry n istrm_incr i = Ret i' tt /\ at_byte n total i' /\ rest i' = tl (rest i).
Proof.
  intros [F Fn P T M]. destruct (N.leb_spec (N.of_nat (length (is_buf i))) (is_readpos i + 1)) as [L|L].
  - assert (Q : skipn (N.to_nat (is_readpos i)) (is_buf i) = [] /\ is_buf i = [] /\ is_input i = [] /\ is_readpos i = 0 \/ exists x, skipn (N.to_nat (is_readpos i)) (is_buf i) = [x] /\ is_readpos i + 1 = N.of_nat (length (is_buf i))).
    { destruct P as [(P1 & P2 & P3)|P]; [left; rewrite P1, P2; auto|]. right. assert (E : length (skipn (N.to_nat (is_readpos i)) (is_buf i)) = 1%nat) by (rewrite skipn_length; lia).
      destruct (skipn (N.to_nat (is_readpos i)) (is_buf i)) as [|x [|]]; try discriminate E. exists x. split; [reflexivity|lia]. }
    unfold rest in T. rewrite app_length in T. destruct (retry_fill total n (is_input i) n i eq_refl L F) as (i' & E1 & E2 & E3); [lia| |exact M|].
    + destruct Q as [(Q & Q1 & Q2 & Q3)|(x & Q & Q1)]; rewrite Q in T; cbn [length] in T; [rewrite Q1; cbn [length]; lia|lia].
    + exists i'. split; [exact E1|]. split; [exact E2|]. rewrite E3. unfold rest. destruct Q as [(Q & Q1 & Q2 & Q3)|(x & Q & Q1)]; rewrite Q; [rewrite Q2; reflexivity|reflexivity].
  - rewrite retry_unfold. unfold istrm_incr. replace (_ <=? _) with false by lia. eexists. split; [reflexivity|].
    assert (R : rest (mkIs (is_input i) (is_buf i) (is_bufsize i) (is_readpos i + 1) (is_abs i)) = tl (rest i) /\ (0 < length (rest i))%nat).
    { unfold rest. cbn [is_input is_buf is_readpos]. replace (N.to_nat (is_readpos i + 1)) with (S (N.to_nat (is_readpos i))) by lia. rewrite skipn_tl.
      assert (E : (1 <= length (skipn (N.to_nat (is_readpos i)) (is_buf i)))%nat) by (rewrite skipn_length; lia). destruct (skipn (N.to_nat (is_readpos i)) (is_buf i)); [cbn in E; lia|]. split; [reflexivity|cbn; lia]. }
    destruct R as [R1 R2]. split; [|exact R1]. split; cbn [is_input is_buf is_readpos is_bufsize is_abs]; [exact F|exact Fn|right; lia| |exact M]. rewrite R1. destruct (rest i); cbn [tl length] in *; lia.
Qed.
Lemma deref_rest n total i : at_byte n total i -> istrm_deref i = Ret i (nth 0 (rest i) 0) /\ istrm_position i = N.of_nat total - N.of_nat (length (rest i)).
Proof.
  intros [F Fn P T M]. split.
  - unfold istrm_deref, rest. destruct P as [(P1 & P2 & P3)|P]; [rewrite P1, P2, P3; reflexivity|]. destruct (nth_error (is_buf i) (N.to_nat (is_readpos i))) as [x|] eqn:E; [|apply nth_error_None in E; lia].
    apply nth_error_split in E. destruct E as (l1 & l2 & E1 & E2). rewrite E1, <- E2, skipn_app, skipn_all, Nat.sub_diag. reflexivity.
  - unfold istrm_position. rewrite u64_small by lia. lia.
Qed.
Lemma increments_rest n total : forall k i, at_byte n total i -> exists i', increments_retry n k i = Ret i' tt /\ at_byte n total i' /\ rest i' = skipn k (rest i).
Proof.
  induction k as [|k IH]; intros i H; cbn [increments_retry]; [eauto|]. destruct (retry_incr n total i H) as (i1 & E1 & H1 & R1). cbn [incr istrm_ops]. rewrite E1. cbn [bind]. destruct (IH i1 H1) as (i2 & E2 & H2 & R2).
  exists i2. split; [exact E2|]. split; [exact H2|]. rewrite R2, R1. destruct (rest i); [destruct k; reflexivity|reflexivity].
Qed.
Lemma make_rest reads bufsize n i : Forall (flaky bufsize) reads -> (failures reads <= n)%nat -> N.of_nat (length (data reads)) < 2 ^ 64 -> istrm_make reads bufsize = Ret i tt -> at_byte n (length (data reads)) i /\ rest i = data reads.
Proof.
  intros F Fn M H. unfold istrm_make, istrm_fillbuf in H. cbn [is_input is_bufsize is_abs is_buf length N.of_nat] in H. destruct reads as [|r reads].
  - injection H as <-. split; [split; cbn; [constructor|lia|auto|reflexivity|exact M]|reflexivity].
  - pose proof (Forall_inv F) as F1. pose proof (Forall_inv_tail F) as F2. unfold failures in Fn. cbn [filter] in Fn. destruct F1 as [[E1 E2]|(E1 & E2 & E3)]; rewrite E1 in *; [destruct (_ <? _); discriminate H|].
    replace (bufsize <? N.of_nat (length (rd_data r))) with false in H by lia. injection H as <-. split; [|reflexivity]. split; cbn [is_input is_buf is_readpos is_bufsize is_abs]; [exact F2|exact Fn| | |exact M].
    + right. destruct (rd_data r); [congruence|cbn; lia].
    + unfold rest. cbn [is_input is_buf is_readpos]. reflexivity.
Qed.
