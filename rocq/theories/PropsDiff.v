(** Differences of iterators: C67. *)
From Coq Require Import Lia.
From Verif Require Import Base Iter IterDiff.
Ltac Zify.zify_post_hook ::= Z.div_mod_to_equations.

(** ** C67: the difference of two iterators on the same source is the number of bytes between them. *)
Fixpoint advance {I} (ops : iterops I) (n : nat) (i : I) : out I unit :=
  match n with O => Ret i tt | S n => let! (i, _) := incr ops i in advance ops n i end.

Lemma to_int_small z : (- 2 ^ 31 <= z < 2 ^ 31)%Z -> to_int z = z.
Proof. intro H. unfold to_int. change (2 ^ 31)%Z with 2147483648%Z in *. change (2 ^ 32)%Z with 4294967296%Z. destruct (_ <? _)%Z eqn:E; lia. Qed.
Lemma to_int_cong x y : (x mod 2 ^ 32 = y mod 2 ^ 32)%Z -> to_int x = to_int y.
Proof. intro H. unfold to_int. rewrite H. reflexivity. Qed.

(** *** CStringIterator: for every pair of iterators, if not too far from each other; also if the position has wrapped around *)
Lemma cstr_advance n i : exists p, advance cstr_ops n i = Ret (mkCstr (cs_src i) (cs_size i) p) tt /\ (p = u32 (cs_pos i + N.of_nat n) \/ (n = 0%nat /\ p = cs_pos i)).
Proof.
  revert i. induction n as [|n IH]; intro i; cbn [advance]; [exists (cs_pos i); destruct i; auto|]. cbn [incr cstr_ops cstr_incr bind].
  destruct (IH (mkCstr (cs_src i) (cs_size i) (u32 (cs_pos i + 1)))) as [p [E H]]. cbn [cs_src cs_size cs_pos] in *. exists p. split; [exact E|]. left.
  unfold u32 in *. change (2 ^ 32) with 4294967296 in *. destruct H as [-> | [-> ->]]; lia.
Qed.
Theorem C67_cstring : forall i n, N.of_nat n < 2 ^ 31 -> cs_pos i < 2 ^ 32 ->
  exists j, advance cstr_ops n i = Ret j tt /\ cstr_diff true j i = Z.of_nat n /\ cstr_diff true i j = (- Z.of_nat n)%Z.
Proof.
  intros i n Hn Hi. destruct (cstr_advance n i) as [p [E H]]. eexists. split; [exact E|]. unfold cstr_diff, sub32, u32 in *. cbn [cs_pos].
  change (2 ^ 32) with 4294967296 in *. change (2 ^ 31) with 2147483648 in *.
  split; (etransitivity; [|apply (to_int_small (_ : Z))]); try apply to_int_cong; change (2 ^ 32)%Z with 4294967296%Z; change (2 ^ 31)%Z with 2147483648%Z; try lia; destruct H as [-> | [-> ->]]; lia.
Qed.
Print Assumptions C67_cstring.
Example C67_cstring_case : let i := mkCstr (str "abc") 3 4294967294 in exists j, advance cstr_ops 5 i = Ret j tt /\ cs_pos j = 3 /\ cstr_diff true j i = 5%Z /\ cstr_diff true i j = (-5)%Z.
Proof. eexists. split; [vm_compute; reflexivity|]. vm_compute. repeat split. Qed.

(** *** SrcIterator: inside of a chunk; it throws, if the other one is before *)
Theorem C67_chunk_partial : forall i n at_i, exists j, advance src_ops n i = Ret j tt /\ src_diff at_i at_i j i = Ret tt (N.of_nat n) /\ (n <> 0%nat -> src_diff at_i at_i i j = Throw tt).
Proof.
  intros i n at_i. assert (A : forall n i, advance src_ops n i = Ret (mkSrc (si_buf i) (si_itr i + N.of_nat n) (si_eom i) (si_abs i)) tt).
  { clear. induction n as [|n IH]; intro i; cbn [advance]; [destruct i as [b p e m]; cbn [si_buf si_itr si_eom si_abs]; replace (p + N.of_nat 0) with p by lia; reflexivity|]. cbn [incr src_ops src_incr bind]. rewrite IH. cbn [si_buf si_itr si_eom si_abs]. replace (si_itr i + 1 + N.of_nat n) with (si_itr i + N.of_nat (S n)) by lia. reflexivity. }
  eexists. split; [apply A|]. unfold src_diff. cbn [si_buf si_itr]. rewrite N.eqb_refl. cbn [negb orb]. split.
  - replace (_ <? _) with false by lia. f_equal. lia.
  - intro Hn. replace (_ <? _) with true by lia. reflexivity.
Qed.
Print Assumptions C67_chunk_partial.
Example C67_chunk_case : exists j, advance src_ops 2 (src_make (str "abc") true) = Ret j tt /\ src_diff 4096 4096 j (src_make (str "abc") true) = Ret tt 2.
Proof. eexists. split; vm_compute; reflexivity. Qed.

(** *** IStreamIterator: it is the difference of the positions exactly if both are in the same block *)
Theorem C67_stream_partial : forall i o, is_abs i + is_readpos i < 2 ^ 31 -> is_abs o + is_readpos o < 2 ^ 31 ->
  (istrm_diff i o = (Z.of_N (istrm_position i) - Z.of_N (istrm_position o))%Z <-> is_abs i = is_abs o).
Proof.
  intros i o Hi Ho. unfold istrm_diff, istrm_position, u64. change (2 ^ 31) with 2147483648 in *. rewrite !N.mod_small by (change (2 ^ 64) with 18446744073709551616; lia).
  rewrite (to_int_small (Z.of_N (is_readpos i))) by (change (2 ^ 31)%Z with 2147483648%Z; lia).
  rewrite (to_int_cong _ (Z.of_N (is_readpos i) - Z.of_N (is_readpos o))) by (change (2 ^ 64)%Z with 18446744073709551616%Z; change (2 ^ 32)%Z with 4294967296%Z; lia).
  rewrite to_int_small by (change (2 ^ 31)%Z with 2147483648%Z; lia). lia.
Qed.
Print Assumptions C67_stream_partial.

(** *** Refuted: on the next block of a stream, and on the next chunk, if the caller reads it into the same memory *)
Theorem C67_refuted :
  (exists i j, istrm_make [mkRd (str "ab") false; mkRd (str "cd") false] 2 = Ret i tt /\ advance istrm_ops 3 i = Ret j tt /\ istrm_position j = 3 /\ istrm_diff j i = 1%Z) /\
  (exists j, let i := src_make (str "ab") true in let i2 := src_putInput i (str "cd") true in
     advance src_ops 1 i2 = Ret j tt /\ src_position j = 3 /\ src_position i = 0 /\ src_diff 4096 4096 j i = Ret tt 1).
Proof.
  split; [eexists; eexists; split; [vm_compute; reflexivity|split; [vm_compute; reflexivity|split; vm_compute; reflexivity]]|]. eexists. split; [vm_compute; reflexivity|]. vm_compute. repeat split.
Qed.
Print Assumptions C67_refuted.
Example C67_stream_case : exists i j, istrm_make [mkRd (str "abcd") false] 4 = Ret i tt /\ advance istrm_ops 3 i = Ret j tt /\ is_abs i = is_abs j /\ istrm_diff j i = 3%Z /\ istrm_diff i j = (-3)%Z.
Proof. eexists. eexists. split; [vm_compute; reflexivity|]. split; [vm_compute; reflexivity|]. vm_compute. repeat split. Qed.
