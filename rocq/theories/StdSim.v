(** Input from a std::istream (proofs). *)
From Verif Require Import Base Iter CharMap CodePages Charset TextScanner Ideal ReaderSim ScannerSim IterSim ReadSpec XmlScanner ScanSpec ScanProofs StdStream.

Definition last_read (fail : option N) (l : list N) : list rdres :=
  match fail with
  | None => match l with [] => [] | _ => [mkRd l false] end
  | Some _ => [mkRd [] true]
  end.
Fixpoint std_reads (fuel n : nat) (fail : option N) (l : list N) : list rdres :=
  match fuel with
  | O => last_read fail l
  | S fuel' => if Nat.leb n (length l) then mkRd (firstn n l) false :: std_reads fuel' n fail (skipn n l) else last_read fail l
  end.

(** the future results of the stream *)
Definition future (n : N) (s : istate) : list rdres :=
  if in_eof s then [] else std_reads (length (in_rest s)) (N.to_nat n) (in_fail s) (in_rest s).

Lemma std_reads_fuel : forall f g n fail l, (1 <= n)%nat -> (length l <= f)%nat -> (length l <= g)%nat -> std_reads f n fail l = std_reads g n fail l.
Proof.
  induction f as [|f IH]; intros g n fail l Hn Hf Hg; cbn [std_reads].
  - destruct l; [|cbn in Hf; lia]. destruct g; [reflexivity|]. cbn [std_reads length]. destruct (Nat.leb_spec n 0); [lia|reflexivity].
  - destruct g as [|g]; cbn [std_reads].
    + destruct l; [|cbn in Hg; lia]. cbn [length]. destruct (Nat.leb_spec n 0); [lia|reflexivity].
    + destruct (Nat.leb_spec n (length l)); [|reflexivity]. f_equal. apply IH; auto; rewrite skipn_length; lia.
Qed.

Definition std_ok (s : istate) : Prop := in_bad s = false /\ match in_fail s with Some e => e <> 0 | None => True end /\ (in_eof s = true -> in_fail s = None).

Inductive frel : fistrm -> istrm -> Prop :=
| frel_i : forall s buf n rp ab, 0 < n -> std_ok s -> frel (mkFs s buf n rp ab) (mkIs (future n s) buf n rp ab).

Lemma fill_rel : forall i j, frel i j -> orel frel (fun _ _ => True) (fistrm_fillbuf i) (istrm_fillbuf j).
Proof.
  intros i j H. destruct H as [s buf n rp ab Hn [Hb [Hf He]]]. unfold fistrm_fillbuf, istrm_fillbuf, std_read, in_read.
  cbn [fi_in fi_buf fi_bufsize fi_abs is_input is_buf is_bufsize is_abs]. unfold future. rewrite Hb. destruct (in_eof s) eqn:Ee; cbn [orb].
  - rewrite Ee. cbn [N.eqb]. constructor.
    replace (mkIs [] [] n 0 _) with (mkIs (future n s) [] n 0 (u64 (ab + N.of_nat (length buf)))) by (unfold future; rewrite Ee; reflexivity).
    constructor; [exact Hn|]. split; [exact Hb|]. split; [exact Hf|]. intros _. apply He. reflexivity.
  - destruct (N.leb_spec n (N.of_nat (length (in_rest s)))) as [Hl|Hl].
    + destruct (in_rest s) as [|b l] eqn:Er; [cbn in Hl; lia|]. change (length (b :: l)) with (S (length l)) at 1. cbn [std_reads].
      destruct (Nat.leb_spec (N.to_nat n) (length (b :: l))); [|lia]. cbn [rd_data rd_err N.eqb].
      destruct (N.ltb_spec n (N.of_nat (length (firstn (N.to_nat n) (b :: l))))) as [H1|H1]; [rewrite firstn_length in H1; lia|].
      constructor.
      replace (std_reads (length l) (N.to_nat n) (in_fail s) (skipn (N.to_nat n) (b :: l))) with
        (future n (mkIn (skipn (N.to_nat n) (b :: l)) (in_fail s) false false)).
      { constructor; [exact Hn|]. split; [reflexivity|]. cbn [in_fail in_eof]. split; [exact Hf|discriminate]. }
      unfold future. cbn [in_eof in_rest in_fail]. apply std_reads_fuel; rewrite ?skipn_length; cbn [length] in *; lia.
    + replace (std_reads (length (in_rest s)) (N.to_nat n) (in_fail s) (in_rest s)) with (last_read (in_fail s) (in_rest s)).
      2: { destruct (in_rest s) as [|b l] eqn:Er; [reflexivity|]. change (length (b :: l)) with (S (length l)) at 1. cbn [std_reads].
           destruct (Nat.leb_spec (N.to_nat n) (length (b :: l))); [lia|reflexivity]. }
      destruct (in_fail s) as [e|] eqn:Ef; cbn [last_read in_eof].
      * cbn [in_errno in_fail]. destruct (N.eqb_spec e 0); [congruence|]. cbn [rd_data rd_err length].
        destruct (N.ltb_spec n (N.of_nat 0)); [lia|]. constructor. exact I.
      * cbn [N.eqb]. destruct (in_rest s) as [|b l].
        -- constructor. replace (mkIs [] [] n 0 _) with (mkIs (future n (mkIn [] None true false)) [] n 0 (u64 (ab + N.of_nat (length buf)))) by reflexivity.
           constructor; [exact Hn|]. repeat split; auto.
        -- cbn [rd_data rd_err]. destruct (N.ltb_spec n (N.of_nat (length (b :: l)))); [lia|]. constructor.
           replace (mkIs [] (b :: l) n 0 _) with (mkIs (future n (mkIn [] None true false)) (b :: l) n 0 (u64 (ab + N.of_nat (length buf)))) by reflexivity.
           constructor; [exact Hn|]. repeat split; auto.
Qed.

Lemma incr_rel : forall i j, frel i j -> orel frel (fun _ _ => True) (fistrm_incr i) (istrm_incr j).
Proof.
  intros i j H. assert (H0 := H). destruct H as [s buf n rp ab Hn Hs]. unfold fistrm_incr, istrm_incr. cbn [fi_buf fi_readpos fi_in fi_bufsize fi_abs is_buf is_readpos is_input is_bufsize is_abs].
  destruct (N.of_nat (length buf) <=? rp + 1); [apply fill_rel; exact H0|]. constructor. constructor; assumption.
Qed.
Lemma deref_rel : forall i j, frel i j -> orel frel (fun _ _ => True) (fistrm_deref i) (istrm_deref j).
Proof.
  intros i j H. assert (H0 := H). destruct H as [s buf n rp ab Hn Hs]. unfold fistrm_deref, istrm_deref. cbn [fi_buf fi_readpos is_buf is_readpos].
  destruct (nth_error buf (N.to_nat rp)); constructor; exact H0.
Qed.
Lemma pos_rel : forall i j, frel i j -> fistrm_position i = istrm_position j.
Proof. intros i j H. destruct H. reflexivity. Qed.
Lemma increments_rel : forall k i j, frel i j -> orel frel (fun _ _ => True) (increments fistrm_ops k i) (increments istrm_ops k j).
Proof.
  induction k as [|k IH]; intros i j H; cbn [increments]; [constructor; exact H|].
  eapply orel_bind; [apply incr_rel; exact H|]. intros s t a H1. apply IH. exact H1.
Qed.
Lemma make_rel : forall s n, 0 < n -> std_ok s -> orel frel (fun _ _ => True) (fistrm_make s n) (istrm_make (future n s) n).
Proof. intros s n Hn Hs. apply fill_rel. constructor; assumption. Qed.

(** a file without errors *)
Definition frel0 (i : fistrm) (j : istrm) : Prop := frel i j /\ in_fail (fi_in i) = None /\ Forall (fun r => rd_err r = false) (is_input j).
Lemma std_reads_good : forall f n l, Forall (fun r => rd_err r = false) (std_reads f n None l).
Proof.
  induction f as [|f IH]; intros n l; cbn [std_reads]; [destruct l; repeat constructor|].
  destruct (Nat.leb n (length l)); [constructor; [reflexivity|apply IH]|destruct l; repeat constructor].
Qed.
Lemma std_reads_data : forall f n l, (1 <= n)%nat -> (length l <= f)%nat -> flat_map rd_data (std_reads f n None l) = l.
Proof.
  induction f as [|f IH]; intros n l Hn Hf; cbn [std_reads]; [destruct l; [reflexivity|cbn in Hf; lia]|].
  destruct (Nat.leb_spec n (length l)).
  - cbn [flat_map rd_data]. rewrite IH; [apply firstn_skipn|exact Hn|rewrite skipn_length; lia].
  - destruct l; cbn; rewrite ?app_nil_r; reflexivity.
Qed.
Lemma std_reads_goodread : forall f n l, (1 <= n)%nat -> Forall (goodread (N.of_nat n)) (std_reads f n None l) \/ (f < length l)%nat.
Proof.
  induction f as [|f IH]; intros n l Hn; cbn [std_reads].
  - destruct l; [left; constructor|right; cbn; lia].
  - destruct (Nat.leb_spec n (length l)).
    + destruct (IH n (skipn n l) Hn) as [H1|H1]; [left; constructor; [|exact H1]|right; rewrite skipn_length in H1; lia].
      split; [reflexivity|]. cbn [rd_data]. split; [|rewrite firstn_length; lia].
      intros E. apply (f_equal (@length N)) in E. rewrite firstn_length in E. cbn in E. lia.
    + left. destruct l; [constructor|]. constructor; [|constructor]. split; [reflexivity|]. cbn [rd_data length] in *. split; [discriminate|lia].
Qed.
Lemma future_file : forall n data, 0 < n -> Forall (goodread n) (future n (file data)) /\ flat_map rd_data (future n (file data)) = data.
Proof.
  intros n data Hn. unfold future, file. cbn [in_eof in_rest in_fail]. split.
  - destruct (std_reads_goodread (length data) (N.to_nat n) data ltac:(lia)) as [H|H]; [|lia]. rewrite N2Nat.id in H. exact H.
  - apply std_reads_data; lia.
Qed.
Lemma file_ok : forall data, std_ok (file data).
Proof. intros data. repeat split; auto. Qed.

Lemma frel0_orel : forall {A} (x : out fistrm A) (y : out istrm A), orel frel (fun _ _ => True) x y ->
  (forall j a, y = Ret j a -> Forall (fun r => rd_err r = false) (is_input j)) ->
  (forall i a, x = Ret i a -> in_fail (fi_in i) = None) -> (forall j, y <> Throw j) -> (forall j, y <> Jump j) -> orel frel0 frel0 x y.
Proof.
  intros A x y H H1 H2 H3 H4. destruct H as [s t a H|s t H|s t H| |]; try constructor; [|exfalso; eapply H4; reflexivity|exfalso; eapply H3; reflexivity].
  split; [exact H|]. split; [eapply H2; reflexivity|eapply H1; reflexivity].
Qed.
Lemma fill_keeps_fail : forall i i' a, in_fail (fi_in i) = None -> fistrm_fillbuf i = Ret i' a -> in_fail (fi_in i') = None.
Proof.
  intros i i' a H. unfold fistrm_fillbuf, std_read, in_read. rewrite H. destruct (in_eof (fi_in i) || in_bad (fi_in i)).
  - destruct (in_eof (fi_in i)); [|destruct (in_errno (fi_in i) =? 0)]; intros E; inversion E; exact H.
  - destruct (fi_bufsize i <=? N.of_nat (length (in_rest (fi_in i)))); intros E; inversion E; reflexivity.
Qed.
Theorem fistrm_isim : isim (fun _ _ => True) fistrm_ops istrm_ops frel0.
Proof.
  constructor; cbn [fistrm_ops istrm_ops deref incr ipos]; auto.
  - intros i j [H [Hf Hg]]. apply frel0_orel; [apply deref_rel; exact H| | | |].
    + intros j' a E. unfold istrm_deref in E. destruct (nth_error (is_buf j) _); inversion E; subst; exact Hg.
    + intros i' a E. unfold fistrm_deref in E. destruct (nth_error (fi_buf i) _); inversion E; subst; exact Hf.
    + intros j' E. unfold istrm_deref in E. destruct (nth_error (is_buf j) _); discriminate.
    + intros j' E. unfold istrm_deref in E. destruct (nth_error (is_buf j) _); discriminate.
  - intros i j [H [Hf Hg]].
    assert (Hcase : forall x, istrm_incr j = x -> (exists j', x = Ret j' tt /\ Forall (fun r => rd_err r = false) (is_input j')) \/ x = Undef).
    { intros x <-. unfold istrm_incr, istrm_fillbuf. destruct (N.of_nat (length (is_buf j)) <=? is_readpos j + 1); [|left; eexists; split; [reflexivity|exact Hg]].
      destruct (is_input j) as [|r rs]; [left; eexists; split; [reflexivity|constructor]|]. inversion Hg as [|? ? Hr Hrs]; subst.
      destruct (is_bufsize j <? N.of_nat (length (rd_data r))); [right; reflexivity|]. rewrite Hr. left. eexists. split; [reflexivity|exact Hrs]. }
    specialize (Hcase _ eq_refl). apply frel0_orel; [apply incr_rel; exact H| | | |].
    + intros j' a E. destruct Hcase as [[j2 [E2 Hg2]]|E2]; rewrite E2 in E; inversion E; subst; exact Hg2.
    + intros i' a E. unfold fistrm_incr in E. destruct (N.of_nat (length (fi_buf i)) <=? fi_readpos i + 1); [eapply fill_keeps_fail; eauto|inversion E; exact Hf].
    + intros j' E. destruct Hcase as [[j2 [E2 _]]|E2]; rewrite E2 in E; discriminate.
    + intros j' E. destruct Hcase as [[j2 [E2 _]]|E2]; rewrite E2 in E; discriminate.
Qed.

(** a device that fails *)
Lemma future_failing : forall n data e, 0 < n -> exists goods, future n (failing_file data e) = goods ++ [mkRd [] true] /\ Forall (goodread n) goods /\
  flat_map rd_data goods = firstn (length data / N.to_nat n * N.to_nat n) data.
Proof.
  intros n data e Hn. unfold future, failing_file. cbn [in_eof in_rest in_fail].
  assert (H : forall f l, (length l <= f)%nat -> exists goods, std_reads f (N.to_nat n) (Some e) l = goods ++ [mkRd [] true] /\ Forall (goodread n) goods /\
    flat_map rd_data goods = firstn (length l / N.to_nat n * N.to_nat n) l).
  { induction f as [|f IH]; intros l Hf; cbn [std_reads last_read].
    - exists []. destruct l; [|cbn in Hf; lia]. rewrite firstn_nil. repeat split; constructor.
    - destruct (Nat.leb_spec (N.to_nat n) (length l)) as [Hl|Hl].
      + destruct (IH (skipn (N.to_nat n) l)) as [goods [E1 [E2 E3]]]; [rewrite skipn_length; lia|].
        exists (mkRd (firstn (N.to_nat n) l) false :: goods). split; [rewrite E1; reflexivity|]. split.
        * constructor; [|exact E2]. split; [reflexivity|]. cbn [rd_data]. split; [|rewrite firstn_length; lia].
          intros E. apply (f_equal (@length N)) in E. rewrite firstn_length in E. cbn in E. lia.
        * cbn [flat_map rd_data]. rewrite E3, skipn_length.
          assert (Hd : (length l / N.to_nat n = S ((length l - N.to_nat n) / N.to_nat n))%nat).
          { replace (length l) with (length l - N.to_nat n + 1 * N.to_nat n)%nat at 1 by lia. rewrite Nat.div_add by lia. lia. }
          rewrite Hd. cbn [Nat.mul]. generalize ((length l - N.to_nat n) / N.to_nat n * N.to_nat n)%nat as k. intros k.
          transitivity (firstn (N.to_nat n + k) (firstn (N.to_nat n) l ++ skipn (N.to_nat n) l)); [|rewrite firstn_skipn; reflexivity].
          rewrite firstn_app, firstn_length_le by exact Hl. rewrite (firstn_all2 (firstn (N.to_nat n) l)); [|rewrite firstn_length; lia]. f_equal. f_equal. lia.
      + exists []. split; [reflexivity|]. split; [constructor|]. rewrite Nat.div_small by exact Hl. reflexivity. }
  apply H. lia.
Qed.
