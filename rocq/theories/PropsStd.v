(** C56-C58: input from a std::istream. *)
From Verif Require Import Base Iter CharMap CodePages Charset TextScanner Ideal ReaderSim ScannerSim IterSim ReadSpec XmlScanner ScanSpec ScanProofs StdStream StdSim PropsText PropsScan PropsSource.

(** ** C56. The iterator on a file delivers its bytes, then null characters; positions are the number of bytes. *)
Theorem C56_file : forall data bufsize n, 0 < bufsize ->
  exists i0 i, fistrm_make (file data) bufsize = Ret i0 tt /\ increments fistrm_ops n i0 = Ret i tt /\
    deref fistrm_ops i = Ret i (nth n data 0) /\ ipos fistrm_ops i = N.of_nat (Nat.min n (length data)) mod 2 ^ 64.
Proof.
  intros data bufsize n Hn. destruct (future_file bufsize data Hn) as [Hg Hd].
  destruct (C10_istream_schedule (future bufsize (file data)) bufsize n Hg) as [j0 [j [E0 [E1 [E2 E3]]]]]. rewrite Hd in E2, E3.
  pose proof (make_rel (file data) bufsize Hn (file_ok data)) as H0. rewrite E0 in H0. inversion H0 as [i0 ? ? H1 E4| | | |]; subst.
  pose proof (increments_rel n i0 j0 H1) as H2. rewrite E1 in H2. inversion H2 as [i ? ? H3 E5| | | |]; subst.
  exists i0, i. split; [first [reflexivity | symmetry; exact E4]|]. split; [first [reflexivity | symmetry; exact E5]|].
  pose proof (deref_rel i j H3) as H4. cbn [deref istrm_ops] in E2. rewrite E2 in H4. inversion H4 as [i2 ? ? H5 E6| | | |]; subst.
  cbn [deref ipos fistrm_ops istrm_ops] in *. rewrite (pos_rel i j H3). split; [|exact E3]. rewrite <- E6. f_equal.
  unfold fistrm_deref in E6. destruct (nth_error (fi_buf i) _); injection E6 as ->; reflexivity.
Qed.
Print Assumptions C56_file.

(** Scanning the stream delivers the elements of the text in the file. *)
Theorem C56_scan : forall incs outcs entitymap addr fuel masks data bufsize i, cs_constructible incs = true -> 0 < bufsize -> Forall isByte data ->
  fistrm_make (file data) bufsize = Ret i tt ->
  let cfg := xml_config incs outcs entitymap addr in
  same_elements (scan (ts_ops fistrm_ops incs) cfg fuel masks (sc_make (ts_make i)))
    (scan (ts_ops src_ops incs) cfg fuel masks (sc_make (ts_make (src_make data false)))).
Proof.
  intros incs outcs m addr fuel masks data bufsize i Hcs Hn Hb Hi cfg. destruct (future_file bufsize data Hn) as [Hg Hd].
  pose proof (make_rel (file data) bufsize Hn (file_ok data)) as H0. rewrite Hi in H0. inversion H0 as [? j0 ? H1 E4 E5| | | |]; subst.
  rewrite <- Hd in Hb. pose proof (C55_istream incs outcs m addr fuel masks (future bufsize (file data)) bufsize j0 Hcs Hg Hb (eq_sym E5)) as H2. cbv zeta in H2. rewrite Hd in H2.
  assert (H3 : frel0 i j0).
  { split; [exact H1|]. split.
    - eapply fill_keeps_fail; [|exact Hi]. reflexivity.
    - clear -H1 Hi E5 Hg. symmetry in E5. unfold istrm_make, istrm_fillbuf in E5. cbn [is_input is_bufsize] in E5.
      destruct (future bufsize (file data)) as [|r rs]; [injection E5 as <-; constructor|].
      inversion Hg as [|? ? [Hr _] Hrs]; subst. destruct (bufsize <? _); [discriminate|]. rewrite Hr in E5. injection E5 as <-. cbn [is_input].
      eapply Forall_impl; [|exact Hrs]. intros x [Hx _]. exact Hx. }
  pose proof (isim_rsim _ _ _ _ fistrm_isim incs) as Hs.
  assert (H4 : srel (fun _ _ => True) (tsrel frel0) (sc_make (ts_make i)) (sc_make (ts_make j0))) by (constructor; [apply tsrel_make; exact H3|exact I]).
  pose proof (sim_scan _ _ _ _ (fun _ _ => True) _ _ (sim_nextItem _ _ cfg _ _ _ _ Hs) (rs_pos _ _ _ _ _ _ Hs) fuel masks _ _ H4) as G. fold cfg in H2.
  revert H2. inversion G as [? ? ? ? G1 G1e E1 E2|? ? G1 E1 E2|? ? G1 E1 E2|E1 E2|E1 E2]; auto.
  apply evrel_elements in G1e. unfold same_elements. destruct (scan (ts_ops src_ops incs) cfg fuel masks _); auto. congruence.
Qed.
Print Assumptions C56_scan.

(** ** C58. An error of the device is reported if it left an error number: the bytes of the blocks read completely are delivered, then the
    increment throws. *)
Theorem C58_error_partial : forall data errno bufsize, 0 < bufsize -> errno <> 0 ->
  let blocks := firstn (length data / N.to_nat bufsize * N.to_nat bufsize) data in
  (blocks = [] /\ exists i, fistrm_make (failing_file data errno) bufsize = Throw i) \/
  exists i0, fistrm_make (failing_file data errno) bufsize = Ret i0 tt /\
    (forall n, (n < length blocks)%nat -> exists i, increments fistrm_ops n i0 = Ret i tt /\ deref fistrm_ops i = Ret i (nth n data 0)) /\
    (forall n, (length blocks <= n)%nat -> exists i, increments fistrm_ops n i0 = Throw i).
Proof.
  intros data errno bufsize Hn He blocks. destruct (future_failing bufsize data errno Hn) as [goods [Ef [Hg Hd]]]. fold blocks in Hd.
  assert (Hok : std_ok (failing_file data errno)) by (split; [reflexivity|]; split; [exact He|discriminate]).
  pose proof (make_rel (failing_file data errno) bufsize Hn Hok) as H0. rewrite Ef in H0.
  destruct (C10_istream_error goods (mkRd [] true) [] bufsize Hg eq_refl ltac:(cbn; lia)) as [[E1 [j E2]]|[j0 [E1 [E2 E3]]]].
  - left. rewrite E2 in H0. inversion H0 as [| |i ? H1 E4| |]; subst. split; [rewrite <- Hd; reflexivity|]. eauto.
  - right. rewrite E1 in H0. inversion H0 as [i0 ? ? H1 E4| | | |]; subst. exists i0. split; [first [reflexivity | symmetry; exact E4]|]. rewrite Hd in E2, E3. split.
    + intros n Hlt. destruct (E2 n Hlt) as [j [E5 E6]]. pose proof (increments_rel n i0 j0 H1) as H2. rewrite E5 in H2. inversion H2 as [i ? ? H3 E7| | | |]; subst.
      exists i. split; [first [reflexivity | symmetry; exact E7]|]. pose proof (deref_rel i j H3) as H4. cbn [deref istrm_ops fistrm_ops] in *. rewrite E6 in H4. inversion H4 as [i2 ? ? H5 E8| | | |]; subst.
      replace (nth n data 0) with (nth n blocks 0).
      * unfold fistrm_deref in *. destruct (nth_error (fi_buf i) _); injection E8 as -> ->; reflexivity.
      * transitivity (nth n (blocks ++ skipn (length data / N.to_nat bufsize * N.to_nat bufsize) data) 0); [rewrite app_nth1; [reflexivity|exact Hlt]|].
        unfold blocks. rewrite firstn_skipn. reflexivity.
    + intros n Hle. destruct (E3 n Hle) as [j E5]. pose proof (increments_rel n i0 j0 H1) as H2. rewrite E5 in H2. inversion H2 as [| |i ? H3 E7| |]; subst. eauto.
Qed.
Print Assumptions C58_error_partial.
Example C58_case : exists i0 i i1 e, firstn (length [1; 2; 3; 4; 5] / N.to_nat 2 * N.to_nat 2) [1; 2; 3; 4; 5] = [1; 2; 3; 4] /\ fistrm_make (failing_file [1; 2; 3; 4; 5] 5) 2 = Ret i0 tt /\
  increments fistrm_ops 3 i0 = Ret i tt /\ deref fistrm_ops i = Ret i 4 /\ increments fistrm_ops 4 i0 = Throw e /\ fistrm_make (failing_file [1] 5) 2 = Throw i1.
Proof. do 4 eexists. repeat match goal with |- _ /\ _ => split; [vm_compute; reflexivity|] end. vm_compute. reflexivity. Qed.
(** Without an error number (a device that does not set errno) the error is taken for the end of the file. *)
Theorem C58_error_refuted : exists data i0 i, fistrm_make (failing_file data 0) 4 = Ret i0 tt /\
  increments fistrm_ops 6 i0 = Ret i tt /\ deref fistrm_ops i = Ret i 0 /\ nth 4 data 0 <> 0 /\ exists j, increments fistrm_ops 4 i0 = Ret j tt /\ deref fistrm_ops j = Ret j 0.
Proof.
  exists [1; 2; 3; 4; 5]. eexists. eexists. split; [vm_compute; reflexivity|]. split; [vm_compute; reflexivity|]. split; [vm_compute; reflexivity|].
  split; [discriminate|]. eexists. split; vm_compute; reflexivity.
Qed.
Print Assumptions C58_error_refuted.
Example C56_case : exists i0 i, fistrm_make (file [1; 2; 3; 4; 5]) 2 = Ret i0 tt /\ increments fistrm_ops 4 i0 = Ret i tt /\ deref fistrm_ops i = Ret i 5 /\
  exists s evs, fistrm_make (file (str "<a>x</a>")) 3 = Ret s tt /\ omap (fun _ => tt) (scan (ts_ops fistrm_ops UTF8) (xml_config UTF8 UTF8 None 0) 50 (calls 4) (sc_make (ts_make s))) = Ret tt evs /\
  elements evs = [(EOpenTag, str "a"); (EContent, str "x"); (ECloseTag, str "a"); (EExit, [])] /\
  exists e0 e1, fistrm_make (failing_file [1; 2; 3; 4; 5] 5) 2 = Ret e0 tt /\ increments fistrm_ops 4 e0 = Throw e1.
Proof.
  eexists. eexists. split; [vm_compute; reflexivity|]. split; [vm_compute; reflexivity|]. split; [vm_compute; reflexivity|].
  eexists. eexists. split; [vm_compute; reflexivity|]. split; [vm_compute; reflexivity|]. split; [vm_compute; reflexivity|].
  eexists. eexists. split; vm_compute; reflexivity.
Qed.

(** ** C57. Copies of an IStreamIterator *)
(** the increments of both, in any order *)
Fixpoint two_steps (ws : list which) (t : twoits) : out twoits unit :=
  match ws with
  | [] => Ret t tt
  | w :: ws' => let! (t1, u) := two_incr w t in two_steps ws' t1
  end.
Definition uses (w : which) (ws : list which) : nat := length (filter (fun x => match w, x with Orig, Orig | Copy, Copy => true | _, _ => false end) ws).

(** As long as both stay in the bytes that were read already when the copy was made, both deliver what the iterator would have delivered. *)
Theorem C57_copy_partial : forall i ws, (forall w, fi_readpos i + N.of_nat (uses w ws) < N.of_nat (length (fi_buf i))) ->
  exists t, two_steps ws (fistrm_copy i) = Ret t tt /\
    forall w, exists j, increments fistrm_ops (uses w ws) i = Ret j tt /\ deref fistrm_ops j = Ret j (two_deref w t).
Proof.
  intros i ws H.
  assert (Hinc : forall n (i : fistrm), fi_readpos i + N.of_nat n < N.of_nat (length (fi_buf i)) ->
     increments fistrm_ops n i = Ret (mkFs (fi_in i) (fi_buf i) (fi_bufsize i) (fi_readpos i + N.of_nat n) (fi_abs i)) tt).
  { clear. induction n as [|n IH]; intros i H; cbn [increments].
    - destruct i. cbn. f_equal. f_equal. lia.
    - cbn [fistrm_ops incr]. unfold fistrm_incr. destruct (N.leb_spec (N.of_nat (length (fi_buf i))) (fi_readpos i + 1)); [lia|]. cbn [bind].
      rewrite IH; cbn [fi_in fi_buf fi_bufsize fi_readpos fi_abs]; [|lia]. f_equal. f_equal. lia. }
  assert (Hst : forall ws s buf n p q ab, p + N.of_nat (uses Orig ws) < N.of_nat (length buf) -> q + N.of_nat (uses Copy ws) < N.of_nat (length buf) ->
     two_steps ws (mkTwo (mkFs s buf n p ab) (mkFs s buf n q ab)) = Ret (mkTwo (mkFs s buf n (p + N.of_nat (uses Orig ws)) ab) (mkFs s buf n (q + N.of_nat (uses Copy ws)) ab)) tt).
  { clear. induction ws as [|w ws IH]; intros s buf n p q ab H1 H2; [cbn; rewrite !N.add_0_r; reflexivity|]. destruct w; unfold uses in *; cbn [filter length] in *;
     cbn [two_steps two_incr tw_orig tw_copy]; unfold fistrm_incr; cbn [fi_buf fi_readpos fi_in fi_bufsize fi_abs].
    - destruct (N.leb_spec (N.of_nat (length buf)) (p + 1)); [lia|]. cbn [omap bind]. unfold with_in. cbn [fi_buf fi_readpos fi_in fi_bufsize fi_abs].
      rewrite IH; [|lia|lia]. f_equal. f_equal. f_equal. lia.
    - destruct (N.leb_spec (N.of_nat (length buf)) (q + 1)); [lia|]. cbn [omap bind]. unfold with_in. cbn [fi_buf fi_readpos fi_in fi_bufsize fi_abs].
      rewrite IH; [|lia|lia]. f_equal. f_equal. f_equal. lia. }
  destruct i as [s buf n p ab]. cbn [fi_readpos fi_buf] in H. unfold fistrm_copy. cbn [fi_buf fi_readpos fi_in fi_bufsize fi_abs].
  eexists. split; [apply Hst; [apply (H Orig)|apply (H Copy)]|]. intros w. eexists. split; [apply Hinc; apply H|].
  cbn [fi_buf fi_readpos fi_in fi_bufsize fi_abs]. destruct w; unfold two_deref; cbn [tw_orig tw_copy fistrm_ops deref]; unfold fistrm_deref; cbn [fi_buf fi_readpos];
   destruct (nth_error buf _); reflexivity.
Qed.
Print Assumptions C57_copy_partial.
(** Also if only one of them is used from then on. *)
Theorem C57_copy_only : forall i n, exists r, two_steps (repeat Copy n) (fistrm_copy i) = omap r (increments fistrm_ops n i) /\
  forall j, increments fistrm_ops n i = Ret j tt -> deref fistrm_ops j = Ret j (two_deref Copy (r j)).
Proof.
  intros i n. exists (fun j => mkTwo (with_in (fi_in j) i) j). split.
  - assert (H : forall n i0 j, fi_in j = fi_in (with_in (fi_in j) i0) -> two_steps (repeat Copy n) (mkTwo (with_in (fi_in j) i0) j) = omap (fun j => mkTwo (with_in (fi_in j) i0) j) (increments fistrm_ops n j)).
    { clear. induction n as [|n IH]; intros i0 j _; [reflexivity|]. cbn [repeat two_steps two_incr tw_orig tw_copy increments fistrm_ops incr].
      destruct (fistrm_incr j) as [j1 []| | | |]; cbn [omap bind]; auto. rewrite <- IH by reflexivity. reflexivity. }
    destruct i as [s buf b p ab]. exact (H n (mkFs s buf b p ab) (mkFs s buf b p ab) eq_refl).
  - intros j _. unfold two_deref. cbn [tw_copy fistrm_ops deref]. unfold fistrm_deref. destruct (nth_error (fi_buf j) _); reflexivity.
Qed.
Print Assumptions C57_copy_only.
(** Otherwise bytes get lost: the stream is shared. *)
Theorem C57_refuted : exists i t, fistrm_make (file [1; 2; 3; 4; 5; 6]) 2 = Ret i tt /\ two_steps [Orig; Orig; Copy; Copy] (fistrm_copy i) = Ret t tt /\
  two_deref Orig t = 3 /\ two_deref Copy t = 5.
Proof. eexists. eexists. split; [vm_compute; reflexivity|]. split; [vm_compute; reflexivity|]. split; vm_compute; reflexivity. Qed.
Print Assumptions C57_refuted.
Example C57_case : exists i t, fistrm_make (file [1; 2; 3; 4; 5; 6]) 4 = Ret i tt /\ two_steps [Orig; Orig; Copy] (fistrm_copy i) = Ret t tt /\
  two_deref Orig t = 3 /\ two_deref Copy t = 2.
Proof. eexists. eexists. split; [vm_compute; reflexivity|]. split; [vm_compute; reflexivity|]. split; vm_compute; reflexivity. Qed.
