(** * C100: calls repeated after a failing read of the stream *)
From Coq Require Import Lia.
From Verif Require Import Base Iter CharMap Charset CharsetSpec TextScanner XmlScanner ScannerSim ReadSpec ScanSpec ChunkTop PropsScan Retry RetrySpec RetryScan RetryRead RetryIter.

(** ** Increments: every byte is delivered, with its position. No byte is lost when a read fails *)
Theorem C100_iterator : forall reads bufsize n k i, Forall (flaky bufsize) reads -> (failures reads <= n)%nat -> istrm_make reads bufsize = Ret i tt ->
  N.of_nat (length (concat (map rd_data reads))) < 2 ^ 64 ->
  exists i', increments_retry n k i = Ret i' tt /\ deref istrm_ops i' = Ret i' (nth k (concat (map rd_data reads)) 0) /\
    ipos istrm_ops i' = N.of_nat (Nat.min k (length (concat (map rd_data reads)))).
Proof.
  intros reads bufsize n k i F Fn H M. destruct (make_rest reads bufsize n i F Fn M H) as [H1 R1]. destruct (increments_rest n _ k i H1) as (i' & E & H2 & R2). exists i'. split; [exact E|].
  destruct (deref_rest _ _ _ H2) as [D P]. cbn [deref ipos istrm_ops]. rewrite D, P, R2, R1. unfold data. split; [|rewrite skipn_length; lia].
  f_equal. generalize (concat (map rd_data reads)). clear. induction k as [|k IH]; intros [|x l]; try reflexivity. cbn [skipn nth]. apply IH.
Qed.
Print Assumptions C100_iterator.
Ltac flakies := repeat (apply Forall_cons; [first [left; split; reflexivity|right; split; [reflexivity|split; [discriminate|vm_compute; discriminate]]]|]); apply Forall_nil.
Example C100_iterator_case : let reads := [mkRd (str "ab") false; mkRd [] true; mkRd [] true; mkRd (str "cd") false; mkRd [] true] in
  Forall (flaky 2) reads /\ failures reads = 3%nat /\ exists i i', istrm_make reads 2 = Ret i tt /\ increments_retry 3 3 i = Ret i' tt /\ istrm_deref i' = Ret i' 100 /\ istrm_position i' = 3.
Proof.
  cbv zeta. split; [|split; [reflexivity|]]; [|do 2 eexists; split; [vm_compute; reflexivity|]; split; [vm_compute; reflexivity|]; split; reflexivity].
  flakies.
Qed.

(** ** The XML scanner: whatever the reads are, what is delivered is what is in the text with the first byte of a failing read, or a null character, in place of the last byte before it *)
Lemma complete_ascii l : Forall (fun b => b < 128) l -> utf8_sequences l.
Proof. induction 1 as [|b l H _ IH]; constructor; [lia|exact IH]. Qed.
Lemma at_once_complete cs l : at_once cs l -> complete_text cs l.
Proof. intros H E. subst cs. apply complete_ascii. exact H. Qed.
Lemma start_rel cs reads bufsize i : Forall (fits bufsize) reads -> istrm_make reads bufsize = Ret i tt -> at_once cs (holes [] reads) ->
  exists c chunks, concat (c :: chunks) = holes [] reads /\ (length chunks <= failures reads)%nat /\
    srel (fun _ _ => True) (Ts (Rd (fun b => cs = UTF8 -> b < 128) chunks)) (sc_make (ts_make i)) (sc_make (ts_make (src_make c (more chunks)))).
Proof.
  intros F H A. unfold istrm_make, istrm_fillbuf in H. cbn [is_input is_bufsize is_abs is_buf length N.of_nat] in H.
  assert (K : forall c chunks, concat (c :: chunks) = holes [] reads -> Forall (fun b => cs = UTF8 -> b < 128) c /\ Forall (Forall (fun b => cs = UTF8 -> b < 128)) chunks).
  { intros c chunks E. assert (Q : Forall (fun b => cs = UTF8 -> b < 128) (concat (c :: chunks))) by (rewrite E; destruct cs; cbn [at_once] in A; try (apply Forall_forall; intros; discriminate); eapply Forall_impl; [|exact A]; auto).
    cbn [concat] in Q. apply Forall_app in Q. destruct Q as [Q1 Q2]. split; [exact Q1|]. apply Forall_concat. exact Q2. }
  assert (G : forall c chunks i0, concat (c :: chunks) = holes [] reads -> istate i0 -> seen (left i0) (is_input i0) = c :: chunks \/ (ended i0 /\ c = [] /\ chunks = []) ->
     srel (fun _ _ => True) (Ts (Rd (fun b => cs = UTF8 -> b < 128) chunks)) (sc_make (ts_make i0)) (sc_make (ts_make (src_make c (more chunks))))).
  { intros c chunks i0 E O S. destruct (K c chunks E) as [K1 K2]. constructor; [|exact I]. split; cbn; [|reflexivity|reflexivity]. split; cbn; [reflexivity|lia|reflexivity|reflexivity|intros; lia|].
    split; [exact O|reflexivity|exact K1|exact K2|exact S]. }
  destruct reads as [|r reads].
  - injection H as <-. exists [], []. split; [reflexivity|]. split; [apply Nat.le_0_l|]. apply G; [reflexivity|split; [constructor|left; split; reflexivity]|right; split; [split; reflexivity|split; reflexivity]].
  - pose proof (Forall_inv F) as F1. pose proof (Forall_inv_tail F) as F2. unfold fits in F1. replace (bufsize <? N.of_nat (length (rd_data r))) with false in H by lia.
    destruct (rd_err r) eqn:E1; [discriminate H|]. injection H as <-. destruct (seen_cons (given r) reads) as (c & chunks & S).
    assert (Eh : concat (c :: chunks) = holes [] (r :: reads)) by (rewrite <- S, seen_holes; cbn [holes]; rewrite E1; reflexivity).
    exists c, chunks. split; [exact Eh|]. split; [pose proof (seen_failures (given r) reads) as L; rewrite S in L; unfold failures in *; cbn [filter length] in *; rewrite E1; lia|].
    assert (D : left (mkIs reads (rd_data r) bufsize 0 (u64 (0 + 0))) = given r) by (unfold left, given; cbn [is_buf is_readpos]; destruct (rd_data r); reflexivity).
    apply G; [exact Eh|split; [exact F2|cbn [is_buf is_readpos]; destruct (rd_data r); [left; split; reflexivity|right; cbn; lia]]|]. left. rewrite D. exact S.
Qed.
Theorem C100_scan_partial : forall incs outcs reads bufsize n fuel masks i s evs, cs_constructible incs = true -> Forall (fits bufsize) reads -> (failures reads <= n)%nat ->
  istrm_make reads bufsize = Ret i tt -> Forall isByte (holes [] reads) -> at_once incs (holes [] reads) ->
  xml_scan incs outcs fuel masks (holes [] reads) = Ret s evs ->
  exists s' evs', scan_retry incs (xml_config incs outcs None 0) n (fuel + 9) masks (sc_make (ts_make i)) = Ret s' evs' /\ map element evs' = map element evs.
Proof.
  intros incs outcs reads bufsize n fuel masks i s evs HC F Fn H B A HS. destruct (start_rel incs reads bufsize i F H A) as (c & chunks & Eh & L & R). rewrite <- Eh in *.
  destruct (chunked_scan incs outcs false fuel masks c chunks s evs HC B (at_once_complete _ _ A) HS) as (st' & evs1 & E1 & E2 & _).
  pose proof (retry_scan (fun b => incs = UTF8 -> b < 128) (fun _ => eq_refl) incs (fun E b K => K E) (xml_config incs outcs None 0) n (fuel + 9) masks chunks _ _ ltac:(lia) R) as Q. cbn [feed_of] in E1. rewrite E1 in Q.
  destruct Q as (s' & evs' & Q1 & Q2). exists s', evs'. split; [exact Q1|congruence].
Qed.
Print Assumptions C100_scan_partial.
(** and nothing else: every result is that of this text, and no call throws after the last failure *)
Theorem C100_scan_only_partial : forall incs outcs reads bufsize n fuel masks i, cs_constructible incs = true -> Forall (fits bufsize) reads -> (failures reads <= n)%nat ->
  istrm_make reads bufsize = Ret i tt -> Forall isByte (holes [] reads) -> at_once incs (holes [] reads) ->
  match scan_retry incs (xml_config incs outcs None 0) n fuel masks (sc_make (ts_make i)) with
  | Ret _ evs' => exists g s evs, xml_scan incs outcs g masks (holes [] reads) = Ret s evs /\ map element evs' = map element evs
  | Undef => exists g, xml_scan incs outcs g masks (holes [] reads) = Undef
  | Fuel => True
  | Jump _ | Throw _ => False
  end.
Proof.
  intros incs outcs reads bufsize n fuel masks i HC F Fn H B A. destruct (start_rel incs reads bufsize i F H A) as (c & chunks & Eh & L & R). rewrite <- Eh in *.
  pose proof (chunked_scan_back incs outcs false fuel masks c chunks HC B (at_once_complete _ _ A)) as W. cbn [feed_of] in W.
  pose proof (retry_scan (fun b => incs = UTF8 -> b < 128) (fun _ => eq_refl) incs (fun E b K => K E) (xml_config incs outcs None 0) n fuel masks chunks _ _ ltac:(lia) R) as Q.
  destruct (scanChunked _ _ _ _ _ _) as [st' evs1| | | |]; try contradiction.
  - destruct Q as (s' & evs' & -> & Q2). destruct W as (g & s & evs & W1 & W2 & _). exists g, s, evs. split; [exact W1|congruence].
  - rewrite Q. exact W.
  - rewrite Q. exact I.
Qed.
Print Assumptions C100_scan_only_partial.
(** in UTF-8 with the text <a>hello</a> and a read that fails behind "he" *)
Definition hello : list rdres := [mkRd (str "<a>he") false; mkRd [] true; mkRd (str "llo</a>") false].
Example C100_scan_case : Forall (fits 8) hello /\ at_once UTF8 (holes [] hello) /\ holes [] hello = str "<a>h" ++ [0] ++ str "llo</a>" /\
  exists i s evs s' evs', istrm_make hello 8 = Ret i tt /\ xml_scan UTF8 UTF8 50 (calls 3) (holes [] hello) = Ret s evs /\
    scan_retry UTF8 (xml_config UTF8 UTF8 None 0) 1 59 (calls 3) (sc_make (ts_make i)) = Ret s' evs' /\ map element evs' = map element evs.
Proof.
  split; [|split; [|split; [vm_compute; reflexivity|]]]; [| |do 5 eexists; split; [vm_compute; reflexivity|]; split; [vm_compute; reflexivity|]; split; [vm_compute; reflexivity|]; vm_compute; reflexivity].
  - repeat constructor; vm_compute; discriminate.
  - repeat constructor.
Qed.
Example C100_scan_data_case : let reads := [mkRd (str "<a>he") false; mkRd (str "ll") true; mkRd (str "o</a>") false] in
  holes [] reads = str "<a>hllo</a>" /\ exists i s evs, istrm_make reads 8 = Ret i tt /\ scan_retry UTF8 (xml_config UTF8 UTF8 None 0) 1 59 (calls 3) (sc_make (ts_make i)) = Ret s evs /\
    map ev_item evs = [str "a"; str "hllo"; str "a"].
Proof. cbv zeta. split; [vm_compute; reflexivity|]. do 3 eexists. split; [vm_compute; reflexivity|]. split; vm_compute; reflexivity. Qed.
(** ** So a failing read is not without effect, although the stream delivers everything: a byte is lost *)
Theorem C100_scan_refuted : exists reads i s evs s' evs', Forall (flaky 8) reads /\ failures reads = 1%nat /\ istrm_make reads 8 = Ret i tt /\
  xml_scan UTF8 UTF8 50 (calls 3) (concat (map rd_data reads)) = Ret s evs /\
  scan_retry UTF8 (xml_config UTF8 UTF8 None 0) 1 59 (calls 3) (sc_make (ts_make i)) = Ret s' evs' /\ map element evs' <> map element evs.
Proof.
  exists hello. do 5 eexists. split; [unfold hello; flakies|]. split; [reflexivity|]. split; [vm_compute; reflexivity|]. split; [vm_compute; reflexivity|]. split; [vm_compute; reflexivity|]. vm_compute. discriminate.
Qed.
Print Assumptions C100_scan_refuted.
