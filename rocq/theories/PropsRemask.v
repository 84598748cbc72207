(** C78: an interrupted call of nextItem repeated with another mask. *)
From Coq Require Import Lia ZifyBool ZifyNat.
From Verif Require Import Base Iter CharMap CodePages Charset TextScanner Ideal ReaderSim ScannerSim IterSim
  CharsetSpec CharsetProofs CharsetMore ReadSpec ReadProofs ChunkRead XmlScanner ScanSpec ScanProofs Safety FuelMono ChunkScan ChunkTop Term ScanTop PropsScan.

(** A call is a mask for each attempt: the first one, the one after the first interrupt, and so on. *)
Section Remask.
Context (incs : charset) (cfg : config) (feed : srcit -> list N -> bool -> srcit).
Fixpoint attempts (fuel : nat) (m : nat -> N) (chunks : list (list N)) (s : scanner (tscan srcit))
  : out (scanner (tscan srcit) * list (list N)) etype :=
  match nextItem (ts_ops src_ops incs) cfg fuel (m 0%nat) s with
  | Ret s' a => Ret (s', chunks) a
  | Jump s' => match chunks with
               | [] => Jump (s', [])
               | c :: chunks' => attempts fuel (fun i => m (S i)) chunks' (sc_feed feed s' c (more chunks'))
               end
  | Throw s' => Throw (s', chunks)
  | Undef => Undef
  | Fuel => Fuel
  end.
Fixpoint scanAttempts (fuel : nat) (calls : list (nat -> N)) (st : scanner (tscan srcit) * list (list N))
  : out (scanner (tscan srcit) * list (list N)) (list event) :=
  match calls with
  | [] => Ret st []
  | m :: calls' =>
      let! (st1, t) := attempts fuel m (snd st) (fst st) in
      let! (st2, evs) := scanAttempts fuel calls' st1 in
      Ret st2 (observe (ts_ops src_ops incs) t (fst st1) :: evs)
  end.
End Remask.

(** which elements are wanted *)
Definition wants (m : N) (t : etype) : bool := N.testbit m (etype_idx t).
(** Each attempt wants what the one before wanted. *)
Definition growing (m : nat -> N) : Prop := forall i t, wants (m i) t = true -> wants (m (S i)) t = true.
(** All attempts want the same elements. *)
Definition steady (m : nat -> N) : Prop := forall i t, wants (m i) t = wants (m 0%nat) t.

(** ** The mask is only asked for the elements it wants *)
Lemma nextItem_ext : forall {R} (rops : readerops R) cfg m1 m2, (forall t, wants m1 t = wants m2 t) -> forall f s, nextItem rops cfg f m1 s = nextItem rops cfg f m2 s.
Proof.
  intros R rops cfg m1 m2 H. induction f as [|f IH]; intros s; cbn [nextItem]; [reflexivity|]. destruct (stm_get (sc_state s)) as [e|]; [|reflexivity].
  assert (Ha : forall a arg, doAction rops cfg f m1 a arg s = doAction rops cfg f m2 a arg s).
  { intros a arg. unfold doAction. pose proof (H arg) as G. unfold wants in G. rewrite G. reflexivity. }
  assert (Hc : forall A B (m : out (scanner R) A) (g h : scanner R -> A -> out (scanner R) B), (forall s a, g s a = h s a) -> bind m g = bind m h).
  { intros A B m g h G. destruct m; cbn [bind]; auto. }
  destruct (el_action e) as [[a arg]|]; [rewrite Ha|]; apply Hc; intros s1 [rt b]; cbn [fst snd]; destruct b; try reflexivity; apply Hc; intros s2 c; apply Hc; intros s3 ok; destruct ok; try reflexivity; destruct (isNone rt); try reflexivity; apply IH.
Qed.
Lemma attempts_steady : forall cs cfg feed f mask chunks m s, (forall i t, wants (m i) t = wants mask t) ->
  attempts cs cfg feed f m chunks s = resume (sc_feed feed) (nextItem (ts_ops src_ops cs) cfg f mask) chunks s.
Proof.
  intros cs cfg feed f mask. induction chunks as [|c chunks IH]; intros m s H; cbn [attempts resume]; rewrite (nextItem_ext _ _ _ _ (H 0%nat)); [reflexivity|].
  destruct (nextItem _ _ f mask s); try reflexivity. apply IH. intros i t. apply H.
Qed.

(** ** Growing masks: no undefined behaviour *)
Section SafeAttempts.
Context (cs : charset) (cfg : config) (put : bool).
Hypothesis Hcs : cs_constructible cs = true.
Notation cops := (ts_ops src_ops cs).
Lemma pz_grow : forall m1 m2 st tk, (forall t, wants m1 t = true -> wants m2 t = true) -> pz m1 st tk -> pz m2 st tk.
Proof.
  intros m1 m2 st tk H [G|[G1 [e [a [arg [G2 [G3 G4]]]]]]]; [left; exact G|right; split; [exact G1|]]. exists e, a, arg. split; [exact G2|]. split; [exact G3|].
  destruct (tokenDef a); [apply (H arg); exact G4|exact G4].
Qed.
Lemma safe_attempts : forall chunks m f s si A, growing m -> Forall (Forall isByte) chunks ->
  srel eq (srA A cs) s si -> SE (irM (emode_of (more chunks))) (m 0%nat) si ->
  match attempts cs cfg (feed_of put) f m chunks s with
  | Ret (s', chunks') _ => Forall (Forall isByte) chunks' /\
      exists si' A', srel eq (srA A' cs) s' si' /\ SZ (irM (emode_of (more chunks'))) si'
  | Fuel => True
  | _ => False
  end.
Proof.
  induction chunks as [|c chunks IH]; intros m f s si A Hg Hb Hs Hi.
  - pose proof (sim_nextItem _ _ cfg _ _ _ _ (srA_rsim A cs Hcs) f (m 0%nat) s si Hs) as Hsim.
    pose proof (ir_safe_mode cs cfg _ f (m 0%nat) si (emode_ok _) Hi) as Hsafe. cbn [attempts].
    destruct Hsim as [s1 t1 a Hr|s1 t1 Hr|s1 t1 Hr| |]; cbn [safe] in Hsafe; try contradiction; auto.
    + split; [constructor|]. exists t1, A. auto.
    + destruct Hr as [? ? r t0 ? ? ? ? [ts [_ [_ [Hm _]]]]]. destruct Hsafe as [[[Hm2 _] _] _]. unfold irM in Hm2. cbn in Hm, Hm2. congruence.
  - inversion Hb as [|? ? Hc Hb2]; subst.
    pose proof (sim_nextItem _ _ cfg _ _ _ _ (srA_rsim A cs Hcs) f (m 0%nat) s si Hs) as Hsim.
    pose proof (ir_safe_mode cs cfg _ f (m 0%nat) si (emode_ok _) Hi) as Hsafe. cbn [attempts].
    destruct Hsim as [s1 t1 a Hr|s1 t1 Hr|s1 t1 Hr| |]; cbn [safe] in Hsafe; try contradiction; auto.
    + split; [assumption|]. exists t1, A. auto.
    + destruct Hr as [st er r t0 ob tp tp' tk Hr Htp]. destruct Hsafe as [[[Hm Hbuf] Hpos] Hz]. unfold irM in Hm. destruct t0 as [a mo p]. cbn in Hm. subst mo.
      destruct (feed_resume put A cs r a p c (more chunks) Hc Hr) as [p2 [A2 [G1 _]]].
      eapply (IH (fun i => m (S i)) f _ (mkSc st er (mkIr (a ++ c) (emode_of (more chunks)) p2) ob tp' tk) A2 (fun i t => Hg (S i) t) Hb2).
      * unfold sc_feed, sc_setSource, set_src. cbn [sc_src sc_state sc_err sc_obuf sc_tokpos sc_tok]. constructor; auto.
      * split; [split; [split; [reflexivity|exact Hbuf]|exact Hpos]|]. eapply pz_grow; [apply (Hg 0%nat)|exact Hz].
Qed.
Lemma safe_scanAttempts : forall f calls s chunks si A, Forall growing calls -> Forall (Forall isByte) chunks ->
  srel eq (srA A cs) s si -> SZ (irM (emode_of (more chunks))) si ->
  clean (scanAttempts cs cfg (feed_of put) f calls (s, chunks)).
Proof.
  intros f. induction calls as [|m calls IH]; intros s chunks si A Hg Hb Hs Hi; cbn [scanAttempts]; [exact I|]. cbn [fst snd]. inversion Hg as [|? ? Hg1 Hg2]; subst.
  pose proof (safe_attempts chunks m f s si A Hg1 Hb Hs (SZ_SE _ _ _ Hi)) as H.
  destruct (attempts _ _ _ f m chunks s) as [[s1 ch1] t| | | |]; cbn [bind]; try contradiction; [|exact I].
  destruct H as [Hb1 [si1 [A1 [Hs1 Hi1]]]]. specialize (IH s1 ch1 si1 A1 Hg2 Hb1 Hs1 Hi1).
  destruct (scanAttempts _ _ _ f calls (s1, ch1)); cbn [bind clean] in *; auto.
Qed.
End SafeAttempts.

(** ** C78 *)
(** If the attempts of a call want the same elements, the result is that of calls with one mask each. *)
Theorem C78_steady : forall incs cfg feed fuel calls st, Forall steady calls ->
  scanAttempts incs cfg feed fuel calls st = scanChunked incs cfg feed fuel (map (fun m => m 0%nat) calls) st.
Proof.
  intros incs cfg feed fuel. induction calls as [|m calls IH]; intros st H; [reflexivity|]. inversion H as [|? ? H1 H2]; subst. cbn [scanAttempts scanChunked map].
  rewrite (attempts_steady _ _ _ _ (m 0%nat)) by exact H1. destruct (resume _ _ (snd st) (fst st)); cbn [bind]; try reflexivity. rewrite IH by exact H2. reflexivity.
Qed.
Print Assumptions C78_steady.

(** If each attempt wants what the one before wanted, nothing is undefined. *)
Theorem C78_growing_partial : forall incs outcs entitymap addr fuel calls c0 chunks, cs_constructible incs = true ->
  Forall isByte (concat (c0 :: chunks)) -> Forall growing calls ->
  clean (scanAttempts incs (xml_config incs outcs entitymap addr) feed_new fuel calls (sc_make (ts_make (src_make c0 (more chunks))), chunks)) /\
  clean (scanAttempts incs (xml_config incs outcs entitymap addr) feed_put fuel calls (sc_make (ts_make (src_make c0 (more chunks))), chunks)).
Proof.
  intros incs outcs em addr fuel calls c0 chunks Hcs Hb Hg. apply bytes_concat in Hb. inversion Hb; subst.
  assert (K : forall put, clean (scanAttempts incs (xml_config incs outcs em addr) (feed_of put) fuel calls (sc_make (ts_make (src_make c0 (more chunks))), chunks))).
  { intros put. eapply (safe_scanAttempts incs _ put Hcs) with (A := N.of_nat (length c0)) (si := sc_make (mkIr c0 (emode_of (more chunks)) 0)); auto.
    - constructor; auto. apply src_make_relA. assumption.
    - split; [split; [split; [reflexivity|reflexivity]|cbn; lia]|reflexivity]. }
  split; [exact (K false)|exact (K true)].
Qed.
Print Assumptions C78_growing_partial.

(** all elements but the contents *)
Definition but_content : N := N.clearbit mask_all (etype_idx EContent).
Definition always (m : N) : nat -> N := fun _ => m.
Definition first_then (m1 m2 : N) : nat -> N := fun i => if Nat.eqb i 0 then m1 else m2.
Definition run (calls : list (nat -> N)) (c0 : list N) (chunks : list (list N)) :=
  scanAttempts UTF8 (xml_config UTF8 UTF8 None 0) feed_new 200 calls (sc_make (ts_make (src_make c0 (more chunks))), chunks).

(** Here the keyword of a section is compared from behind its end, after the digits of a reference left behind. *)
Theorem C78_refuted : exists c0 chunks m1 m2,
  run [always mask_all; first_then m1 m2; always mask_all] c0 chunks = Undef /\
  clean (run [always mask_all; always m1; always mask_all] c0 chunks) /\ clean (run [always mask_all; always m2; always mask_all] c0 chunks).
Proof. exists (str "<a>&#1234567"), [str "8;<![CDATA[x]]></a>"], mask_all, but_content. split; [|split]; vm_compute; [reflexivity|exact I|exact I]. Qed.
Print Assumptions C78_refuted.

Definition only_content : N := 2 ^ etype_idx EContent.
Definition lastItem {S} (x : out S (list event)) : option (etype * list N) := match x with Ret _ evs => Some (last (elements evs) (ENone, [])) | _ => None end.
Definition fourCalls (m : nat -> N) : list (nat -> N) := [always only_content; m; always only_content; always only_content].
(** Left behind can also be the digits of a reference that get in front of those of a later one, and the memory of a carriage return
    that takes away a later line feed: the item of the fourth call depends on whether the item of the second one, not wanted in the end,
    was wanted before the interrupt. *)
Theorem C78_digits_refuted : exists c0 chunks,
  lastItem (run (fourCalls (always 0)) c0 chunks) = Some (EContent, [1]) /\
  lastItem (run (fourCalls (always only_content)) c0 chunks) = Some (EContent, [1]) /\
  lastItem (run (fourCalls (first_then only_content 0)) c0 chunks) = Some (EContent, [0xC7; 0xB5]).
Proof. exists (str "<a>&#5"), [str "1;<b>&#01;</b></a>"]. split; [|split]; vm_compute; reflexivity. Qed.
Print Assumptions C78_digits_refuted.
Theorem C78_newline_refuted : exists c0 chunks,
  lastItem (run (fourCalls (always 0)) c0 chunks) = Some (EContent, 10 :: str "v") /\
  lastItem (run (fourCalls (always only_content)) c0 chunks) = Some (EContent, 10 :: str "v") /\
  lastItem (run (fourCalls (first_then only_content 0)) c0 chunks) = Some (EContent, str "v").
Proof. exists (str "<a>x" ++ [13]), [str "y<b>" ++ [10] ++ str "v</b></a>"]. split; [|split]; vm_compute; reflexivity. Qed.
Print Assumptions C78_newline_refuted.
(** An item wanted only after the interrupt comes without what was read before. *)
Theorem C78_tail_refuted : exists c0 chunks, let two m := [always only_content; m] in
  lastItem (run (two (always only_content)) c0 chunks) = Some (EContent, str "one two") /\
  lastItem (run (two (first_then 0 only_content)) c0 chunks) = Some (EContent, str "two").
Proof. exists (str "<a>one "), [str "two</a>"]. split; vm_compute; reflexivity. Qed.
Print Assumptions C78_tail_refuted.

Example C78_case : growing (first_then only_content mask_all) /\ ~ growing (first_then mask_all but_content) /\ steady (always but_content).
Proof.
  split; [|split].
  - intros i t _. unfold first_then. destruct (Nat.eqb (S i) 0) eqn:E; [discriminate|]. destruct t; vm_compute; reflexivity.
  - intros H. specialize (H 0%nat EContent). vm_compute in H. discriminate (H eq_refl).
  - intros i t. reflexivity.
Qed.
