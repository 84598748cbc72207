(** Scanning from a CStringIterator (proofs). *)
From Verif Require Import Base Iter CharMap CodePages Charset TextScanner Ideal ReaderSim ScannerSim IterSim
  CharsetSpec CharsetProofs ReadSpec ReadProofs ChunkRead ChunkScan CstrSim XmlScanner ScanSpec ScanProofs Safety Term SourceFwd SourceSim.

Ltac Zify.zify_post_hook ::= Z.div_mod_to_equations.

Section AtPosition.
Context (src : list N) (p0 : N).
Hypothesis Hlen : N.of_nat (length src) < 2 ^ 32.
Hypothesis Hp0 : p0 + 8 < 2 ^ 32.
Notation crel := (crel src p0).
Notation ctrel := (ctrel src p0).

Lemma crel_csascii : forall cs r s, crel r s -> orel crel crel (cs_ascii cstr_ops cs r) (cs_ascii stream_ops cs s).
Proof.
  intros cs r s H. pose proof (crel_value src p0 Hlen Hp0 cs r s H) as Hv.
  destruct cs; cbn [cs_ascii cs_value] in *;
    try (eapply orel_bind; [exact Hv|]; intros r' s' v H'; constructor; auto; fail).
  - unfold utf8_ascii. eapply orel_bind; [apply crel_first; auto|].
    intros r' s' u H'. rewrite (crel_bufat _ _ _ _ 0%nat H'). constructor. auto.
  - unfold iso_ascii, iso_fetch. eapply orel_bind; [apply crel_fill; auto|].
    intros r' s' u H'. rewrite (crel_bufat _ _ _ _ 0%nat H'). constructor. auto.
Qed.
Lemma crel_csfetch : forall cs r s, crel r s -> orel crel crel (cs_fetch cstr_ops cs r) (cs_fetch stream_ops cs s).
Proof.
  intros cs r s H. destruct cs; cbn [cs_fetch]; try (apply crel_fill; auto; fail).
  unfold utf8_fetch. eapply orel_bind; [apply crel_first; auto|]. intros r' s' u H'.
  eapply orel_bind; [apply crel_utf8size; auto|]. intros r2 s2 n H2. apply crel_fill; auto.
Qed.
Lemma crel_lift : forall {A} r s v c (x : out (rd cstr) A) (y : out (rd stream) A),
  orel crel crel x y -> orel ctrel ctrel (ts_lift (mkTs r v c) x) (ts_lift (mkTs s v c) y).
Proof.
  intros A r s v c x y H. unfold ts_lift. eapply orel_omap; [exact H| |]; intros a b Hab; constructor; auto.
Qed.
Lemma crel_getcur : forall cs t u, ctrel t u -> orel ctrel ctrel (ts_getcur cstr_ops cs t) (ts_getcur stream_ops cs u).
Proof.
  intros cs t u H. destruct H as [r s v c H]. unfold ts_getcur.
  eapply orel_bind; [apply crel_lift; cbn [ts_rd]; apply crel_csascii; auto|].
  intros t' u' a H'. destruct H'. constructor. constructor. auto.
Qed.
Lemma ctrel_control : forall cs t u, ctrel t u -> orel ctrel ctrel (ts_control cstr_ops cs t) (ts_control stream_ops cs u).
Proof.
  intros cs t u H. unfold ts_control. eapply orel_bind; [apply crel_getcur; auto|].
  intros t' u' a H'. destruct H' as [r s v c H']. cbn [ts_cur].
  destruct (cm_get controlCharMap c); constructor. constructor. auto.
Qed.
Lemma ctrel_ascii : forall cs t u, ctrel t u -> orel ctrel ctrel (ts_ascii cstr_ops cs t) (ts_ascii stream_ops cs u).
Proof.
  intros cs t u H. unfold ts_ascii. eapply orel_bind; [apply crel_getcur; auto|].
  intros t' u' a H'. destruct H' as [r s v c H']. cbn [ts_cur]. constructor. constructor. auto.
Qed.
Lemma ctrel_raw : forall cs t u, ctrel t u -> orel ctrel ctrel (ts_raw cstr_ops cs t) (ts_raw stream_ops cs u).
Proof.
  intros cs t u H. destruct H as [r s v c H]. unfold ts_raw.
  eapply orel_bind; [apply crel_lift; cbn [ts_rd]; apply crel_csfetch; auto|].
  intros t' u' a H'. destruct H' as [r' s' v' c' H']. cbn [ts_rd].
  rewrite (crel_pos _ _ _ _ H'), (crel_buf _ _ _ _ H'). constructor. constructor. auto.
Qed.
End AtPosition.

(** the reader before the ideal reader *)
Definition crd (cs : charset) (src : list N) (t : tscan cstr) (r : ird) : Prop :=
  ir_m r = EndZero /\ (ir_p r + N.of_nat (length (ir_l r)) <= N.of_nat (length src) \/ ir_l r = []) /\ ir_p r <= N.of_nat (length src) + 8 /\
  creads cs src (ir_p r) t (ir_l r).
Definition crdp (cs : charset) (src : list N) (t : tscan cstr) (r : ird) : Prop :=
  ir_m r = EndZero /\ (ir_p r + N.of_nat (length (ir_l r)) <= N.of_nat (length src) \/ ir_l r = []) /\ ir_p r <= N.of_nat (length src) + 8 /\
  creadsp cs src (ir_p r) t (ir_l r).

Section Reader.
Context (cs : charset) (src : list N).
Hypothesis Hcs : cs_constructible cs = true.
Hypothesis Hlen : N.of_nat (length src) + 16 < 2 ^ 32.

Lemma orel_ret_inv : forall {S T A} (RR RJ : S -> T -> Prop) (x : out S A) y a, orel RR RJ x (Ret y a) -> exists s, x = Ret s a /\ RR s y.
Proof. intros S T A RR RJ x y a H. inversion H; subst. eauto. Qed.

Theorem cstr_psim : psim (ts_ops cstr_ops cs) (ir_ops cs) (crd cs src) (crdp cs src) alive irEnd.
Proof.
  assert (Hrec : forall r, mkIr (ir_l r) (ir_m r) (ir_p r) = r) by (intros []; reflexivity).
  assert (Hl : N.of_nat (length src) < 2 ^ 32) by lia.
  assert (Hskip : forall t r, crdp cs src t r -> ir_l r <> [] -> fw (fun t' r' _ => crd cs src t' r') (r_skip (ts_ops cstr_ops cs) t) (r_skip (ir_ops cs) r)).
  { intros t r [H1 [H2 [H3 H4]]] HP. cbn [ir_ops ts_ops r_skip]. rewrite need_zero by auto. cbn [bind fw].
    destruct (creads_skip cs src (ir_p r) t (ir_l r) Hcs Hl ltac:(lia) H4) as [t' [E Ht]]. exists t'. split; [exact E|].
    assert (Hpl : ir_p r + N.of_nat (length (ir_l r)) <= N.of_nat (length src)) by (destruct H2; [auto|contradiction]).
    pose proof (clen_bounds cs (ir_l r)) as Hcb.
    split; [exact H1|]. unfold ir_skipto. cbn [ir_l ir_p ir_m].
    split; [|split; [lia|exact Ht]].
    destruct (Nat.leb_spec (clen cs (ir_l r)) (length (ir_l r))); [left; rewrite skipn_length; lia|right; apply skipn_all2; lia]. }
  constructor.
  - intros t r [H1 [H2 [H3 [u [H4 [H5 _]]]]]]. split; [exact H1|]. split; [exact H2|]. split; [exact H3|]. exists u. auto.
  - intros t r [H1 [H2 [H3 [u [H4 H5]]]]]. pose proof (rs_control _ _ _ _ _ _ (ts_rsim cs Hcs) u _ H5) as Ho.
    rewrite <- H1, Hrec in Ho. cbn [ir_ops r_control] in *. rewrite need_zero in * by auto. destruct (orel_ret_inv _ _ _ _ _ Ho) as [u' [E Hu]].
    pose proof (ctrel_control src (ir_p r) Hl ltac:(lia) cs t u H4) as Hc. cbn [ts_ops r_control] in *. rewrite E in Hc. destruct (orel_ret_inv _ _ _ _ _ Hc) as [t' [E' Ht]].
    cbn [fw]. exists t'. split; [exact E'|]. split.
    + split; [exact H1|]. split; [exact H2|]. split; [exact H3|]. exists u'. split; [exact Ht|]. rewrite <- H1, Hrec. exact Hu.
    + split; [|auto]. intros Hc0. split; [|exact H1]. intros El. apply Hc0. rewrite El, casc_nil by exact Hcs. reflexivity.
  - intros t r [H1 [H2 [H3 [u [H4 H5]]]]]. pose proof (rs_ascii _ _ _ _ _ _ (ts_rsim cs Hcs) u _ H5) as Ho.
    rewrite <- H1, Hrec in Ho. cbn [ir_ops r_ascii] in *. rewrite need_zero in * by auto. destruct (orel_ret_inv _ _ _ _ _ Ho) as [u' [E Hu]].
    pose proof (ctrel_ascii src (ir_p r) Hl ltac:(lia) cs t u H4) as Hc. cbn [ts_ops r_ascii] in *. rewrite E in Hc. destruct (orel_ret_inv _ _ _ _ _ Hc) as [t' [E' Ht]].
    cbn [fw]. exists t'. split; [exact E'|]. split.
    + split; [exact H1|]. split; [exact H2|]. split; [exact H3|]. exists u'. split; [exact Ht|]. rewrite <- H1, Hrec. exact Hu.
    + split; [|auto]. intros Hc0. split; [|exact H1]. intros El. apply Hc0. rewrite El, casc_nil by exact Hcs. reflexivity.
  - intros t r [H1 [H2 [H3 [u [H4 H5]]]]] HP. pose proof (rs_chr _ _ _ _ _ _ (ts_rsim cs Hcs) u _ (proj1 H5)) as Ho.
    rewrite <- H1, Hrec in Ho. cbn [ir_ops r_chr] in *. rewrite need_zero in * by auto. destruct (orel_ret_inv _ _ _ _ _ Ho) as [u' [E Hu]].
    pose proof (ctrel_chr src (ir_p r) Hl ltac:(lia) cs t u H4) as Hc. cbn [ts_ops r_chr] in *. rewrite E in Hc. destruct (orel_ret_inv _ _ _ _ _ Hc) as [t' [E' Ht]].
    cbn [fw]. exists t'. split; [exact E'|]. split; [|exact HP].
    split; [exact H1|]. split; [exact H2|]. split; [exact H3|]. exists u'. split; [exact Ht|]. rewrite <- H1, Hrec. exact Hu.
  - intros t r [H1 [H2 [H3 [u [H4 H5]]]]] HP. pose proof (rs_raw _ _ _ _ _ _ (ts_rsim cs Hcs) u _ H5) as Ho.
    rewrite <- H1, Hrec in Ho. cbn [ir_ops r_raw] in *. rewrite need_zero in * by auto. destruct (orel_ret_inv _ _ _ _ _ Ho) as [u' [E Hu]].
    pose proof (ctrel_raw src (ir_p r) Hl ltac:(lia) cs t u H4) as Hc. cbn [ts_ops r_raw] in *. rewrite E in Hc. destruct (orel_ret_inv _ _ _ _ _ Hc) as [t' [E' Ht]].
    cbn [fw]. exists t'. split; [exact E'|]. split; [|exact HP].
    split; [exact H1|]. split; [exact H2|]. split; [exact H3|]. exists u'. split; [exact Ht|]. rewrite <- H1, Hrec. exact Hu.
  - intros t r H [HP _]. apply Hskip; assumption.
  - intros t r H. destruct (ir_l r) as [|b l] eqn:El.
    + destruct H as [H1 [H2 [H3 H4]]]. cbn [ir_ops ts_ops r_skip]. rewrite need_zero by auto. cbn [bind fw].
      destruct (creads_skip cs src (ir_p r) t (ir_l r) Hcs Hl ltac:(lia) H4) as [t' [E Ht]]. exists t'. split; [exact E|].
      right. split; cbn [ir_skipto ir_l ir_m]; [rewrite El; apply skipn_nil|exact H1].
    + eapply fw_weaken; [apply Hskip; [exact H|congruence]|]. cbn. auto.
  - apply (it_cc cs).
  - apply (it_end cs Hcs).
Qed.

Theorem cstr_scan : forall outcs m addr f masks s evs, Forall isByte src ->
  scan (ts_ops src_ops cs) (xml_config cs outcs m addr) f masks (sc_make (ts_make (src_make src false))) = Ret s evs ->
  exists s' evs', scan (ts_ops cstr_ops cs) (xml_config cs outcs m addr) f masks (sc_make (ts_make (cstr_make src))) = Ret s' evs' /\ map element evs' = map element evs.
Proof.
  intros outcs m addr f masks s evs Hb E. eapply psim_scan; [exact Hcs|apply cstr_psim| |exact Hb|exact E].
  split; [reflexivity|]. cbn [ir_l ir_p]. split; [left; lia|]. split; [lia|]. apply creads_make; [exact Hb|lia].
Qed.
End Reader.
