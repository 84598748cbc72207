(** Scanning from char pointers: what returns is what the scan of the text returns, all else reads behind the end (proofs). *)
From Verif Require Import Base Iter CharMap CodePages Charset TextScanner Ideal ReaderSim ScannerSim IterSim
  CharsetSpec CharsetProofs ReadSpec ReadProofs ChunkRead ChunkScan CstrSim XmlScanner ScanSpec ScanProofs Safety FuelMono Term SourceFwd SourceSim.

Section Behind.
Context (cs : charset).
Hypothesis Hcs : cs_constructible cs = true.

(** the text in memory and the null terminated text; behind the terminator nothing is left of both *)
Definition zback (r t : ird) : Prop :=
  ir_m r = EndZero /\ ir_m t = EndUndef /\ ((ir_l t = ir_l r ++ term cs /\ whole cs (ir_l r)) \/ (ir_l t = [] /\ ir_l r = [])).

Lemma clen_pos : forall l, (1 <= clen cs l)%nat.
Proof. intros l. pose proof (clen_bounds cs l). lia. Qed.

Lemma term_dec : dec cs (term cs) = dec cs [].
Proof. destruct cs as [|[]|[]|[]|p]; vm_compute; reflexivity. Qed.

Lemma zback_dec : forall r t, zback r t ->
  dec cs (ir_l t) = dec cs (ir_l r) /\ clen cs (ir_l t) = clen cs (ir_l r) /\
  ((clen cs (ir_l t) <= length (ir_l t))%nat -> forall p q, zback (mkIr (skipn (clen cs (ir_l r)) (ir_l r)) EndZero p) (mkIr (skipn (clen cs (ir_l t)) (ir_l t)) EndUndef q)).
Proof.
  intros r t [H1 [H2 [[H3 H4]|[H3 H4]]]].
  - destruct (whole_inv cs _ H4) as [E|[E Hw]].
    + rewrite H3, E. cbn [app]. destruct (dec_term cs Hcs) as [D1 [D2 D3]]. rewrite D1. split; [apply term_dec|]. split; [reflexivity|].
      intros _ p q. split; [reflexivity|]. split; [reflexivity|]. right. cbn [ir_l]. split; [|apply skipn_nil].
      unfold term. apply skipn_all2. rewrite repeat_length. lia.
    + rewrite H3. pose proof (clen_app cs (ir_l r) (term cs) E) as Ec. split; [apply dec_app; exact E|]. split; [exact Ec|].
      intros _ p q. split; [reflexivity|]. split; [reflexivity|]. left. cbn [ir_l]. rewrite Ec. split; [|exact Hw].
      rewrite skipn_app. f_equal. replace (clen cs (ir_l r) - length (ir_l r))%nat with 0%nat by lia. reflexivity.
  - rewrite H3, H4. split; [reflexivity|]. split; [reflexivity|]. intros Hl. pose proof (clen_pos []). cbn [length] in Hl. lia.
Qed.

Lemma fw_need : forall {A} (Q : ird -> ird -> A -> Prop) n k r t (a b : A), ir_m r = EndZero -> ir_m t = EndUndef -> a = b ->
  Q r t b -> fw Q (need n r a) (need k t b).
Proof.
  intros A Q n k r t a b Hr Ht -> H. unfold need at 2. destruct (Nat.leb k (length (ir_l t))); [|rewrite Ht; exact I].
  cbn [fw]. exists r. split; [|exact H]. unfold need. rewrite Hr. destruct (Nat.leb n (length (ir_l r))); reflexivity.
Qed.

Lemma back_skip : forall r t, zback r t ->
  fw (fun r' t' _ => zback r' t') (r_skip (ir_ops cs) r) (r_skip (ir_ops cs) t).
Proof.
  intros r t H. pose proof H as [Hr [Ht Hl]]. destruct (zback_dec r t H) as [_ [Ec Hk]]. cbn [ir_ops r_skip].
  unfold need at 2. destruct (Nat.leb_spec (alen cs (ir_l t)) (length (ir_l t))) as [Ha|Ha]; cbn [bind]; [|rewrite Ht; exact I].
  cbn [fw]. assert (En : need (alen cs (ir_l r)) r tt = Ret r tt) by (unfold need; rewrite Hr; destruct (Nat.leb _ _); reflexivity).
  rewrite En. cbn [bind]. eexists. split; [reflexivity|]. unfold ir_skipto. rewrite Hr, Ht. apply Hk.
  destruct Hl as [[E1 E2]|[E1 _]]; [|rewrite E1 in Ha; cbn [length] in Ha; pose proof (alen_pos cs []); lia].
  rewrite E1, app_length. destruct (whole_inv cs _ E2) as [E|[E _]].
  - rewrite E. cbn [app length]. destruct (dec_term cs Hcs) as [D1 _]. rewrite D1. unfold term. rewrite repeat_length. lia.
  - rewrite (clen_app cs (ir_l r) (term cs) E). lia.
Qed.

Theorem back_fsim : fsim (ir_ops cs) (ir_ops cs) zback zback zback (fun _ => False).
Proof.
  constructor; auto; cbn [ir_ops r_control r_ascii r_chr r_raw r_skip].
  - intros r t H. pose proof (zback_dec r t H) as [D _]. unfold dec in D. injection D as E1 E2 E3 E4.
    pose proof H as [Hr [Ht _]]. apply fw_need; auto. congruence.
  - intros r t H. pose proof (zback_dec r t H) as [D _]. unfold dec in D. injection D as E1 E2 E3 E4.
    pose proof H as [Hr [Ht _]]. apply fw_need; auto. congruence.
  - intros r t H. pose proof (zback_dec r t H) as [D _]. unfold dec in D. injection D as E1 E2 E3 E4.
    pose proof H as [Hr [Ht _]]. apply fw_need; auto.
  - intros r t H. pose proof (zback_dec r t H) as [D _]. unfold dec in D. injection D as E1 E2 E3 E4.
    pose proof H as [Hr [Ht _]]. apply fw_need; auto.
  - intros r t H. apply back_skip. exact H.
  - intros r t H. eapply fw_weaken; [apply back_skip; exact H|]. cbn. auto.
  - apply (it_cc cs).
  - intros t [].
Qed.

(** every call ends *)
Lemma undef_ends : forall cfg n f, (3 * n + 3 < f)%nat -> forall masks s, ir_m (sc_src s) = EndUndef -> (irem (sc_src s) <= n)%nat ->
  scan (ir_ops cs) cfg f masks s <> Fuel.
Proof.
  intros cfg n f Hf. induction masks as [|m masks IH]; intros s Hm Hl; cbn [scan]; [discriminate|].
  pose proof (rank_le (sc_state s)).
  pose proof (ir_undef_nextItem cs cfg Hcs m f s Hm) as Ht.
  assert (Hlt : (3 * irem (sc_src s) + rank (sc_state s) + 1 < f)%nat) by lia. specialize (Ht Hlt).
  destruct (nextItem _ _ f m s) as [s1 t| | | |]; cbn [bind tm] in *; try discriminate; [|contradiction].
  destruct Ht as [Hm1 Hl1]. specialize (IH s1 Hm1 ltac:(lia)).
  destruct (scan _ _ f masks s1); cbn [bind]; congruence.
Qed.
End Behind.

Section Top.
Context (incs outcs : charset) (m : option (list (N * N))) (addr : N).
Hypothesis Hcs : cs_constructible incs = true.
Notation cfg := (xml_config incs outcs m addr).
Notation whole_scan f masks text := (scan (ts_ops src_ops incs) cfg f masks (sc_make (ts_make (src_make text false)))).
Notation cptr_scan' f masks text := (scan (ts_ops cptr_ops incs) cfg f masks (sc_make (ts_make (mkCptr (text ++ term incs) 0)))).

Lemma cptr_init : forall text, Forall isByte text ->
  srel eq (cptrr incs) (sc_make (ts_make (mkCptr (text ++ term incs) 0))) (sc_make (mkIr (text ++ term incs) EndUndef 0)).
Proof.
  intros text Hb. constructor; auto. exists (ts_make (mkStream (text ++ term incs) EndUndef 0)). split.
  - apply tsrel_make. split; [reflexivity|]. split; reflexivity.
  - apply ts_make_rel. apply Forall_app. split; [exact Hb|apply term_bytes].
Qed.

(** the scan from the pointer returns, reads behind the end or is out of fuel *)
Lemma cptr_sim : forall f masks text, Forall isByte text ->
  match cptr_scan' f masks text with
  | Ret s evs => exists t, scan (ir_ops incs) cfg f masks (sc_make (mkIr (text ++ term incs) EndUndef 0)) = Ret t evs
  | Jump _ | Throw _ => False
  | Undef => True
  | Fuel => scan (ir_ops incs) cfg f masks (sc_make (mkIr (text ++ term incs) EndUndef 0)) = Fuel
  end.
Proof.
  intros f masks text Hb.
  pose proof (sim_scan _ _ _ _ eq _ _ (sim_nextItem _ _ cfg _ _ _ _ (cptr_rsim incs Hcs)) (rs_pos _ _ _ _ _ _ (cptr_rsim incs Hcs)) f masks _ _ (cptr_init text Hb)) as H1.
  assert (Hu : EndUndef <> EndZero) by discriminate.
  assert (H0 : srel eq (jrel EndUndef) (sc_make (mkIr (text ++ term incs) EndUndef 0)) (sc_make (mkIr (text ++ term incs) EndUndef 0))) by (constructor; auto; split; auto).
  pose proof (sim_scan _ _ _ _ eq _ _ (sim_nextItem _ _ cfg _ _ _ _ (jr_rsim incs EndUndef Hu)) (rs_pos _ _ _ _ _ _ (jr_rsim incs EndUndef Hu)) f masks _ _ H0) as H2.
  set (x := scan (ir_ops incs) cfg f masks (sc_make (mkIr (text ++ term incs) EndUndef 0))) in *. clearbody x.
  destruct H1 as [s t e1 e2 Hr He|s t Hr|s t Hr| |]; auto.
  - apply evrel_eq in He. subst. eauto.
  - exfalso. inversion H2 as [|? ? Hj|? ? Hj| |]; subst.
    destruct Hr as [? ? r u ? ? ? ? [ts [_ [_ [Hm _]]]]]. inversion Hj as [? ? ? ? ? ? ? ? [_ Hm2]]; subst. cbn in *. congruence.
  - exfalso. inversion H2 as [|? ? Hj|? ? Hj| |]; subst.
    destruct Hr as [? ? r u ? ? ? ? [ts [_ [_ [Hm _]]]]]. inversion Hj as [? ? ? ? ? ? ? ? [_ Hm2]]; subst. cbn in *. congruence.
Qed.

Theorem cptr_back : forall f masks text s' evs', Forall isByte text -> whole incs text -> cptr_scan' f masks text = Ret s' evs' ->
  exists s evs, whole_scan f masks text = Ret s evs /\ map element evs' = map element evs.
Proof.
  intros f masks text s' evs' Hb Hw E. pose proof (cptr_sim f masks text Hb) as H. rewrite E in H. destruct H as [t Et].
  destruct (f_scan _ _ cfg _ _ _ _ (back_fsim incs Hcs) masks f (sc_make (mkIr text EndZero 0)) (sc_make (mkIr (text ++ term incs) EndUndef 0)) t evs') as [u [evs [H1 [_ H2]]]].
  - left. constructor; [|cbn; lia]. split; [reflexivity|]. split; [reflexivity|]. left. auto.
  - exact Et.
  - assert (H : srel eq (srcr incs) (sc_make (ts_make (src_make text false))) (sc_make (mkIr text EndZero 0))).
    { constructor; auto. apply (src_make_rel incs _ false Hb). }
    pose proof (sim_scan _ _ _ _ eq _ _ (sim_nextItem _ _ cfg _ _ _ _ (src_rsim incs Hcs)) (rs_pos _ _ _ _ _ _ (src_rsim incs Hcs)) f masks _ _ H) as G.
    rewrite H1 in G. set (y := whole_scan f masks text) in *. clearbody y. inversion G as [s t0 e1 e2 G1 G2| | | |]; subst. apply evrel_eq in G2. subst e1. eauto.
Qed.

Theorem cptr_hang : forall f masks text, Forall isByte text -> whole incs text -> (forall f, whole_scan f masks text = Fuel) ->
  (3 * (length text + 4) + 3 < f)%nat -> cptr_scan' f masks text = Undef.
Proof.
  intros f masks text Hb Hw Hh Hf. pose proof (cptr_sim f masks text Hb) as H. pose proof (cptr_back f masks text) as B.
  destruct (cptr_scan' f masks text) as [s' evs'| | | |]; try contradiction; auto.
  - destruct (B s' evs' Hb Hw eq_refl) as [s [evs [E _]]]. rewrite Hh in E. discriminate.
  - exfalso. refine (undef_ends incs Hcs cfg (length text + 4) f Hf masks _ _ _ H); [reflexivity|]. unfold irem. cbn [sc_src sc_make ir_l].
    rewrite app_length. unfold term. rewrite repeat_length.
    assert (Hc : (clen incs [] <= 4)%nat) by (clear; destruct incs as [|[]|[]|[]|p]; vm_compute; lia). lia.
Qed.
End Top.
