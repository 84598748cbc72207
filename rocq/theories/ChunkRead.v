(** Reading a text in chunks (proofs). *)
From Verif Require Import Base Iter CharMap CodePages Charset TextScanner Ideal ReaderSim ScannerSim IterSim
  CharsetSpec CharsetProofs ReadSpec ReadProofs.

Ltac Zify.zify_post_hook ::= Z.div_mod_to_equations.

(** ** the character at the start of a text depends on its own bytes only *)
Lemma nb_app_l : forall a c i, (i < length a)%nat -> nb (a ++ c) i = nb a i.
Proof. intros a c i H. unfold nb. apply app_nth1. exact H. Qed.

Lemma clen_app_le : forall cs a c, (length a <= clen cs a)%nat -> (length a <= clen cs (a ++ c))%nat.
Proof.
  intros cs a c H. destruct a as [|x a]; [cbn [length]; lia|].
  destruct cs as [|be|be|be|p]; cbn [clen] in *; try exact H.
  destruct (utf16_size_of_24 (nb ((x :: a) ++ c) (msb be))) as [E|E]; rewrite E; cbn [length] in *.
  - destruct a as [|y a]; [cbn [length]; lia|].
    rewrite nb_app_l in E by (destruct be; cbn; lia). rewrite E in H. exact H.
  - destruct (utf16_size_of_24 (nb (x :: a) (msb be))) as [E2|E2]; rewrite E2 in H; lia.
Qed.

Lemma clen_app : forall cs a c, (clen cs a <= length a)%nat -> clen cs (a ++ c) = clen cs a.
Proof.
  intros cs a c H. pose proof (clen_bounds cs a). destruct cs as [|be|be|be|p]; cbn [clen] in *; try reflexivity.
  - rewrite nb_app_l by lia. reflexivity.
  - rewrite nb_app_l; [reflexivity|].
    destruct (utf16_size_of_24 (nb a (msb be))) as [E|E]; rewrite E in H; destruct be; cbn; lia.
Qed.

Lemma cval_ext : forall cs a b, clen cs a = clen cs b ->
  (forall i, (i < clen cs a)%nat -> nb a i = nb b i) -> cval cs a = cval cs b.
Proof.
  intros cs a b Hl H. pose proof (clen_bounds cs a) as Hb. destruct cs as [|be|be|be|p]; cbn [cval].
  - rewrite <- Hl. apply utf8_value_of_ext; try apply pad_length; [lia|].
    intros i Hi. rewrite !nth_pad by lia. apply H. exact Hi.
  - rewrite <- Hl. apply utf16_value_of_ext; [apply utf16_size_of_24|].
    intros i Hi. rewrite !nth_pad by lia. apply H. exact Hi.
  - unfold ucs2_value_of. cbn [clen] in H. rewrite !nth_pad by (destruct be; cbn; lia).
    rewrite !H by (destruct be; cbn; lia). reflexivity.
  - unfold ucs4_value_of. cbn [clen] in H. rewrite !nth_pad by (destruct be; cbn; lia).
    rewrite !H by (destruct be; cbn; lia). reflexivity.
  - cbn [clen] in H. rewrite H by lia. reflexivity.
Qed.

Lemma dec_app : forall cs a c, (clen cs a <= length a)%nat -> dec cs (a ++ c) = dec cs a.
Proof.
  intros cs a c H. pose proof (clen_app cs a c H) as Hl. pose proof (clen_bounds cs a) as Hb.
  assert (Hv : cval cs (a ++ c) = cval cs a).
  { apply cval_ext; [exact Hl|]. intros i Hi. apply nb_app_l. lia. }
  unfold dec. rewrite Hl, Hv. f_equal.
  - destruct cs; cbn [casc] in *; rewrite ?Hv, ?nb_app_l by lia; reflexivity.
  - unfold pad. rewrite <- app_assoc, !firstn_app.
    replace (clen cs a - length a)%nat with 0%nat by lia. reflexivity.
Qed.

(** ** supplying the next chunk after an interrupt *)
Lemma trelj_resume : forall cs t a p c m p2, Forall isByte c ->
  trelj cs t (mkIr a EndJump p) ->
  trel cs (ts_setSource t (mkStream c m (p2 + N.of_nat (length a)))) (mkIr (a ++ c) m p2).
Proof.
  intros cs t a p c m p2 Hc [[Hb [k [Hr [Hk Hv]]]] [_ [Hpos Hz]]]. cbn [ir_l ir_m ir_p] in *.
  assert (k = length a) by (rewrite <- Hpos; symmetry; apply (rr_pos _ _ _ _ _ Hr)). subst k.
  split; [cbn [ir_l]; apply Forall_app; auto|].
  exists (length a). cbn [ir_l ir_m ir_p]. split; [|split].
  - unfold ts_setSource, rd_it. cbn [ts_rd]. constructor; cbn [rbuf rpos rit rest emode spos].
    + apply (rr_len _ _ _ _ _ Hr).
    + exact Hpos.
    + rewrite skipn_app, skipn_all, Nat.sub_diag. reflexivity.
    + reflexivity.
    + reflexivity.
    + intros j Hj. rewrite nb_app_l by exact Hj. apply (rr_buf _ _ _ _ _ Hr). exact Hj.
    + right. rewrite app_length. lia.
  - apply clen_app_le. exact Hk.
  - left. exact Hz.
Qed.

Definition emode_of (eom : bool) : endmode := if eom then EndJump else EndZero.

Lemma src_resume : forall cs t a p c eom, Forall isByte c ->
  srcrj cs t (mkIr a EndJump p) ->
  exists p2, srcr cs (ts_feed t c eom) (mkIr (a ++ c) (emode_of eom) p2).
Proof.
  intros cs t a p c eom Hc [ts [H1 H2]].
  assert (Ha : (length a <= 8)%nat).
  { destruct H2 as [[_ [k [Hr [Hk _]]]] [_ [Hp _]]]. cbn [ir_l] in *.
    pose proof (clen_bounds cs a). rewrite (rr_pos _ _ _ _ _ Hr) in Hp. lia. }
  exists (2 ^ 64 - N.of_nat (length a)).
  exists (ts_setSource ts (mkStream c (emode_of eom) (2 ^ 64))). split.
  - destruct H1 as [r s v d Hrs]. destruct Hrs as [b q i j Hij]. unfold ts_feed, ts_setSource, rd_it.
    cbn [ts_rd ts_val ts_cur rbuf rpos]. constructor. constructor.
    split; [reflexivity|]. split; [reflexivity|]. cbn [spos].
    unfold src_position, src_make. cbn [si_abs si_buf si_itr]. unfold u64, sub64, u64. lia.
  - replace (2 ^ 64) with (2 ^ 64 - N.of_nat (length a) + N.of_nat (length a)) at 1 by lia.
    eapply trelj_resume; eauto.
Qed.

(** state of the reader of a text in chunks: bytes from the current character on *)
Definition chst cs (rl : charset -> tscan srcit -> ird -> Prop) (t : tscan srcit) (chunks : list (list N)) (l : list N) : Prop :=
  exists a p, rl cs t (mkIr a (emode_of (more chunks)) p) /\ l = a ++ concat chunks /\ Forall isByte l.

Lemma chunk_chr : forall cs chunks t l, cs_constructible cs = true -> chst cs srcr t chunks l ->
  exists t' chunks', resume ts_feed (ts_chr src_ops cs) chunks t = Ret (t', chunks') (cval cs l) /\
    exists a p, srcrp cs t' (mkIr a (emode_of (more chunks')) p) /\ l = a ++ concat chunks' /\
      ready (emode_of (more chunks')) (clen cs a) a = true /\ Forall isByte l.
Proof.
  intros cs chunks t l Hcs. revert t. induction chunks as [|c chunks IH]; intros t [a [p [Ht [-> Hb]]]].
  - cbn [more emode_of concat resume] in *. rewrite app_nil_r in *.
    destruct (chr_ir src_ops cs _ _ _ _ (src_rsim cs Hcs) t _ Ht) as [t1 [E1 H1]]; [apply ready_spec; auto|].
    cbn [ir_l] in E1. rewrite E1. do 2 eexists. split; [reflexivity|]. exists a, p.
    cbn [more emode_of concat]. rewrite app_nil_r. repeat split; auto. apply ready_spec; auto.
  - cbn [more emode_of resume] in *.
    destruct (Nat.leb_spec (clen cs a) (length a)) as [Hl|Hl].
    + destruct (chr_ir src_ops cs _ _ _ _ (src_rsim cs Hcs) t _ Ht) as [t1 [E1 H1]]; [apply ready_spec; auto|].
      cbn [ir_l] in E1. rewrite E1. do 2 eexists. split.
      * f_equal. symmetry. apply (f_equal u_val (dec_app cs a (concat (c :: chunks)) Hl)).
      * exists a, p. repeat split; auto. apply ready_spec; auto.
    + pose proof (rs_chr _ _ _ _ _ _ (src_rsim cs Hcs) t _ Ht) as H.
      cbn [ts_ops ir_ops r_chr ir_l] in H. unfold need in H. cbn [ir_l ir_m] in H.
      destruct (Nat.leb_spec (clen cs a) (length a)); [lia|].
      inversion H as [|s1 t1 Hj E1 E2| | |]; subst.
      cbn [concat] in *. apply Forall_app in Hb. destruct Hb as [Hb1 Hb2].
      pose proof Hb2 as Hb3. apply Forall_app in Hb3. destruct Hb3 as [Hc Hb3].
      destruct (src_resume cs s1 a p c (more chunks) Hc Hj) as [p2 H2].
      destruct (IH (ts_feed s1 c (more chunks))) as [t' [ch' [E' H']]].
      { exists (a ++ c), p2. split; [exact H2|]. rewrite app_assoc. split; auto.
        rewrite <- app_assoc. apply Forall_app; auto. }
      exists t', ch'. split; auto.
Qed.

Lemma chunk_skip : forall cs chunks t l a p, cs_constructible cs = true ->
  srcrp cs t (mkIr a (emode_of (more chunks)) p) -> l = a ++ concat chunks ->
  ready (emode_of (more chunks)) (clen cs a) a = true -> Forall isByte l ->
  exists t', resume ts_feed (ts_skip src_ops cs) chunks t = Ret (t', chunks) tt /\
    chst cs srcr t' chunks (skipn (clen cs l) l).
Proof.
  intros cs chunks t l a p Hcs Ht -> Hn Hb.
  destruct (skip_ir src_ops cs _ _ _ _ (src_rsim cs Hcs) t _ Ht Hn) as [t1 [E1 H1]].
  exists t1. split.
  - destruct chunks; cbn [resume]; rewrite E1; reflexivity.
  - cbn [ir_l] in *. unfold ir_skipto in H1. cbn [ir_l ir_m ir_p] in H1.
    eexists. eexists. split; [exact H1|].
    assert (Heq : skipn (clen cs (a ++ concat chunks)) (a ++ concat chunks) = skipn (clen cs a) a ++ concat chunks).
    { destruct chunks as [|c chunks].
      - cbn [concat]. rewrite !app_nil_r. reflexivity.
      - apply ready_spec in Hn. cbn [more emode_of] in Hn. destruct Hn as [Hn|Hn]; [discriminate|].
        rewrite clen_app by auto. rewrite skipn_app. replace (clen cs a - length a)%nat with 0%nat by lia. reflexivity. }
    split; [exact Heq|].
    rewrite Forall_forall in *. intros x Hx. apply Hb.
    rewrite <- (firstn_skipn (clen cs (a ++ concat chunks)) (a ++ concat chunks)). apply in_or_app. auto.
Qed.

Lemma readChunked_vals : forall cs n t chunks l, cs_constructible cs = true -> chst cs srcr t chunks l ->
  exists st', readChunked cs n (t, chunks) = Ret st' (vals cs n l).
Proof.
  intros cs n. induction n as [|n IH]; intros t chunks l Hcs H; cbn [readChunked vals fst snd]; [eauto|].
  destruct (chunk_chr cs chunks t l Hcs H) as [t1 [ch1 [E1 [a [p [H1 [Hl [Hn Hb]]]]]]]].
  rewrite E1. cbn [bind fst snd].
  destruct (chunk_skip cs ch1 t1 l a p Hcs H1 Hl Hn Hb) as [t2 [E2 H2]].
  rewrite E2. cbn [bind]. destruct (IH t2 ch1 _ Hcs H2) as [st' E3]. rewrite E3. cbn [bind]. eauto.
Qed.
