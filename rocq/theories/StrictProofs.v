(** Iterators that must not be incremented behind the end: the same as pointers that must not be read there (proofs). *)
From Verif Require Import Base Iter CharMap CodePages Charset TextScanner Ideal ReaderSim ScannerSim IterSim
  CharsetSpec CharsetProofs ReadSpec ReadProofs ChunkRead ChunkScan CstrSim XmlScanner ScanSpec ScanProofs Safety FuelMono Term SourceFwd SourceSim SourceBack
  StrictIter Grammar.

Ltac Zify.zify_post_hook ::= Z.div_mod_to_equations.

(** ** An iterator that cannot be incremented at the end *)
Record strict {I : Type} (o1 : iterops I) (ri : I -> stream -> Prop) : Prop := mkStrict {
  st_mode : forall i s, ri i s -> emode s = EndUndef;
  st_end : forall i s, ri i s -> rest s = [] -> incr o1 i = Undef /\ (deref o1 i = Undef \/ exists b, deref o1 i = Ret i b);
  st_next : forall i s b l, ri i s -> rest s = b :: l ->
    deref o1 i = Ret i b /\ exists i', incr o1 i = Ret i' tt /\ ri i' (mkStream l EndUndef (spos s + 1));
  st_pos : forall i s k, ri i s -> sub64 (ipos o1 i) k = sub64 (spos s) k
}.

Section Strict.
Context {I : Type} (o1 : iterops I) (ri : I -> stream -> Prop).
Notation o2 := stream_ops.
Notation J := stream.
Hypothesis Hi : strict o1 ri.

Inductive rdrel : rd I -> rd J -> Prop :=
| rdrel_i : forall b p i j, ri i j -> rdrel (mkRdr b p i) (mkRdr b p j).
Inductive tsrel : tscan I -> tscan J -> Prop :=
| tsrel_i : forall r s v c, rdrel r s -> tsrel (mkTs r v c) (mkTs s v c).

Lemma rdrel_it : forall r s i j, rdrel r s -> ri i j -> rdrel (rd_it r i) (rd_it s j).
Proof. intros r s i j H Hij. destruct H. constructor. auto. Qed.
Lemma rdrel_pos : forall r s, rdrel r s -> rpos r = rpos s.
Proof. intros r s H. destruct H. reflexivity. Qed.
Lemma rdrel_bufeq : forall r s, rdrel r s -> rbuf r = rbuf s.
Proof. intros r s H. destruct H. reflexivity. Qed.
Lemma rdrel_bufat : forall r s i, rdrel r s -> bufat r i = bufat s i.
Proof. intros r s i H. destruct H. reflexivity. Qed.

Lemma ssim_fetch1 : forall r s, rdrel r s -> orel rdrel rdrel (fetch1 o1 r) (fetch1 o2 s).
Proof.
  intros r s H. destruct H as [b p i j Hij]. unfold fetch1. cbn [rit rbuf rpos]. cbn [stream_ops deref incr]. unfold stream_deref.
  destruct (rest j) as [|x l] eqn:El.
  - rewrite (st_mode _ _ Hi i j Hij). destruct (st_end _ _ Hi i j Hij El) as [E1 [E2|[y E2]]]; rewrite E2; [constructor|].
    destruct (Nat.ltb p 8); [|constructor]. rewrite E1. constructor.
  - destruct (st_next _ _ Hi i j x l Hij El) as [E1 [i' [E2 H']]]. rewrite E1. destruct (Nat.ltb p 8); [|constructor]. rewrite E2.
    unfold stream_incr. cbn [omap bind]. constructor. constructor. cbn [rit rd_it]. rewrite El, (st_mode _ _ Hi i j Hij). cbn [tl]. exact H'.
Qed.

Lemma ssim_skips : forall n r s, rdrel r s -> (n <= length (rest (rit s)))%nat ->
  orel rdrel rdrel (repeatM n (skip1 o1) r) (repeatM n (skip1 o2) s).
Proof.
  induction n as [|n IH]; intros r s H Hn; cbn [repeatM]; [constructor; exact H|].
  destruct H as [b p i j Hij]. cbn [rit] in Hn. destruct (rest j) as [|x l] eqn:El; cbn [length] in Hn; [lia|].
  destruct (st_next _ _ Hi i j x l Hij El) as [_ [i' [E2 H']]].
  unfold skip1 at 1 3. cbn [rit stream_ops incr]. rewrite E2. unfold stream_incr. cbn [omap bind]. apply IH.
  - constructor. cbn [rit rd_it]. rewrite El, (st_mode _ _ Hi i j Hij). cbn [tl]. exact H'.
  - cbn [rit rd_it rest]. rewrite El. cbn [tl]. lia.
Qed.

Lemma ssim_repeatM : forall n f g, (forall r s, rdrel r s -> orel rdrel rdrel (f r) (g s)) ->
  forall r s, rdrel r s -> orel rdrel rdrel (repeatM n f r) (repeatM n g s).
Proof.
  induction n as [|n IH]; intros f g Hfg r s H; cbn [repeatM]; [constructor; auto|].
  eapply orel_bind; [apply Hfg; auto|]. intros r' s' u H'. apply IH; auto.
Qed.

Lemma ssim_fill : forall n r s, rdrel r s -> orel rdrel rdrel (fill o1 n r) (fill o2 n s).
Proof.
  intros n r s H. unfold fill. rewrite (rdrel_pos _ _ H). apply ssim_repeatM; auto. apply ssim_fetch1.
Qed.
Lemma ssim_first : forall r s, rdrel r s -> orel rdrel rdrel (utf8_first o1 r) (utf8_first o2 s).
Proof.
  intros r s H. unfold utf8_first. rewrite (rdrel_pos _ _ H).
  destruct (Nat.eqb (rpos s) 0); [apply ssim_fetch1; auto|constructor; auto].
Qed.
Lemma ssim_utf8size : forall r s, rdrel r s -> orel rdrel rdrel (utf8_size o1 r) (utf8_size o2 s).
Proof.
  intros r s H. unfold utf8_size. eapply orel_bind; [apply ssim_first; auto|].
  intros r' s' u H'. rewrite (rdrel_bufat _ _ 0%nat H').
  destruct (cm_get _ _); constructor; auto.
Qed.
Lemma ssim_utf8fetch : forall r s, rdrel r s -> orel rdrel rdrel (utf8_fetch o1 r) (utf8_fetch o2 s).
Proof.
  intros r s H. unfold utf8_fetch. eapply orel_bind; [apply ssim_first; auto|].
  intros r' s' u H'. eapply orel_bind; [apply ssim_utf8size; auto|].
  intros r2 s2 n H2. apply ssim_fill. auto.
Qed.
Lemma ssim_utf16size : forall be r s, rdrel r s -> orel rdrel rdrel (utf16_size o1 be r) (utf16_size o2 be s).
Proof.
  intros be r s H. unfold utf16_size. eapply orel_bind; [apply ssim_fill; auto|].
  intros r' s' u H'. rewrite (rdrel_bufat _ _ (msb be) H'). constructor. auto.
Qed.

Lemma ssim_value : forall cs r s, rdrel r s -> orel rdrel rdrel (cs_value o1 cs r) (cs_value o2 cs s).
Proof.
  intros cs r s H. destruct cs; cbn [cs_value].
  - unfold utf8_value. eapply orel_bind; [apply ssim_utf8fetch; auto|].
    intros r' s' u H'. rewrite (rdrel_bufeq _ _ H'), (rdrel_pos _ _ H'). constructor. auto.
  - unfold utf16_value. eapply orel_bind; [apply ssim_utf16size; auto|].
    intros r' s' n H'. eapply orel_bind with (RR := rdrel).
    + destruct (Nat.eqb n 4); [apply ssim_fill; auto|constructor; auto].
    + intros r2 s2 u H2. rewrite (rdrel_bufeq _ _ H2). constructor. auto.
  - unfold ucs2_value, ucs2_fetch. eapply orel_bind; [apply ssim_fill; auto|].
    intros r2 s2 u H2. rewrite (rdrel_bufeq _ _ H2). constructor. auto.
  - unfold ucs4_value, ucs4_fetch. eapply orel_bind; [apply ssim_fill; auto|].
    intros r2 s2 u H2. rewrite (rdrel_bufeq _ _ H2). constructor. auto.
  - unfold iso_value, iso_fetch. eapply orel_bind; [apply ssim_fill; auto|].
    intros r2 s2 u H2. rewrite (rdrel_bufat _ _ 0%nat H2).
    destruct (ucharcode page (bufat s2 0)); constructor. auto.
Qed.

Lemma ssim_ascii : forall cs r s, rdrel r s -> orel rdrel rdrel (cs_ascii o1 cs r) (cs_ascii o2 cs s).
Proof.
  intros cs r s H. pose proof (ssim_value cs r s H) as Hv.
  destruct cs; cbn [cs_ascii cs_value] in *;
    try (eapply orel_bind; [exact Hv|]; intros r' s' v H'; constructor; auto; fail).
  - unfold utf8_ascii. eapply orel_bind; [apply ssim_first; auto|].
    intros r' s' u H'. rewrite (rdrel_bufat _ _ 0%nat H'). constructor. auto.
  - unfold iso_ascii, iso_fetch. eapply orel_bind; [apply ssim_fill; auto|].
    intros r' s' u H'. rewrite (rdrel_bufat _ _ 0%nat H'). constructor. auto.
Qed.

Lemma ssim_csfetch : forall cs r s, rdrel r s -> orel rdrel rdrel (cs_fetch o1 cs r) (cs_fetch o2 cs s).
Proof.
  intros cs r s H. destruct cs; cbn [cs_fetch]; try (apply ssim_fill; auto; fail).
  apply ssim_utf8fetch. auto.
Qed.

Lemma ssim_lift : forall {A} r s v c (x : out (rd I) A) (y : out (rd J) A),
  orel rdrel rdrel x y -> orel tsrel tsrel (ts_lift (mkTs r v c) x) (ts_lift (mkTs s v c) y).
Proof.
  intros A r s v c x y H. unfold ts_lift. eapply orel_omap; [exact H| |]; intros a b Hab; constructor; auto.
Qed.

Lemma ssim_getcur : forall cs t u, tsrel t u -> orel tsrel tsrel (ts_getcur o1 cs t) (ts_getcur o2 cs u).
Proof.
  intros cs t u H. destruct H as [r s v c H]. unfold ts_getcur.
  eapply orel_bind; [apply ssim_lift; cbn [ts_rd]; apply ssim_ascii; auto|].
  intros t' u' a H'. destruct H'. constructor. constructor. auto.
Qed.


(** skip() after a look at a complete character *)
Lemma ssim_csskip : forall cs l p k r s, rdrel r s -> rrel l EndUndef p k s -> (alen cs l <= k)%nat -> (k <= clen cs l)%nat -> (clen cs l <= length l)%nat -> Forall isByte l ->
  orel rdrel rdrel (cs_skip o1 cs r) (cs_skip o2 cs s).
Proof.
  intros cs l p k r s H Hr Ha Hk Hl Hb.
  assert (Hadv : forall n, (n <= clen cs l)%nat -> orel rdrel rdrel (advance o1 n r) (advance o2 n s)).
  { intros n Hn. unfold advance. rewrite (rdrel_pos _ _ H). apply ssim_skips; [exact H|].
    rewrite (rr_pos _ _ _ _ _ Hr), (rr_rest _ _ _ _ _ Hr), skipn_length. lia. }
  pose proof (rdrel_pos _ _ H) as Ep. pose proof (rr_pos _ _ _ _ _ Hr) as Eq.
  destruct cs as [|be|be|be|pg]; cbn [cs_skip].
  - cbn [alen] in Ha. unfold utf8_skip, utf8_size, utf8_first. rewrite Ep, Eq. destruct (Nat.eqb_spec k 0) as [E|E]; [lia|]. cbn [bind].
    rewrite (rdrel_bufat _ _ 0%nat H), (rr_at _ _ _ _ _ 0%nat Hr) by lia.
    rewrite utf8LengthTab_get by (apply nb_byte; exact Hb). cbn [bind]. apply Hadv. rewrite clen_utf8. unfold ulen. lia.
  - unfold utf16_skip, utf16_size, utf16_fetch, fill. rewrite Ep, Eq. cbn [alen clen] in *.
    assert (Hm : (2 <= k)%nat) by (destruct (utf16_size_of_24 (nb l (msb be))) as [E|E]; rewrite E in *; lia).
    replace (2 - k)%nat with 0%nat by lia. cbn [repeatM bind].
    rewrite (rdrel_bufat _ _ (msb be) H), (rr_at _ _ _ _ _ (msb be) Hr) by (destruct be; cbn; lia).
    apply Hadv. reflexivity.
  - apply Hadv. cbn [clen]. lia.
  - apply Hadv. cbn [clen]. lia.
  - apply Hadv. cbn [clen]. lia.
Qed.

(** ** The ideal reader of a text of complete characters, without anything behind it *)
Definition sr (cs : charset) (t : tscan I) (r : ird) : Prop :=
  exists u, tsrel t u /\ trel cs u r /\ ir_m r = EndUndef /\ whole cs (ir_l r).
Definition srp (cs : charset) (t : tscan I) (r : ird) : Prop :=
  exists u, tsrel t u /\ trelp cs u r /\ ir_m r = EndUndef /\ whole cs (ir_l r).

Lemma orel_three : forall {A} cs (x : out (tscan I) A) (y : out (tscan stream) A) n r (a : A), ir_m r = EndUndef -> whole cs (ir_l r) ->
  orel tsrel tsrel x y -> orel (trelp cs) (trelj cs) y (need n r a) -> orel (srp cs) (fun _ _ => False) x (need n r a).
Proof.
  intros A cs x y n r a Hm Hw H1 H2. unfold need in *. rewrite Hm in *. destruct (Nat.leb n (length (ir_l r))).
  - inversion H2; subst. inversion H1; subst. constructor. eexists. split; [eassumption|]. auto.
  - inversion H2; subst. inversion H1; subst. constructor.
Qed.

Theorem strict_rsim : forall cs, cs_constructible cs = true -> rsim eq (ts_ops o1 cs) (ir_ops cs) (sr cs) (srp cs) (fun _ _ => False).
Proof.
  intros cs Hcs. pose proof (ts_rsim cs Hcs) as [_ R1 R2 R3 R4 R5 R6]. constructor.
  - intros t r [u [H1 [[H2 _] H3]]]. exists u. auto.
  - intros t r [u [H1 [H2 [H3 H4]]]]. eapply orel_three; [exact H3|exact H4| |apply R1; exact H2].
    cbn [ts_ops r_control]. unfold ts_control. eapply orel_bind; [apply ssim_getcur; exact H1|].
    intros t' u' a H'. destruct H' as [r0 s v c H']. cbn [ts_cur]. destruct (cm_get controlCharMap c); constructor. constructor. auto.
  - intros t r [u [H1 [H2 [H3 H4]]]]. eapply orel_three; [exact H3|exact H4| |apply R2; exact H2].
    cbn [ts_ops r_ascii]. unfold ts_ascii. eapply orel_bind; [apply ssim_getcur; exact H1|].
    intros t' u' a H'. destruct H' as [r0 s v c H']. cbn [ts_cur]. constructor. constructor. auto.
  - intros t r [u [H1 [H2 [H3 H4]]]]. eapply orel_three; [exact H3|exact H4| |apply R3; exact H2].
    cbn [ts_ops r_chr]. destruct H1 as [r0 s v c H]. unfold ts_chr. cbn [ts_val].
    destruct (v =? 0); [|constructor; constructor; auto].
    eapply orel_bind; [apply ssim_lift; cbn [ts_rd]; apply ssim_value; auto|].
    intros t' u' a H'. destruct H'. constructor. constructor. auto.
  - intros t r [u [H1 [H2 [H3 H4]]]]. eapply orel_three; [exact H3|exact H4| |apply R4; exact H2].
    cbn [ts_ops r_raw]. destruct H1 as [r0 s v c H]. unfold ts_raw.
    eapply orel_bind; [apply ssim_lift; cbn [ts_rd]; apply ssim_csfetch; auto|].
    intros t' u' a H'. destruct H' as [r' s' v' c' H']. cbn [ts_rd].
    rewrite (rdrel_pos _ _ H'), (rdrel_bufeq _ _ H'). constructor. constructor. auto.
  - intros t r [u [H1 [H2 [H3 H4]]]]. pose proof (R5 _ _ H2) as Hy. destruct H2 as [[Hb [k [Hr [Hk Hv]]]] Hp]. rewrite H3 in Hr.
    pose proof (rr_pos _ _ _ _ _ Hr) as Ek. rewrite Ek in Hp. pose proof (rr_end _ _ _ _ _ Hr) as [He|He]; [discriminate|].
    pose proof (alen_pos cs (ir_l r)) as Ha. destruct (whole_inv cs _ H4) as [E|[Hl Hw]]; [rewrite E in He; cbn [length] in He; lia|].
    destruct H1 as [r0 s v c H]. cbn [ts_rd] in *.
    pose proof (ssim_csskip cs _ _ _ _ _ H Hr Hp Hk Hl Hb) as Hx.
    cbn [ts_ops ir_ops r_skip] in Hy |- *. unfold need in *. destruct (Nat.leb_spec (alen cs (ir_l r)) (length (ir_l r))); [|lia]. cbn [bind] in *.
    unfold ts_skip, ts_lift in *. cbn [ts_rd ts_val ts_cur] in *.
    destruct Hx as [r1 s1 [] Hx|r1 s1 Hx|r1 s1 Hx| |]; cbn [omap bind] in *; inversion Hy; subst.
    constructor. cbn [ts_rd ts_val ts_cur] in *. destruct Hx as [b q i j Hij]. cbn [rbuf rpos rit] in *. eexists. split; [|split; [eassumption|]].
    + constructor. constructor. exact Hij.
    + split; [exact H3|exact Hw].
  - intros t r [u [H1 [H2 [H3 H4]]]]. rewrite <- (R6 _ _ H2). cbn [ts_ops r_pos]. destruct H1 as [r0 s v c H]. destruct H. unfold ts_position. cbn [ts_rd rit rpos].
    apply (st_pos _ _ Hi). auto.
Qed.

Lemma strict_scan : forall cs cfg f masks i l p, cs_constructible cs = true -> Forall isByte l -> whole cs l -> ri i (mkStream l EndUndef p) ->
  match scan (ts_ops o1 cs) cfg f masks (sc_make (ts_make i)) with
  | Ret _ evs => exists t, scan (ir_ops cs) cfg f masks (sc_make (mkIr l EndUndef p)) = Ret t evs
  | Jump _ | Throw _ => False
  | Undef => scan (ir_ops cs) cfg f masks (sc_make (mkIr l EndUndef p)) = Undef
  | Fuel => scan (ir_ops cs) cfg f masks (sc_make (mkIr l EndUndef p)) = Fuel
  end.
Proof.
  intros cs cfg f masks i l p Hcs Hb Hw Hr.
  assert (H : srel eq (sr cs) (sc_make (ts_make i)) (sc_make (mkIr l EndUndef p))).
  { constructor; auto. exists (ts_make (mkStream l EndUndef p)). split; [constructor; constructor; exact Hr|].
    split; [apply ts_make_rel; exact Hb|]. split; [reflexivity|exact Hw]. }
  pose proof (sim_scan _ _ _ _ eq _ _ (sim_nextItem _ _ cfg _ _ _ _ (strict_rsim cs Hcs)) (rs_pos _ _ _ _ _ _ (strict_rsim cs Hcs)) f masks _ _ H) as G.
  destruct G as [s t e1 e2 G1 G2|s t G|s t G| |]; auto.
  - apply evrel_eq in G2. subst. eauto.
  - destruct G as [? ? ? ? ? ? ? ? []].
  - destruct G as [? ? ? ? ? ? ? ? []].
Qed.
End Strict.

(** ** The two kinds *)
Definition srcs_rel (i : srcit) (s : stream) : Prop :=
  si_eom i = false /\ emode s = EndUndef /\ rest s = skipn (N.to_nat (si_itr i)) (si_buf i) /\ u64 (spos s) = src_position i /\ si_itr i <= N.of_nat (length (si_buf i)).

Lemma srcs_strict : strict srcs_ops srcs_rel.
Proof.
  constructor; cbn [srcs_ops deref incr ipos].
  - intros i s H. apply H.
  - intros i s [H1 [H2 [H3 [H4 H5]]]] E. assert (Hl : length (skipn (N.to_nat (si_itr i)) (si_buf i)) = 0%nat) by (rewrite <- H3, E; reflexivity).
    rewrite skipn_length in Hl. split.
    + unfold srcs_incr. destruct (N.ltb_spec (si_itr i) (N.of_nat (length (si_buf i)))); [lia|reflexivity].
    + right. exists 0. unfold src_deref. rewrite nth_error_skipn_hd, <- H3, E, H1. reflexivity.
  - intros i s b l [H1 [H2 [H3 [H4 H5]]]] E. assert (Hl : length (skipn (N.to_nat (si_itr i)) (si_buf i)) = S (length l)) by (rewrite <- H3, E; reflexivity).
    rewrite skipn_length in Hl. split.
    + unfold src_deref. rewrite nth_error_skipn_hd, <- H3, E. reflexivity.
    + unfold srcs_incr. destruct (N.ltb_spec (si_itr i) (N.of_nat (length (si_buf i)))); [|lia]. eexists. split; [reflexivity|].
      split; [exact H1|]. split; [reflexivity|]. cbn [rest spos si_buf si_itr]. split; [|split; [|lia]].
      * replace (N.to_nat (si_itr i + 1)) with (S (N.to_nat (si_itr i))) by lia. rewrite skipn_S_tl, <- H3, E. reflexivity.
      * unfold src_position in *. cbn [si_abs si_buf si_itr]. rewrite <- u64_add_l, H4, !u64_add_l. f_equal. lia.
  - intros i s k [H1 [H2 [H3 [H4 H5]]]]. apply sub64_mod. rewrite H4. unfold src_position. apply u64_idem.
Qed.

Definition cptrs_rel (i : cptr) (s : stream) : Prop := cptr_rel i s /\ cp_pos i <= N.of_nat (length (cp_mem i)).
Lemma cptrs_strict : strict cptrs_ops cptrs_rel.
Proof.
  constructor; cbn [cptrs_ops deref incr ipos].
  - intros i s H. apply H.
  - intros i s [[H1 [H2 H3]] H5] E. assert (Hl : length (skipn (N.to_nat (cp_pos i)) (cp_mem i)) = 0%nat) by (rewrite <- H2, E; reflexivity).
    rewrite skipn_length in Hl. split.
    + unfold cptrs_incr. destruct (N.ltb_spec (cp_pos i) (N.of_nat (length (cp_mem i)))); [lia|reflexivity].
    + left. unfold cptr_deref. rewrite nth_error_skipn_hd, <- H2, E. reflexivity.
  - intros i s b l [[H1 [H2 H3]] H5] E. assert (Hl : length (skipn (N.to_nat (cp_pos i)) (cp_mem i)) = S (length l)) by (rewrite <- H2, E; reflexivity).
    rewrite skipn_length in Hl. split.
    + unfold cptr_deref. rewrite nth_error_skipn_hd, <- H2, E. reflexivity.
    + unfold cptrs_incr. destruct (N.ltb_spec (cp_pos i) (N.of_nat (length (cp_mem i)))); [|lia]. eexists. split; [reflexivity|].
      split; [|cbn [cp_pos cp_mem]; lia]. split; [reflexivity|]. cbn [rest spos cp_pos cp_mem]. split; [|lia].
      replace (N.to_nat (cp_pos i + 1)) with (S (N.to_nat (cp_pos i))) by lia. rewrite skipn_S_tl, <- H2, E. reflexivity.
  - intros i s k [[H1 [H2 H3]] H5]. congruence.
Qed.

(** ** Without a null character the state EXIT is not reached *)
Section NoExit.
Context {R : Type} (rops : readerops R) (cfg : config).
Hypothesis Hc : forall r r' c, r_control rops r = Ret r' c -> c <> CEndOfText.

Lemma next_noexit : forall s e c, stm_get s = Some e -> c <> CEndOfText -> nth_error (el_next e) (ctl_idx c) <> Some (Some EXIT).
Proof. intros s e c H Hn. destruct s; vm_compute in H; injection H as <-; destruct c; try congruence; discriminate. Qed.
Lemma fallback_noexit : forall s e, stm_get s = Some e -> el_fallback e <> Some EXIT.
Proof. intros s e H. destruct s; vm_compute in H; injection H as <-; discriminate. Qed.

Lemma nstep_noexit : forall f mask s s' o, sc_state s <> EXIT -> nstep rops cfg f mask s = Ret s' o -> sc_state s' <> EXIT.
Proof.
  intros f mask s s' o Hs H. unfold nstep in H. destruct (stm_get (sc_state s)) as [e|] eqn:He; [|discriminate].
  pose proof (fallback_noexit _ _ He) as Hf.
  assert (Hact : forall s1 r, (match el_action e with
         | None => Ret s (ENone, false)
         | Some (a, arg) =>
             let! (s1, res) := doAction rops cfg f mask a arg s in
             match res with
             | inr _ => Ret s1 (EErrorOccurred, true)
             | inl rt =>
                 if Nat.eqb (el_nofnext e) 0
                 then Ret (match el_fallback e with Some fs => set_state fs s1 | None => s1 end) (rt, true)
                 else Ret s1 (rt, false)
             end
         end) = Ret s1 r -> sc_state s1 <> EXIT).
  { intros s1 r. destruct (el_action e) as [[a arg]|] eqn:Ea.
    - assert (Hst := stk_doAction rops cfg f mask a arg (sc_state s) s eq_refl).
      destruct (doAction rops cfg f mask a arg s) as [s2 res| | | |] eqn:Ed; cbn [bind]; try discriminate. cbn [stk] in Hst.
      destruct res as [rt|]; [|intros E; injection E as <- <-; congruence].
      destruct (Nat.eqb (el_nofnext e) 0); intros E; injection E as <- <-; [|congruence].
      destruct (el_fallback e) as [fs|]; [cbn [set_state sc_state]; congruence|congruence].
    - intros E; injection E as <- <-. exact Hs. }
  destruct (match el_action e with None => _ | Some _ => _ end) as [s1 r| | | |]; cbn [bind] in H; try discriminate.
  specialize (Hact s1 r eq_refl). destruct r as [rt b]. cbn [fst snd] in *. destruct b; [injection H as <- <-; exact Hact|].
  pose proof (stk_src (sc_state s1) (r_control rops) s1 eq_refl) as Hk. fold (sc_control rops s1) in Hk.
  assert (Hcc : forall s2 c, sc_control rops s1 = Ret s2 c -> c <> CEndOfText).
  { intros s2 c E. unfold sc_control, on_src in E. destruct (r_control rops (sc_src s1)) as [r' c'| | | |] eqn:Er; try discriminate. injection E as _ <-. eapply Hc; eauto. }
  destruct (sc_control rops s1) as [s2 c| | | |]; cbn [bind] in H; try discriminate. specialize (Hcc s2 c eq_refl). cbn [stk] in Hk.
  unfold transition in H. pose proof (next_noexit _ _ c He Hcc) as Hnx. destruct (nth_error (el_next e) (ctl_idx c)) as [[ns|]|] eqn:En; [| |discriminate].
  - pose proof (stk_src ns (r_skip rops) (set_state ns (upd_tok (tok_id TStart) s2)) eq_refl) as Hk2.
    fold (sc_skip rops (set_state ns (upd_tok (tok_id TStart) s2))) in Hk2.
    destruct (sc_skip rops _) as [s3 u| | | |]; cbn [bind] in H; try discriminate. cbn [stk] in Hk2.
    destruct (isNone rt); injection H as <- <-; congruence.
  - destruct (el_fallback e) as [fs|]; cbn [bind] in H.
    + destruct (isNone rt); injection H as <- <-; cbn [set_state sc_state]; congruence.
    + destruct (el_miss e); cbn [bind] in H; [injection H as <- <-|destruct (isNone rt); injection H as <- <-]; cbn; congruence.
Qed.

Lemma next_not_exit : forall mask f s s' t, sc_state s <> EXIT -> nextItem rops cfg f mask s = Ret s' t -> sc_state s' <> EXIT /\ t <> EExit.
Proof.
  intros mask f s s' t Hs H. assert (Hn : sc_state s' <> EXIT).
  { revert s Hs H. induction f as [|f IH]; intros s Hs H; [discriminate H|]. rewrite nextItem_step in H.
    destruct (nstep rops cfg f mask s) as [s3 o| | | |] eqn:E; cbn [bind] in H; try discriminate.
    pose proof (nstep_noexit _ _ _ _ _ Hs E) as H3. destruct o as [t3|]; [injection H as <- _; exact H3|]. eapply IH; eauto. }
  split; [exact Hn|]. intros ->. apply Hn. eapply exit_state; eauto.
Qed.

Lemma scan_not_exit : forall f masks s s' evs, sc_state s <> EXIT -> scan rops cfg f masks s = Ret s' evs -> ~ In EExit (map ev_type evs).
Proof.
  intros f. induction masks as [|m masks IH]; intros s s' evs Hs H; cbn [scan] in H.
  - injection H as <- <-. intros [].
  - destruct (nextItem rops cfg f m s) as [s1 t| | | |] eqn:E; cbn [bind] in H; try discriminate.
    destruct (next_not_exit _ _ _ _ _ Hs E) as [H1 H2].
    destruct (scan rops cfg f masks s1) as [s2 evs2| | | |] eqn:E2; cbn [bind] in H; try discriminate. injection H as <- <-.
    cbn [map]. intros [Hx|Hx]; [apply H2; exact Hx|]. eapply IH; eauto.
Qed.
End NoExit.

(** the ideal reader with an undefined end of text *)
Definition irn_ops (cs : charset) : readerops ird :=
  mkReaderops
    (fun r => match r_control (ir_ops cs) r with Ret r' CEndOfText => Undef | x => x end)
    (r_ascii (ir_ops cs)) (r_chr (ir_ops cs)) (r_raw (ir_ops cs)) (r_skip (ir_ops cs)) (r_pos (ir_ops cs)).
Definition nonull (cs : charset) (r t : ird) : Prop :=
  r = t /\ ir_m r = EndUndef /\ exists cl, ir_l r = flat_map (cs_print cs) cl /\ Forall (representable cs) cl /\ ~ In 0 cl.

Lemma irn_rsim : forall cs, cs_constructible cs = true -> rsim eq (ir_ops cs) (irn_ops cs) (nonull cs) (nonull cs) (fun _ _ => False).
Proof.
  intros cs Hcs.
  assert (Hneed : forall A n r (a : A), nonull cs r r -> orel (nonull cs) (fun _ _ => False) (need n r a) (need n r a)).
  { intros A n r a H. unfold need. destruct (Nat.leb _ _); [constructor; exact H|]. destruct H as [_ [-> _]]. constructor. }
  constructor; cbn [irn_ops ir_ops r_control r_ascii r_chr r_raw r_skip r_pos]; try (intros r t H; assert (H0 := H); destruct H as [<- H]; auto; fail).
  - intros r t H. assert (H0 := H). destruct H as [<- [Hm [cl [El [Hr Hn]]]]]. unfold need at 2.
    destruct (Nat.leb_spec (alen cs (ir_l r)) (length (ir_l r))) as [Hl|Hl]; [|rewrite Hm; unfold need; destruct (Nat.leb_spec (alen cs (ir_l r)) (length (ir_l r))); [lia|]; rewrite Hm; constructor].
    assert (Hx : ctl_of (casc cs (ir_l r)) <> CEndOfText).
    { destruct cl as [|c cl].
      - rewrite El in Hl. cbn [flat_map length] in Hl. pose proof (alen_pos cs []). lia.
      - inversion Hr as [|? ? Hc Hr2]; subst. assert (Hc0 : c <> 0) by (intros ->; apply Hn; left; reflexivity).
        rewrite El. cbn [flat_map]. pose proof (f_equal u_asc (dec_print cs c (flat_map (cs_print cs) cl) Hcs Hc)) as Ed. cbn [u_asc dec uchr_of] in Ed. rewrite Ed.
        destruct (N.ltb_spec c 128) as [Hlt|Hlt]; [|vm_compute; discriminate].
        assert (Hall : forallb (fun n => match ctl_of (N.of_nat n) with CEndOfText => false | _ => true end) (seq 1 127) = true) by (vm_compute; reflexivity).
        rewrite forallb_forall in Hall. specialize (Hall (N.to_nat c)). rewrite N2Nat.id in Hall. intros E. rewrite E in Hall.
        assert (false = true) by (apply Hall; apply in_seq; lia). discriminate. }
    unfold need. destruct (Nat.leb_spec (alen cs (ir_l r)) (length (ir_l r))); [|lia]. destruct (ctl_of (casc cs (ir_l r))); try congruence; (constructor; exact H0).
  - intros r t H. assert (H0 := H). destruct H as [<- [Hm [cl [El [Hr Hn]]]]]. unfold need. destruct (Nat.leb_spec (alen cs (ir_l r)) (length (ir_l r))) as [Hl|Hl]; cbn [bind]; [|rewrite Hm; constructor].
    constructor. split; [reflexivity|]. split; [exact Hm|]. cbn [ir_skipto ir_l]. destruct cl as [|c cl].
    + rewrite El in Hl. cbn [flat_map length] in Hl. pose proof (alen_pos cs []). lia.
    + inversion Hr as [|? ? Hc Hr2]; subst. exists cl. rewrite El. cbn [flat_map]. rewrite clen_print by assumption. rewrite skipn_app_exact by reflexivity.
      split; [reflexivity|]. split; [exact Hr2|]. intros Hx. apply Hn. right. exact Hx.
Qed.

Lemma nonull_noexit : forall cs cfg f masks cl s evs, cs_constructible cs = true -> Forall (representable cs) cl -> ~ In 0 cl ->
  scan (ir_ops cs) cfg f masks (sc_make (mkIr (flat_map (cs_print cs) cl) EndUndef 0)) = Ret s evs -> ~ In EExit (map ev_type evs).
Proof.
  intros cs cfg f masks cl s evs Hcs Hr Hn E.
  assert (H : srel eq (nonull cs) (sc_make (mkIr (flat_map (cs_print cs) cl) EndUndef 0)) (sc_make (mkIr (flat_map (cs_print cs) cl) EndUndef 0))).
  { constructor; auto. split; [reflexivity|]. split; [reflexivity|]. exists cl. auto. }
  pose proof (sim_scan _ _ _ _ eq _ _ (sim_nextItem _ _ cfg _ _ _ _ (irn_rsim cs Hcs)) (rs_pos _ _ _ _ _ _ (irn_rsim cs Hcs)) f masks _ _ H) as G.
  rewrite E in G. inversion G as [s1 t1 e1 e2 G1 G2 E1 E2| | | |]; subst. apply evrel_eq in G2. subst e2.
  assert (Hc : forall r r' c, r_control (irn_ops cs) r = Ret r' c -> c <> CEndOfText).
  { cbn [irn_ops r_control]. intros r r' c Hx. destruct (r_control (ir_ops cs) r) as [r1 c1| | | |]; try discriminate. destruct c1; try discriminate; injection Hx as _ <-; discriminate. }
  refine (scan_not_exit (irn_ops cs) cfg Hc f masks _ _ _ _ (eq_sym E2)). cbn. discriminate.
Qed.

(** ** What is read without the end is read with it *)
Definition zsame (r t : ird) : Prop := ir_m r = EndZero /\ ir_m t = EndUndef /\ ir_l r = ir_l t.
Theorem same_fsim : forall cs, cs_constructible cs = true -> fsim (ir_ops cs) (ir_ops cs) zsame zsame zsame (fun _ => False).
Proof.
  intros cs Hcs.
  assert (Hn : forall A (Q : ird -> ird -> A -> Prop) n r t (a : A), zsame r t -> Q r t a -> fw Q (need n r a) (need n t a)).
  { intros A Q n r t a [Hr [Ht El]] HQ. unfold need. rewrite El. destruct (Nat.leb n (length (ir_l t))); [apply fw_ret; exact HQ|]. rewrite Ht. exact I. }
  assert (Hk : forall r t, zsame r t -> fw (fun r' t' (_ : unit) => zsame r' t') (r_skip (ir_ops cs) r) (r_skip (ir_ops cs) t)).
  { intros r t H. cbn [ir_ops r_skip]. rewrite (proj2 (proj2 H)).
    apply (fw_bind (fun r' t' _ => r' = r /\ t' = t)); [apply Hn; auto|]. intros r' t' a [-> ->]. apply fw_ret.
    destruct H as [Hr [Ht El]]. split; [exact Hr|]. split; [exact Ht|]. cbn [ir_skipto ir_l]. rewrite El. reflexivity. }
  constructor; auto.
  - intros r t H. cbn [ir_ops r_control]. rewrite (proj2 (proj2 H)). apply Hn; auto.
  - intros r t H. cbn [ir_ops r_ascii]. rewrite (proj2 (proj2 H)). apply Hn; auto.
  - intros r t H. cbn [ir_ops r_chr]. rewrite (proj2 (proj2 H)). apply Hn; auto.
  - intros r t H. cbn [ir_ops r_raw]. rewrite (proj2 (proj2 H)). apply Hn; auto.
  - intros r t H. eapply fw_weaken; [apply Hk; exact H|]. cbn. auto.
  - apply (it_cc cs).
  - intros t [].
Qed.

Section Top.
Context (incs outcs : charset) (m : option (list (N * N))) (addr : N).
Hypothesis Hcs : cs_constructible incs = true.
Notation cfg := (xml_config incs outcs m addr).

Lemma undef_back : forall f masks text t evs', Forall isByte text ->
  scan (ir_ops incs) cfg f masks (sc_make (mkIr text EndUndef 0)) = Ret t evs' ->
  exists s evs, scan (ts_ops src_ops incs) cfg f masks (sc_make (ts_make (src_make text false))) = Ret s evs /\ map element evs' = map element evs.
Proof.
  intros f masks text t evs' Hb Et.
  destruct (f_scan _ _ cfg _ _ _ _ (same_fsim incs Hcs) masks f (sc_make (mkIr text EndZero 0)) (sc_make (mkIr text EndUndef 0)) t evs') as [u [evs [H1 [_ H2]]]].
  - left. constructor; [|cbn; lia]. split; [reflexivity|]. split; reflexivity.
  - exact Et.
  - assert (H : srel eq (srcr incs) (sc_make (ts_make (src_make text false))) (sc_make (mkIr text EndZero 0))).
    { constructor; auto. apply (src_make_rel incs _ false Hb). }
    pose proof (sim_scan _ _ _ _ eq _ _ (sim_nextItem _ _ cfg _ _ _ _ (src_rsim incs Hcs)) (rs_pos _ _ _ _ _ _ (src_rsim incs Hcs)) f masks _ _ H) as G.
    rewrite H1 in G. inversion G as [s t0 e1 e2 G1 G2| | | |]; subst. apply evrel_eq in G2. subst e1. eauto.
Qed.
End Top.
