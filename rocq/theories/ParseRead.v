(** Reading the characters of an expression (proofs). *)
From Coq Require Import Lia ZifyBool ZifyNat.
From Verif Require Import Base Iter CharMap CodePages Charset TextScanner Ideal ReaderSim ScannerSim IterSim
  CharsetSpec CharsetProofs ReadSpec ReadProofs CstrSim XmlScanner ScanSpec ScanProofs CharReader.

(** a reader of characters: [rd r l], the characters [l] are left; [rdp]: the first one has been looked at *)
Record charreader {R} (rops : readerops R) (size : N) (rd rdp : R -> list N -> Prop) : Prop := {
  cr_nz : forall r l, rd r l -> ~ In 0 l;
  cr_pos : forall r l, rd r l -> r_pos rops r <= size;
  cr_weak : forall r l, rdp r l -> rd r l;
  cr_chr : forall r l, rd r l -> exists r', r_chr rops r = Ret r' (hd 0 l) /\ rdp r' l;
  cr_control : forall r l, rd r l -> exists r', r_control rops r = Ret r' (ctl_of (kasc (hd 0 l))) /\ rdp r' l;
  cr_skip : forall r c l, rdp r (c :: l) -> exists r', r_skip rops r = Ret r' tt /\ rd r' l }.

Section AtPosition.
Context (src : list N) (p0 : N).
Hypothesis Hlen : N.of_nat (length src) < 2 ^ 32.
Hypothesis Hp0 : p0 + 8 < 2 ^ 32.
Lemma crel_ascii : forall cs r s, crel src p0 r s -> orel (crel src p0) (crel src p0) (cs_ascii cstr_ops cs r) (cs_ascii stream_ops cs s).
Proof.
  intros cs r s H. destruct cs; cbn [cs_ascii].
  - unfold utf8_ascii. eapply orel_bind; [apply crel_first; auto|]. intros r' s' u H'. rewrite (crel_bufat src p0 _ _ 0%nat H'). constructor. auto.
  - unfold utf16_ascii. eapply orel_bind; [apply (crel_value src p0 Hlen Hp0 (UTF16 be)); auto|]. intros r' s' u H'. constructor. auto.
  - unfold ucs2_ascii. eapply orel_bind; [apply (crel_value src p0 Hlen Hp0 (UCS2 be)); auto|]. intros r' s' u H'. constructor. auto.
  - unfold ucs4_ascii. eapply orel_bind; [apply (crel_value src p0 Hlen Hp0 (UCS4 be)); auto|]. intros r' s' u H'. constructor. auto.
  - unfold iso_ascii, iso_fetch. eapply orel_bind; [apply crel_fill; auto|]. intros r' s' u H'. rewrite (crel_bufat src p0 _ _ 0%nat H'). constructor. auto.
Qed.
Lemma ctrel_control : forall cs t u, ctrel src p0 t u -> orel (ctrel src p0) (ctrel src p0) (ts_control cstr_ops cs t) (ts_control stream_ops cs u).
Proof.
  intros cs t u [r s v c H]. unfold ts_control, ts_getcur, ts_lift. cbn [ts_rd ts_val ts_cur].
  destruct (crel_ascii cs r s H); cbn [omap bind ts_rd ts_val ts_cur]; try constructor; try (constructor; assumption).
  destruct (cm_get _ _); constructor. constructor. assumption.
Qed.
End AtPosition.

Lemma creads_control : forall cs src p t l, cs_constructible cs = true -> N.of_nat (length src) < 2 ^ 32 -> p + 8 < 2 ^ 32 ->
  creads cs src p t l -> exists t', ts_control cstr_ops cs t = Ret t' (ctl_of (casc cs l)) /\ creadsp cs src p t' l.
Proof.
  intros cs src p t l Hcs Hl Hp [u [H1 H2]].
  pose proof (rs_control _ _ _ _ _ _ (ts_rsim cs Hcs) u _ H2) as H0. cbn [ts_ops ir_ops r_control] in H0. unfold need in H0. cbn [ir_m ir_l] in H0.
  assert (E : exists u', ts_control stream_ops cs u = Ret u' (ctl_of (casc cs l)) /\ trelp cs u' (mkIr l EndZero p)).
  { destruct (Nat.leb _ _); inversion H0; subst; eauto. }
  destruct E as [u' [E H3]].
  pose proof (ctrel_control src p Hl Hp cs t u H1) as H. rewrite E in H. inversion H; subst. eexists. split; [reflexivity|]. eexists. eauto.
Qed.

Section Text.
Context (cs : charset) (src : list N).
Hypothesis Hcs : cs_constructible cs = true.
Hypothesis Hsmall : N.of_nat (length src) + 8 < 2 ^ 32.
Definition enc (l : list N) : list N := flat_map (cs_print cs) l.
Definition rds (t : tscan cstr) (l : list N) : Prop :=
  (Forall (representable cs) l /\ ~ In 0 l) /\ exists p, p + N.of_nat (length (enc l)) = N.of_nat (length src) /\ creads cs src p t (enc l).
Definition rdsp (t : tscan cstr) (l : list N) : Prop :=
  (Forall (representable cs) l /\ ~ In 0 l) /\ exists p, p + N.of_nat (length (enc l)) = N.of_nat (length src) /\ creadsp cs src p t (enc l).

Lemma enc_val l : Forall (representable cs) l -> cval cs (enc l) = hd 0 l.
Proof.
  intros H. destruct H as [|c l Hc H]; [apply cval_nil|]. cbn [enc flat_map hd]. exact (f_equal u_val (dec_print cs c _ Hcs Hc)).
Qed.
Lemma enc_asc l : Forall (representable cs) l -> casc cs (enc l) = kasc (hd 0 l).
Proof.
  intros H. destruct H as [|c l Hc H]; [apply casc_end; exact Hcs|]. cbn [enc flat_map hd]. exact (f_equal u_asc (dec_print cs c _ Hcs Hc)).
Qed.
Lemma ctrel_pos p t u : ctrel src p t u -> p <= N.of_nat (length src) -> ts_position cstr_ops t = p.
Proof.
  intros [r s v c [b k Hk]] Hp. unfold ts_position, cat. cbn [ts_rd rit rpos ipos cstr_ops cs_pos]. unfold sub64, u64.
  change (2 ^ 32) with 4294967296 in *. change (2 ^ 64) with 18446744073709551616.
  rewrite (N.mod_small (N.of_nat k)) by lia. replace (p + N.of_nat k + (18446744073709551616 - N.of_nat k)) with (p + 1 * 18446744073709551616) by lia.
  rewrite N.mod_add by lia. apply N.mod_small. lia.
Qed.
Lemma text_reader : charreader (ts_ops cstr_ops cs) (N.of_nat (length src)) rds rdsp.
Proof.
  constructor; cbn [ts_ops r_chr r_control r_skip r_pos].
  - intros r l H. apply H.
  - intros r l (H & p & Hp & u & H1 & H2). rewrite (ctrel_pos p r u H1) by lia. lia.
  - intros r l (H & p & Hp & u & H1 & H2). split; [exact H|]. exists p. split; [exact Hp|]. exists u. split; [exact H1|]. apply H2.
  - intros r l (H & p & Hp & H1). destruct (creads_chr cs src p r _ Hcs ltac:(lia) ltac:(lia) H1) as (r' & E & H2). exists r'. rewrite E, enc_val by apply H.
    split; [reflexivity|]. split; [exact H|]. exists p. auto.
  - intros r l (H & p & Hp & H1). destruct (creads_control cs src p r _ Hcs ltac:(lia) ltac:(lia) H1) as (r' & E & H2). exists r'. rewrite E, enc_asc by apply H.
    split; [reflexivity|]. split; [exact H|]. exists p. auto.
  - intros r c l ([H Hz] & p & Hp & H1). inversion H as [|? ? Hc Hl]; subst. destruct (creads_skip cs src p r _ Hcs ltac:(lia) ltac:(lia) H1) as (r' & E & H2). exists r'. split; [exact E|].
    cbn [enc flat_map] in H2, Hp. fold (enc l) in H2, Hp. rewrite clen_print in H2 by assumption. rewrite skipn_app_exact in H2 by reflexivity. rewrite app_length in Hp.
    split; [split; [exact Hl|intro; apply Hz; right; assumption]|]. eexists. split; [|exact H2]. lia.
Qed.
End Text.

Lemma text_start cs l : cs_constructible cs = true -> Forall (representable cs) l -> ~ In 0 l -> N.of_nat (length (enc cs l)) + 8 < 2 ^ 32 ->
  rds cs (enc cs l) (ts_make (cstr_make (enc cs l))) l.
Proof.
  intros Hcs Hr Hz Hs. split; [split; assumption|]. exists 0. split; [lia|]. apply creads_make; [|lia]. apply print_bytes; auto.
Qed.
