(** Iterators as byte streams, and the reader over decoded characters (proofs). *)
From Verif Require Import Base Iter CharMap CodePages Charset TextScanner Ideal ReaderSim ScannerSim XmlScanner.

Ltac Zify.zify_post_hook ::= Z.div_mod_to_equations.

(** ** Simulation of iterators *)
Record isim {I J : Type} (prel : N -> N -> Prop) (o1 : iterops I) (o2 : iterops J) (ri : I -> J -> Prop)
  : Prop := mkIsim {
  is_deref : forall i j, ri i j -> orel ri ri (deref o1 i) (deref o2 j);
  is_incr : forall i j, ri i j -> orel ri ri (incr o1 i) (incr o2 j);
  is_ipos : forall i j k, ri i j -> prel (sub64 (ipos o1 i) k) (sub64 (ipos o2 j) k)
}.

Section IterSim.
Context {I J : Type} (prel : N -> N -> Prop) (o1 : iterops I) (o2 : iterops J) (ri : I -> J -> Prop).
Hypothesis Hi : isim prel o1 o2 ri.

Inductive rdrel : rd I -> rd J -> Prop :=
| rdrel_i : forall b p i j, ri i j -> rdrel (mkRdr b p i) (mkRdr b p j).
Inductive tsrel : tscan I -> tscan J -> Prop :=
| tsrel_i : forall r s v c, rdrel r s -> tsrel (mkTs r v c) (mkTs s v c).

Lemma rdrel_it : forall r s i j, rdrel r s -> ri i j -> rdrel (rd_it r i) (rd_it s j).
Proof. intros r s i j H Hij. destruct H. constructor. auto. Qed.
Lemma rdrel_pos : forall r s, rdrel r s -> rpos r = rpos s.
Proof. intros r s H. destruct H. reflexivity. Qed.
Lemma rdrel_bufeq : forall r s, rdrel r s -> rbuf r = rbuf s.
Proof. intros r s H. destruct H. reflexivity. Qed.
Lemma rdrel_bufat : forall r s i, rdrel r s -> bufat r i = bufat s i.
Proof. intros r s i H. destruct H. reflexivity. Qed.

Lemma isim_fetch1 : forall r s, rdrel r s -> orel rdrel rdrel (fetch1 o1 r) (fetch1 o2 s).
Proof.
  intros r s H. destruct H as [b p i j Hij]. unfold fetch1. cbn [rit rbuf rpos].
  destruct (is_deref _ _ _ _ Hi i j Hij); try (constructor; try constructor; auto; fail).
  destruct (Nat.ltb p 8); [|constructor].
  eapply orel_bind with (RR := rdrel).
  - eapply orel_omap; [apply (is_incr _ _ _ _ Hi); eauto| |]; intros i' j' Hij'; constructor; exact Hij'.
  - intros r' s' u Hrs. destruct Hrs. constructor. constructor. auto.
Qed.

Lemma isim_skip1 : forall r s, rdrel r s -> orel rdrel rdrel (skip1 o1 r) (skip1 o2 s).
Proof.
  intros r s H. destruct H as [b p i j Hij]. unfold skip1. cbn [rit rbuf rpos].
  eapply orel_bind with (RR := rdrel).
  - eapply orel_omap; [apply (is_incr _ _ _ _ Hi); eauto| |]; intros i' j' Hij'; constructor; exact Hij'.
  - intros r' s' u Hrs. destruct Hrs. constructor. constructor. auto.
Qed.

Lemma isim_repeatM : forall n f g, (forall r s, rdrel r s -> orel rdrel rdrel (f r) (g s)) ->
  forall r s, rdrel r s -> orel rdrel rdrel (repeatM n f r) (repeatM n g s).
Proof.
  induction n as [|n IH]; intros f g Hfg r s H; cbn [repeatM]; [constructor; auto|].
  eapply orel_bind; [apply Hfg; auto|]. intros r' s' u H'. apply IH; auto.
Qed.

Lemma isim_fill : forall n r s, rdrel r s -> orel rdrel rdrel (fill o1 n r) (fill o2 n s).
Proof.
  intros n r s H. unfold fill. rewrite (rdrel_pos _ _ H). apply isim_repeatM; auto. apply isim_fetch1.
Qed.
Lemma isim_advance : forall n r s, rdrel r s -> orel rdrel rdrel (advance o1 n r) (advance o2 n s).
Proof.
  intros n r s H. unfold advance. rewrite (rdrel_pos _ _ H). apply isim_repeatM; auto. apply isim_skip1.
Qed.

Lemma isim_first : forall r s, rdrel r s -> orel rdrel rdrel (utf8_first o1 r) (utf8_first o2 s).
Proof.
  intros r s H. unfold utf8_first. rewrite (rdrel_pos _ _ H).
  destruct (Nat.eqb (rpos s) 0); [apply isim_fetch1; auto|constructor; auto].
Qed.
Lemma isim_utf8size : forall r s, rdrel r s -> orel rdrel rdrel (utf8_size o1 r) (utf8_size o2 s).
Proof.
  intros r s H. unfold utf8_size. eapply orel_bind; [apply isim_first; auto|].
  intros r' s' u H'. rewrite (rdrel_bufat _ _ 0%nat H').
  destruct (cm_get _ _); constructor; auto.
Qed.
Lemma isim_utf8fetch : forall r s, rdrel r s -> orel rdrel rdrel (utf8_fetch o1 r) (utf8_fetch o2 s).
Proof.
  intros r s H. unfold utf8_fetch. eapply orel_bind; [apply isim_first; auto|].
  intros r' s' u H'. eapply orel_bind; [apply isim_utf8size; auto|].
  intros r2 s2 n H2. apply isim_fill. auto.
Qed.
Lemma isim_utf16size : forall be r s, rdrel r s -> orel rdrel rdrel (utf16_size o1 be r) (utf16_size o2 be s).
Proof.
  intros be r s H. unfold utf16_size. eapply orel_bind; [apply isim_fill; auto|].
  intros r' s' u H'. rewrite (rdrel_bufat _ _ (msb be) H'). constructor. auto.
Qed.

Lemma isim_value : forall cs r s, rdrel r s -> orel rdrel rdrel (cs_value o1 cs r) (cs_value o2 cs s).
Proof.
  intros cs r s H. destruct cs; cbn [cs_value].
  - unfold utf8_value. eapply orel_bind; [apply isim_utf8fetch; auto|].
    intros r' s' u H'. rewrite (rdrel_bufeq _ _ H'), (rdrel_pos _ _ H'). constructor. auto.
  - unfold utf16_value. eapply orel_bind; [apply isim_utf16size; auto|].
    intros r' s' n H'. eapply orel_bind with (RR := rdrel).
    + destruct (Nat.eqb n 4); [apply isim_fill; auto|constructor; auto].
    + intros r2 s2 u H2. rewrite (rdrel_bufeq _ _ H2). constructor. auto.
  - unfold ucs2_value, ucs2_fetch. eapply orel_bind; [apply isim_fill; auto|].
    intros r2 s2 u H2. rewrite (rdrel_bufeq _ _ H2). constructor. auto.
  - unfold ucs4_value, ucs4_fetch. eapply orel_bind; [apply isim_fill; auto|].
    intros r2 s2 u H2. rewrite (rdrel_bufeq _ _ H2). constructor. auto.
  - unfold iso_value, iso_fetch. eapply orel_bind; [apply isim_fill; auto|].
    intros r2 s2 u H2. rewrite (rdrel_bufat _ _ 0%nat H2).
    destruct (ucharcode page (bufat s2 0)); constructor. auto.
Qed.

Lemma isim_ascii : forall cs r s, rdrel r s -> orel rdrel rdrel (cs_ascii o1 cs r) (cs_ascii o2 cs s).
Proof.
  intros cs r s H. pose proof (isim_value cs r s H) as Hv.
  destruct cs; cbn [cs_ascii cs_value] in *;
    try (eapply orel_bind; [exact Hv|]; intros r' s' v H'; constructor; auto; fail).
  - unfold utf8_ascii. eapply orel_bind; [apply isim_first; auto|].
    intros r' s' u H'. rewrite (rdrel_bufat _ _ 0%nat H'). constructor. auto.
  - unfold iso_ascii, iso_fetch. eapply orel_bind; [apply isim_fill; auto|].
    intros r' s' u H'. rewrite (rdrel_bufat _ _ 0%nat H'). constructor. auto.
Qed.

Lemma isim_csskip : forall cs r s, rdrel r s -> orel rdrel rdrel (cs_skip o1 cs r) (cs_skip o2 cs s).
Proof.
  intros cs r s H. destruct cs; cbn [cs_skip]; try (apply isim_advance; auto; fail).
  - unfold utf8_skip. eapply orel_bind; [apply isim_utf8size; auto|].
    intros r' s' n H'. apply isim_advance. auto.
  - unfold utf16_skip. eapply orel_bind; [apply isim_utf16size; auto|].
    intros r' s' n H'. apply isim_advance. auto.
Qed.

Lemma isim_csfetch : forall cs r s, rdrel r s -> orel rdrel rdrel (cs_fetch o1 cs r) (cs_fetch o2 cs s).
Proof.
  intros cs r s H. destruct cs; cbn [cs_fetch]; try (apply isim_fill; auto; fail).
  apply isim_utf8fetch. auto.
Qed.

Lemma isim_lift : forall {A} r s v c (x : out (rd I) A) (y : out (rd J) A),
  orel rdrel rdrel x y -> orel tsrel tsrel (ts_lift (mkTs r v c) x) (ts_lift (mkTs s v c) y).
Proof.
  intros A r s v c x y H. unfold ts_lift. eapply orel_omap; [exact H| |]; intros a b Hab; constructor; auto.
Qed.

Lemma isim_getcur : forall cs t u, tsrel t u -> orel tsrel tsrel (ts_getcur o1 cs t) (ts_getcur o2 cs u).
Proof.
  intros cs t u H. destruct H as [r s v c H]. unfold ts_getcur.
  eapply orel_bind; [apply isim_lift; cbn [ts_rd]; apply isim_ascii; auto|].
  intros t' u' a H'. destruct H'. constructor. constructor. auto.
Qed.

Theorem isim_rsim : forall cs, rsim prel (ts_ops o1 cs) (ts_ops o2 cs) tsrel tsrel tsrel.
Proof.
  intros cs. constructor; cbn [ts_ops r_control r_ascii r_chr r_raw r_skip r_pos].
  - auto.
  - intros t u H. unfold ts_control. eapply orel_bind; [apply isim_getcur; auto|].
    intros t' u' a H'. destruct H' as [r s v c H']. cbn [ts_cur].
    destruct (cm_get controlCharMap c); constructor. constructor. auto.
  - intros t u H. unfold ts_ascii. eapply orel_bind; [apply isim_getcur; auto|].
    intros t' u' a H'. destruct H' as [r s v c H']. cbn [ts_cur]. constructor. constructor. auto.
  - intros t u H. destruct H as [r s v c H]. unfold ts_chr. cbn [ts_val].
    destruct (v =? 0); [|constructor; constructor; auto].
    eapply orel_bind; [apply isim_lift; cbn [ts_rd]; apply isim_value; auto|].
    intros t' u' a H'. destruct H'. constructor. constructor. auto.
  - intros t u H. destruct H as [r s v c H]. unfold ts_raw.
    eapply orel_bind; [apply isim_lift; cbn [ts_rd]; apply isim_csfetch; auto|].
    intros t' u' a H'. destruct H' as [r' s' v' c' H']. cbn [ts_rd].
    rewrite (rdrel_pos _ _ H'), (rdrel_bufeq _ _ H'). constructor. constructor. auto.
  - intros t u H. destruct H as [r s v c H]. unfold ts_skip.
    eapply orel_bind; [apply isim_lift; cbn [ts_rd]; apply isim_csskip; auto|].
    intros t' u' a H'. destruct H' as [r' s' v' c' H']. cbn [ts_rd].
    destruct H'. cbn [rbuf rit]. constructor. constructor. constructor. auto.
  - intros t u H. destruct H as [r s v c H]. destruct H. unfold ts_position. cbn [ts_rd rit rpos].
    apply (is_ipos _ _ _ _ Hi). auto.
Qed.

Lemma tsrel_make : forall i j, ri i j -> tsrel (ts_make i) (ts_make j).
Proof. intros i j H. constructor. constructor. auto. Qed.
End IterSim.

(** ** The reader over decoded characters *)
Lemma units_n_enough : forall n m cs l, (length l <= n)%nat -> (length l <= m)%nat ->
  units_n n cs l = units_n m cs l.
Proof.
  induction n as [|n IH]; intros m cs l Hn Hm; destruct l as [|b l].
  - destruct m; reflexivity.
  - cbn in Hn. lia.
  - destruct m; reflexivity.
  - destruct m as [|m]; [cbn in Hm; lia|]. cbn [units_n]. f_equal.
    pose proof (clen_bounds cs (b :: l)). cbn [length] in *.
    apply IH; rewrite skipn_length; cbn [length]; lia.
Qed.

Lemma units_nil : forall cs, units cs [] = [].
Proof. reflexivity. Qed.

Lemma units_cons : forall cs b l,
  units cs (b :: l) = dec cs (b :: l) :: units cs (skipn (clen cs (b :: l)) (b :: l)).
Proof.
  intros cs b l. unfold units at 1. cbn [length units_n]. f_equal.
  pose proof (clen_bounds cs (b :: l)). unfold units.
  apply units_n_enough; rewrite ?skipn_length; cbn [length]; lia.
Qed.

Lemma units_hd : forall cs l, hd (dec cs []) (units cs l) = dec cs l.
Proof. intros cs l. destruct l; [reflexivity|]. rewrite units_cons. reflexivity. Qed.

Lemma units_tl : forall cs l, tl (units cs l) = units cs (skipn (clen cs l) l).
Proof.
  intros cs l. destruct l; [|rewrite units_cons; reflexivity].
  rewrite skipn_nil. reflexivity.
Qed.

Definition urel (cs : charset) (r : ird) (u : urd) : Prop :=
  ir_m r = EndZero /\ ur_l u = units cs (ir_l r) /\ ur_p u = ir_p r.

Lemma need_zero : forall {A} n r (a : A), ir_m r = EndZero -> need n r a = Ret r a.
Proof. intros A n r a H. unfold need. rewrite H. destruct (Nat.leb _ _); reflexivity. Qed.

Theorem ur_rsim : forall cs, rsim eq (ir_ops cs) (ur_ops (dec cs [])) (urel cs) (urel cs) (urel cs).
Proof.
  intros cs.
  assert (Hc : forall r u, urel cs r u -> ucur (dec cs []) u = dec cs (ir_l r)).
  { intros r u [_ [H _]]. unfold ucur. rewrite H. apply units_hd. }
  constructor; cbn [ir_ops ur_ops r_control r_ascii r_chr r_raw r_skip r_pos].
  - auto.
  - intros r u H. rewrite need_zero by apply H. rewrite (Hc r u H). constructor. auto.
  - intros r u H. rewrite need_zero by apply H. rewrite (Hc r u H). constructor. auto.
  - intros r u H. rewrite need_zero by apply H. rewrite (Hc r u H). constructor. auto.
  - intros r u H. rewrite need_zero by apply H. rewrite (Hc r u H). constructor. auto.
  - intros r u H. rewrite need_zero by apply H. rewrite (Hc r u H). cbn [bind]. constructor.
    destruct H as [H1 [H2 H3]]. split; [exact H1|]. cbn [ur_l ur_p ir_skipto ir_l ir_p u_len dec].
    split; [rewrite H2; apply units_tl|congruence].
  - intros r u [_ [_ H]]. congruence.
Qed.

(** ** SrcIterator *)
Definition src_mode (i : srcit) : endmode := if si_eom i then EndJump else EndZero.

Definition src_rel (i : srcit) (s : stream) : Prop :=
  rest s = skipn (N.to_nat (si_itr i)) (si_buf i) /\ emode s = src_mode i /\
  u64 (spos s) = src_position i.

Lemma nth_error_skipn_hd : forall {A} n (l : list A),
  nth_error l n = match skipn n l with [] => None | x :: _ => Some x end.
Proof. induction n as [|n IH]; intros l; destruct l; cbn [nth_error skipn]; auto. Qed.

Lemma u64_add_l : forall a b, u64 (u64 a + b) = u64 (a + b).
Proof. intros a b. unfold u64. lia. Qed.

Lemma sub64_mod : forall a b k, u64 a = u64 b -> sub64 a k = sub64 b k.
Proof. intros a b k H. unfold sub64. rewrite <- u64_add_l, H, u64_add_l. reflexivity. Qed.

Lemma u64_idem : forall a, u64 (u64 a) = u64 a.
Proof. intros a. unfold u64. lia. Qed.

Theorem src_isim : isim eq src_ops stream_ops src_rel.
Proof.
  constructor; cbn [src_ops stream_ops deref incr ipos].
  - intros i s [H1 [H2 H3]]. unfold src_deref, stream_deref. rewrite nth_error_skipn_hd, <- H1.
    destruct (rest s) as [|b t] eqn:E.
    + rewrite H2. unfold src_mode. destruct (si_eom i) eqn:Ee; constructor;
      (split; [congruence|split; [unfold src_mode; rewrite Ee; rewrite H2; unfold src_mode; rewrite Ee; reflexivity|auto]]).
    + constructor. split; [congruence|auto].
  - intros i s [H1 [H2 H3]]. constructor. split; [|split]; cbn [rest emode spos si_buf si_itr si_eom].
    + rewrite N2Nat.inj_add. rewrite H1. replace (N.to_nat (si_itr i) + N.to_nat 1)%nat with (S (N.to_nat (si_itr i))) by lia.
      rewrite skipn_S_tl. reflexivity.
    + exact H2.
    + unfold src_position in *. cbn [si_abs si_buf si_itr]. rewrite <- u64_add_l, H3, u64_add_l. f_equal. lia.
  - intros i s k [H1 [H2 H3]]. apply sub64_mod. rewrite H3. symmetry. unfold src_position. rewrite u64_idem. reflexivity.
Qed.

(** ** IStreamIterator *)
Definition goodread (bufsize : N) (r : rdres) : Prop :=
  rd_err r = false /\ rd_data r <> [] /\ N.of_nat (length (rd_data r)) <= bufsize.

Definition istrm_rel (i : istrm) (s : stream) : Prop :=
  emode s = EndZero /\
  rest s = skipn (N.to_nat (is_readpos i)) (is_buf i) ++ flat_map rd_data (is_input i) /\
  Forall (goodread (is_bufsize i)) (is_input i) /\
  (is_readpos i < N.of_nat (length (is_buf i)) \/ (is_buf i = [] /\ is_readpos i = 0 /\ is_input i = [])).

Theorem istrm_isim : isim (fun _ _ => True) istrm_ops stream_ops istrm_rel.
Proof.
  constructor; cbn [istrm_ops stream_ops deref incr ipos]; auto.
  - intros i s H. assert (H0 := H). destruct H as [H1 [H2 [H3 H4]]].
    unfold istrm_deref, stream_deref. rewrite nth_error_skipn_hd.
    destruct H4 as [H4|[H4 [H5 H6]]].
    + destruct (skipn (N.to_nat (is_readpos i)) (is_buf i)) as [|b t] eqn:E.
      { assert (length (skipn (N.to_nat (is_readpos i)) (is_buf i)) = 0%nat) by (rewrite E; reflexivity).
        rewrite skipn_length in *. lia. }
      rewrite H2. cbn [app]. constructor. exact H0.
    + rewrite H4, H5, H6 in *. cbn in H2. cbn [N.to_nat skipn]. rewrite H2, H1. constructor. exact H0.
  - intros i s H. destruct H as [H1 [H2 [H3 H4]]]. unfold istrm_incr, stream_incr.
    destruct (N.leb_spec (N.of_nat (length (is_buf i))) (is_readpos i + 1)) as [Hl|Hl].
    + unfold istrm_fillbuf.
      assert (Hrest : tl (rest s) = flat_map rd_data (is_input i)).
      { rewrite H2. destruct H4 as [H4|[H4 [H5 H6]]].
        - assert (El : length (skipn (N.to_nat (is_readpos i)) (is_buf i)) = 1%nat).
          { rewrite skipn_length. lia. }
          destruct (skipn (N.to_nat (is_readpos i)) (is_buf i)) as [|b [|]]; try discriminate.
          reflexivity.
        - rewrite H4, H6. rewrite H5. reflexivity. }
      destruct (is_input i) as [|r rs] eqn:Ei.
      * constructor. split; [exact H1|]. cbn [rest is_readpos is_buf is_input is_bufsize].
        split; [exact Hrest|]. split; [constructor|]. right. auto.
      * inversion H3 as [|r' rs' Hg Hgs]; subst. destruct Hg as [Hg1 [Hg2 Hg3]].
        destruct (N.ltb_spec (is_bufsize i) (N.of_nat (length (rd_data r)))) as [Hb|Hb]; [lia|].
        rewrite Hg1. constructor. split; [exact H1|]. cbn [rest is_readpos is_buf is_input is_bufsize].
        split; [exact Hrest|]. split; [exact Hgs|]. left.
        destruct (rd_data r); [congruence|]. cbn [length]. lia.
    + constructor. split; [exact H1|]. cbn [rest is_readpos is_buf is_input is_bufsize].
      split; [|split; [exact H3|left; lia]].
      rewrite H2. replace (N.to_nat (is_readpos i + 1)) with (S (N.to_nat (is_readpos i))) by lia.
      rewrite skipn_S_tl. destruct H4 as [H4|[H4 [H5 H6]]].
      * destruct (skipn (N.to_nat (is_readpos i)) (is_buf i)) as [|b t] eqn:E; [|reflexivity].
        assert (length (skipn (N.to_nat (is_readpos i)) (is_buf i)) = 0%nat) by (rewrite E; reflexivity).
        rewrite skipn_length in *. lia.
      * rewrite H4 in Hl. cbn in Hl. lia.
Qed.

(** ** char* *)
Definition cptr_rel (i : cptr) (s : stream) : Prop :=
  emode s = EndUndef /\ rest s = skipn (N.to_nat (cp_pos i)) (cp_mem i) /\ spos s = cp_pos i.

Theorem cptr_isim : isim eq cptr_ops stream_ops cptr_rel.
Proof.
  constructor; cbn [cptr_ops stream_ops deref incr ipos].
  - intros i s H. assert (H0 := H). destruct H as [H1 [H2 H3]].
    unfold cptr_deref, stream_deref. rewrite nth_error_skipn_hd, <- H2.
    destruct (rest s); [rewrite H1|]; constructor. exact H0.
  - intros i s [H1 [H2 H3]]. constructor. split; [exact H1|]. cbn [rest spos cp_pos cp_mem]. split; [|lia].
    replace (N.to_nat (cp_pos i + 1)) with (S (N.to_nat (cp_pos i))) by lia.
    rewrite skipn_S_tl, H2. reflexivity.
  - intros i s k [H1 [H2 H3]]. congruence.
Qed.
