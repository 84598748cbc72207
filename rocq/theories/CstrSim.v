(** A TextScanner over a CStringIterator behaves as the ideal byte reader, below the wrap around of its 32 bit position (proofs). *)
From Verif Require Import Base Iter CharMap CodePages Charset TextScanner Ideal ReaderSim ScannerSim IterSim
  CharsetSpec CharsetProofs ReadSpec ReadProofs.

Ltac Zify.zify_post_hook ::= Z.div_mod_to_equations.

Section AtPosition.
(** [p0] is the position of the first byte of the current character *)
Context (src : list N) (p0 : N).
Hypothesis Hlen : N.of_nat (length src) < 2 ^ 32.
Hypothesis Hp0 : p0 + 8 < 2 ^ 32.

Definition cat (k : nat) : cstr := mkCstr src (N.of_nat (length src)) (p0 + N.of_nat k).
Definition sat (k : nat) : stream := mkStream (skipn (N.to_nat p0 + k) src) EndZero (p0 + N.of_nat k).

Inductive crel : rd cstr -> rd stream -> Prop :=
| crel_i : forall b k, (k <= 8)%nat -> crel (mkRdr b k (cat k)) (mkRdr b k (sat k)).

Lemma crel_deref : forall k, exists b, cstr_deref (cat k) = Ret (cat k) b /\ stream_deref (sat k) = Ret (sat k) b.
Proof.
  intros k. unfold cstr_deref, stream_deref, cat, sat. cbn [cs_pos cs_size cs_src rest emode].
  replace (N.to_nat (p0 + N.of_nat k)) with (N.to_nat p0 + k)%nat by lia.
  rewrite nth_error_skipn_hd.
  destruct (N.ltb_spec (p0 + N.of_nat k) (N.of_nat (length src))).
  - destruct (skipn (N.to_nat p0 + k) src) as [|b l] eqn:E; [|eauto].
    assert (length (skipn (N.to_nat p0 + k) src) = 0%nat) by (rewrite E; reflexivity). rewrite skipn_length in *. lia.
  - rewrite skipn_all2 by lia. eauto.
Qed.

Lemma crel_incr : forall k, (k < 8)%nat ->
  cstr_incr (cat k) = Ret (cat (S k)) tt /\ stream_incr (sat k) = Ret (sat (S k)) tt.
Proof.
  intros k Hk. unfold cstr_incr, stream_incr, cat, sat. cbn [cs_pos cs_size cs_src rest emode spos].
  split; [f_equal; f_equal|f_equal; f_equal].
  - unfold u32. rewrite N.mod_small by (change (2 ^ 32) with 4294967296 in *; lia). lia.
  - rewrite Nat.add_succ_r, skipn_S_tl. reflexivity.
  - lia.
Qed.

Lemma crel_fetch1 : forall r s, crel r s -> orel crel crel (fetch1 cstr_ops r) (fetch1 stream_ops s).
Proof.
  intros r s [b k Hk]. unfold fetch1. cbn [deref incr cstr_ops stream_ops rit rbuf rpos].
  destruct (crel_deref k) as [c [-> ->]]. destruct (Nat.ltb_spec k 8) as [Hl|Hl]; [|constructor].
  destruct (crel_incr k Hl) as [-> ->]. cbn [omap bind rd_it rbuf rpos rit]. constructor. constructor. lia.
Qed.
Lemma crel_skip1 : forall r s, crel r s -> (rpos r < 8)%nat -> exists r' s', skip1 cstr_ops r = Ret r' tt /\
  skip1 stream_ops s = Ret s' tt /\ crel r' s' /\ rpos r' = S (rpos r).
Proof.
  intros r s [b k Hk] Hl. unfold skip1. cbn [deref incr cstr_ops stream_ops rit rbuf rpos] in *.
  destruct (crel_incr k Hl) as [-> ->]. cbn [omap bind rd_it rbuf rpos rit]. eexists _, _.
  split; [reflexivity|]. split; [reflexivity|]. split; [constructor; lia|reflexivity].
Qed.
Lemma crel_pos : forall r s, crel r s -> rpos r = rpos s.
Proof. intros r s []. reflexivity. Qed.
Lemma crel_buf : forall r s, crel r s -> rbuf r = rbuf s.
Proof. intros r s []. reflexivity. Qed.
Lemma crel_bufat : forall r s i, crel r s -> bufat r i = bufat s i.
Proof. intros r s i []. reflexivity. Qed.

Lemma crel_fill : forall n r s, crel r s -> orel crel crel (fill cstr_ops n r) (fill stream_ops n s).
Proof.
  intros n r s H. unfold fill. rewrite (crel_pos _ _ H). generalize (n - rpos s)%nat. intros k. revert r s H.
  induction k as [|k IH]; intros r s H; cbn [repeatM]; [constructor; auto|].
  eapply orel_bind; [apply crel_fetch1; auto|]. intros r' s' u H'. apply IH; auto.
Qed.
Lemma crel_advance : forall n r s, crel r s -> (n <= 8)%nat -> orel crel crel (advance cstr_ops n r) (advance stream_ops n s).
Proof.
  intros n r s H Hn. unfold advance. rewrite <- (crel_pos _ _ H).
  assert (G : forall k r s, crel r s -> (rpos r + k <= 8)%nat -> orel crel crel (repeatM k (skip1 cstr_ops) r) (repeatM k (skip1 stream_ops) s)).
  { clear r s H. induction k as [|k IH]; intros r s H Hk; cbn [repeatM]; [constructor; auto|].
    destruct (crel_skip1 r s H ltac:(lia)) as [r' [s' [-> [-> [H' Hp]]]]]. cbn [bind]. apply IH; [exact H'|lia]. }
  apply G; [exact H|]. destruct H. cbn [rpos]. lia.
Qed.
Lemma crel_first : forall r s, crel r s -> orel crel crel (utf8_first cstr_ops r) (utf8_first stream_ops s).
Proof.
  intros r s H. unfold utf8_first. rewrite (crel_pos _ _ H).
  destruct (Nat.eqb (rpos s) 0); [apply crel_fetch1; auto|constructor; auto].
Qed.
Lemma crel_utf8size : forall r s, crel r s -> orel crel crel (utf8_size cstr_ops r) (utf8_size stream_ops s).
Proof.
  intros r s H. unfold utf8_size. eapply orel_bind; [apply crel_first; auto|].
  intros r' s' u H'. rewrite (crel_bufat _ _ 0%nat H').
  destruct (cm_get _ _); constructor; auto.
Qed.
Lemma crel_utf16size : forall be r s, crel r s -> orel crel crel (utf16_size cstr_ops be r) (utf16_size stream_ops be s).
Proof.
  intros be r s H. unfold utf16_size. eapply orel_bind; [apply crel_fill; auto|].
  intros r' s' u H'. rewrite (crel_bufat _ _ (msb be) H'). constructor. auto.
Qed.

Lemma crel_value : forall cs r s, crel r s -> orel crel crel (cs_value cstr_ops cs r) (cs_value stream_ops cs s).
Proof.
  intros cs r s H. destruct cs; cbn [cs_value].
  - unfold utf8_value, utf8_fetch. eapply orel_bind.
    + eapply orel_bind; [apply crel_first; auto|]. intros r' s' u H'.
      eapply orel_bind; [apply crel_utf8size; auto|]. intros r2 s2 n H2. apply crel_fill. auto.
    + intros r' s' u H'. rewrite (crel_buf _ _ H'), (crel_pos _ _ H'). constructor. auto.
  - unfold utf16_value. eapply orel_bind; [apply crel_utf16size; auto|].
    intros r' s' n H'. eapply orel_bind with (RR := crel).
    + destruct (Nat.eqb n 4); [apply crel_fill; auto|constructor; auto].
    + intros r2 s2 u H2. rewrite (crel_buf _ _ H2). constructor. auto.
  - unfold ucs2_value, ucs2_fetch. eapply orel_bind; [apply crel_fill; auto|].
    intros r2 s2 u H2. rewrite (crel_buf _ _ H2). constructor. auto.
  - unfold ucs4_value, ucs4_fetch. eapply orel_bind; [apply crel_fill; auto|].
    intros r2 s2 u H2. rewrite (crel_buf _ _ H2). constructor. auto.
  - unfold iso_value, iso_fetch. eapply orel_bind; [apply crel_fill; auto|].
    intros r2 s2 u H2. rewrite (crel_bufat _ _ 0%nat H2).
    destruct (ucharcode page (bufat s2 0)); constructor. auto.
Qed.

Lemma crel_skip : forall cs r s, crel r s -> orel crel crel (cs_skip cstr_ops cs r) (cs_skip stream_ops cs s).
Proof.
  intros cs r s H. destruct cs; cbn [cs_skip]; try (apply crel_advance; auto; lia).
  - unfold utf8_skip. pose proof (crel_utf8size r s H) as Hs. unfold utf8_size in *.
    destruct (crel_first r s H) as [r' s' u H'|? ? ?|? ? ?| |]; cbn [bind] in *; try (constructor; assumption).
    rewrite (crel_bufat _ _ 0%nat H'). destruct (cm_get utf8LengthTab (bufat s' 0)) as [n|] eqn:E; cbn [bind]; [|constructor].
    apply crel_advance; [exact H'|]. unfold cm_get in E. apply nth_error_nth with (d := 0) in E.
    pose proof (utf8Length_le8 (N.to_nat (bufat s' 0))). lia.
  - unfold utf16_skip, utf16_size, utf16_fetch.
    destruct (crel_fill 2 r s H) as [r' s' u H'|? ? ?|? ? ?| |]; cbn [bind]; try (constructor; assumption).
    rewrite (crel_bufat _ _ (msb be) H'). apply crel_advance; [exact H'|].
    pose proof (utf16_size_of_24 (bufat s' (msb be))). lia.
Qed.

Inductive ctrel : tscan cstr -> tscan stream -> Prop :=
| ctrel_i : forall r s v c, crel r s -> ctrel (mkTs r v c) (mkTs s v c).

Lemma ctrel_chr : forall cs t u, ctrel t u -> orel ctrel ctrel (ts_chr cstr_ops cs t) (ts_chr stream_ops cs u).
Proof.
  intros cs t u [r s v c H]. unfold ts_chr. cbn [ts_val]. destruct (v =? 0); [|constructor; constructor; auto].
  unfold ts_lift. cbn [ts_rd ts_val ts_cur]. destruct (crel_value cs r s H); cbn [omap bind ts_rd ts_cur]; try constructor; constructor; assumption.
Qed.
End AtPosition.

Lemma ctrel_skip : forall src p0 cs t u, N.of_nat (length src) < 2 ^ 32 -> p0 + 8 < 2 ^ 32 -> ctrel src p0 t u -> 
  match ts_skip cstr_ops cs t, ts_skip stream_ops cs u with
  | Ret t' _, Ret u' _ => exists k, (k <= 8)%nat /\ spos (rit (ts_rd u')) = p0 + N.of_nat k /\ ctrel src (p0 + N.of_nat k) t' u'
  | Undef, Undef => True
  | Fuel, Fuel => True
  | Throw _, Throw _ => True
  | Jump _, Jump _ => True
  | _, _ => False
  end.
Proof.
  intros src p0 cs t u Hl Hp [r s v c H]. unfold ts_skip, ts_lift. cbn [ts_rd ts_val ts_cur].
  destruct (crel_skip src p0 Hl Hp cs r s H) as [r' s' x H'|? ? ?|? ? ?| |]; cbn [omap bind]; auto.
  destruct H' as [b k Hk]. cbn [ts_rd rbuf rit]. exists k. split; [exact Hk|]. split; [reflexivity|].
  constructor.
  assert (E1 : cat src p0 k = cat src (p0 + N.of_nat k) 0) by (unfold cat; f_equal; lia).
  assert (E2 : sat src p0 k = sat src (p0 + N.of_nat k) 0) by (unfold sat; f_equal; [f_equal; lia|lia]).
  rewrite E1, E2. constructor. lia.
Qed.

(** the text scanner [t] reads [l], which starts at the position [p] of [src] *)
Definition creads (cs : charset) (src : list N) (p : N) (t : tscan cstr) (l : list N) : Prop :=
  exists u, ctrel src p t u /\ trel cs u (mkIr l EndZero p).
Definition creadsp (cs : charset) (src : list N) (p : N) (t : tscan cstr) (l : list N) : Prop :=
  exists u, ctrel src p t u /\ trelp cs u (mkIr l EndZero p).

Lemma creads_make : forall cs src, Forall isByte src -> N.of_nat (length src) < 2 ^ 32 -> creads cs src 0 (ts_make (cstr_make src)) src.
Proof.
  intros cs src Hb Hl. exists (ts_make (mkStream src EndZero 0)). split; [|apply ts_make_rel; auto].
  unfold ts_make. constructor. unfold cstr_make, u32. rewrite N.mod_small by exact Hl.
  change (mkCstr src (N.of_nat (length src)) 0) with (cat src 0 0). change (mkStream src EndZero 0) with (sat src 0 0). constructor. lia.
Qed.

Lemma creads_chr : forall cs src p t l, cs_constructible cs = true -> N.of_nat (length src) < 2 ^ 32 -> p + 8 < 2 ^ 32 ->
  creads cs src p t l -> exists t', ts_chr cstr_ops cs t = Ret t' (cval cs l) /\ creadsp cs src p t' l.
Proof.
  intros cs src p t l Hcs Hl Hp [u [H1 H2]].
  destruct (chr_ir _ _ _ _ _ _ (ts_rsim cs Hcs) u _ H2) as [u' [E H3]]; [apply ready_spec; auto|].
  pose proof (ctrel_chr src p Hl Hp cs t u H1) as H. rewrite E in H. inversion H; subst. eexists. split; [reflexivity|]. eexists. eauto.
Qed.

Lemma creads_skip : forall cs src p t l, cs_constructible cs = true -> N.of_nat (length src) < 2 ^ 32 -> p + 8 < 2 ^ 32 ->
  creadsp cs src p t l -> exists t', ts_skip cstr_ops cs t = Ret t' tt /\ creads cs src (p + N.of_nat (clen cs l)) t' (skipn (clen cs l) l).
Proof.
  intros cs src p t l Hcs Hl Hp [u [H1 H2]].
  destruct (skip_ir _ _ _ _ _ _ (ts_rsim cs Hcs) u _ H2) as [u' [E H3]]; [apply ready_spec; auto|].
  pose proof (ctrel_skip src p cs t u Hl Hp H1) as H. rewrite E in H.
  destruct (ts_skip cstr_ops cs t) as [t' []| | | |]; try contradiction. destruct H as [k [Hk [Hs H]]].
  exists t'. split; [reflexivity|]. exists u'. split; [|exact H3].
  destruct H3 as [_ [j [Hr _]]]. cbn [ir_l ir_m ir_p ir_skipto] in Hr.
  pose proof (rr_spos _ _ _ _ _ Hr) as Hs2. pose proof (rr_pos _ _ _ _ _ Hr) as Hp2.
  assert (Hj : rpos (ts_rd u') = 0%nat).
  { unfold ts_skip in E. destruct (ts_lift u (cs_skip stream_ops cs (ts_rd u))); cbn [bind] in E; try discriminate.
    injection E as <-. reflexivity. }
  replace (N.of_nat (clen cs l)) with (N.of_nat k) by lia. exact H.
Qed.

(** the characters before the first null character or the end *)
Fixpoint until_null (l : list N) : list N :=
  match l with
  | [] => []
  | c :: l' => if c =? 0 then [] else c :: until_null l'
  end.
Definition text_chars (cs : charset) (src : list N) : list N := until_null (map u_val (units cs src)).

Lemma cval_nil : forall cs, cval cs [] = 0.
Proof. intros [|be|be|be|p]; try (destruct be); try reflexivity. Qed.

Lemma until_null_all : forall l, Forall (fun c => c <> 0) l -> until_null l = l.
Proof. intros l H. induction H as [|c l Hc H IH]; [reflexivity|]. cbn [until_null]. destruct (N.eqb_spec c 0); [congruence|]. rewrite IH. reflexivity. Qed.
Lemma until_null_nonzero : forall l, Forall (fun c => c <> 0) (until_null l).
Proof. induction l as [|c l IH]; cbn [until_null]; [constructor|]. destruct (N.eqb_spec c 0); constructor; auto. Qed.

(** texts written in the character set *)
Lemma text_chars_print : forall cs cl, cs_constructible cs = true -> Forall (representable cs) cl -> Forall (fun c => c <> 0) cl ->
  text_chars cs (flat_map (cs_print cs) cl) = cl.
Proof.
  intros cs cl Hcs Hr Hz. unfold text_chars. rewrite units_print by auto. rewrite map_map. cbn [uchr_of u_val].
  rewrite map_id. apply until_null_all. exact Hz.
Qed.
