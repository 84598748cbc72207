(** Iterators (proofs). *)
From Verif Require Import Base Iter CharMap CodePages Charset TextScanner Ideal ReaderSim ScannerSim IterSim ReadSpec.

Ltac Zify.zify_post_hook ::= Z.div_mod_to_equations.

Lemma increments_S : forall {I} (ops : iterops I) n i,
  increments ops (S n) i = (let! (i1, u) := increments ops n i in incr ops i1).
Proof.
  intros I ops n. induction n as [|n IH]; intros i; cbn [increments bind].
  - destruct (incr ops i) as [s a|s|s| |]; try reflexivity. cbn [bind increments]. destruct a. reflexivity.
  - destruct (incr ops i) as [s a|s|s| |]; cbn [bind]; try reflexivity. apply IH.
Qed.

(** ** CStringIterator *)
Lemma cstr_increments : forall n l,
  increments cstr_ops n (cstr_make l) =
  Ret (mkCstr l (u32 (N.of_nat (length l))) (u32 (N.of_nat n))) tt.
Proof.
  intros n l. induction n as [|n IH].
  - reflexivity.
  - rewrite increments_S, IH. cbn [bind incr cstr_ops]. unfold cstr_incr. cbn [cs_src cs_size cs_pos].
    do 2 f_equal. unfold u32. change (2 ^ 32) with 4294967296. lia.
Qed.

Lemma cstr_deref_at : forall l p, cstr_deref (mkCstr l (u32 (N.of_nat (length l))) p) =
  Ret (mkCstr l (u32 (N.of_nat (length l))) p) (nth (N.to_nat p) (firstn (N.to_nat (u32 (N.of_nat (length l)))) l) 0).
Proof.
  intros l p. unfold cstr_deref. cbn [cs_pos cs_size cs_src].
  assert (Hle : u32 (N.of_nat (length l)) <= N.of_nat (length l)).
  { unfold u32. apply N.mod_le. discriminate. }
  destruct (N.ltb_spec p (u32 (N.of_nat (length l)))) as [H|H].
  - rewrite nth_firstn_lt by lia.
    destruct (nth_error l (N.to_nat p)) as [b|] eqn:E.
    + f_equal. symmetry. apply nth_error_nth. exact E.
    + apply nth_error_None in E. lia.
  - rewrite nth_overflow; [reflexivity|]. rewrite firstn_length. lia.
Qed.

(** ** SrcIterator *)
Lemma src_increments : forall n i, increments src_ops n i =
  Ret (mkSrc (si_buf i) (si_itr i + N.of_nat n) (si_eom i) (si_abs i)) tt.
Proof.
  intros n i. induction n as [|n IH].
  - cbn [increments]. destruct i. cbn. do 2 f_equal. lia.
  - rewrite increments_S, IH. cbn [bind incr src_ops]. unfold src_incr. cbn [si_buf si_itr si_eom si_abs].
    do 2 f_equal. lia.
Qed.

Lemma src_consume_spec : forall steps b e itr abs,
  src_consume steps (mkSrc b itr e abs) =
  match steps with
  | [] => Ret (mkSrc b itr e abs) tt
  | _ => Ret (mkSrc (fst (last_chunk b e steps)) 0 (snd (last_chunk b e steps))
          (u64 (abs + N.of_nat (length (concat (map (fun s => snd (fst s)) steps)))))) tt
  end.
Proof.
  induction steps as [|[[k c] e1] steps IH]; intros b e itr abs; [reflexivity|].
  cbn [src_consume]. rewrite src_increments. cbn [bind si_buf si_itr si_eom si_abs].
  unfold src_putInput. cbn [si_abs]. rewrite IH.
  destruct steps as [|[[k2 c2] e2] steps].
  - cbn [map fst snd concat last_chunk last]. unfold last_chunk. cbn [map last fst snd].
    rewrite app_nil_r. reflexivity.
  - unfold last_chunk. cbn [map fst snd concat last]. f_equal. f_equal.
    + cbn [map last fst snd]. clear.
      assert (G : forall {A} (l : list A) x d d', last (x :: l) d = last (x :: l) d').
      { intros A l. induction l as [|y l IH]; intros x d d'; [reflexivity|]. cbn [last]. apply IH. }
      f_equal. apply G.
    + cbn [map last fst snd].
      assert (G : forall {A} (l : list A) x d d', last (x :: l) d = last (x :: l) d').
      { clear. intros A l. induction l as [|y l IH]; intros x d d'; [reflexivity|]. cbn [last]. apply IH. }
      f_equal. apply G.
    + rewrite u64_add_l. rewrite !app_length. f_equal. lia.
Qed.

Lemma src_pos_spec : forall c0 e0 steps n, (n <= length (fst (last_chunk c0 e0 steps)))%nat ->
  exists i, (let! (i1, u) := src_consume steps (src_make c0 e0) in increments src_ops n i1) = Ret i tt /\
    src_position i = u64 (N.of_nat (length (concat (earlier c0 steps)) + n)) /\
    ((n < length (fst (last_chunk c0 e0 steps)))%nat ->
       src_deref i = Ret i (nth n (fst (last_chunk c0 e0 steps)) 0)).
Proof.
  intros c0 e0 steps n Hn. unfold src_make. rewrite src_consume_spec.
  assert (Hd : forall b itr e abs, (N.to_nat itr < length b)%nat ->
     src_deref (mkSrc b itr e abs) = Ret (mkSrc b itr e abs) (nth (N.to_nat itr) b 0)).
  { intros b itr e abs H. unfold src_deref. cbn [si_buf si_itr].
    rewrite (nth_error_nth' b 0) by exact H. reflexivity. }
  destruct steps as [|s steps].
  - cbn [bind]. rewrite src_increments. cbn [si_buf si_itr si_eom si_abs].
    eexists. split; [reflexivity|]. unfold last_chunk in *. cbn [map last fst] in *. split.
    + unfold src_position. cbn [si_abs si_buf si_itr]. unfold earlier. cbn. unfold sub64, u64. lia.
    + intros H. rewrite Hd by lia. do 2 f_equal. lia.
  - cbn [bind]. rewrite src_increments. cbn [si_buf si_itr si_eom si_abs].
    eexists. split; [reflexivity|]. split.
    + set (st := s :: steps) in *.
      unfold src_position. cbn [si_abs si_buf si_itr].
      assert (Hlen : (length c0 + length (concat (map (fun s => snd (fst s)) st)) =
                length (concat (earlier c0 st)) + length (fst (last_chunk c0 e0 st)))%nat).
      { unfold earlier, last_chunk.
        assert (E : fst (last (map (fun s => (snd (fst s), snd s)) st) (c0, e0)) = last (map (fun s : nat * list N * bool => snd (fst s)) st) c0).
        { clear. generalize c0, e0. induction st as [|x st IH]; intros c e; [reflexivity|].
          destruct st as [|y st]; [reflexivity|]. cbn [map last] in *. apply IH. }
        rewrite E. clear.
        assert (G : forall (l : list (list N)) x, (length (concat (x :: l)) = length (concat (removelast (x :: l))) + length (last l x))%nat).
        { induction l as [|y l IH]; intros x.
          - cbn. rewrite app_nil_r. lia.
          - cbn [removelast]. cbn [concat]. rewrite !app_length.
            specialize (IH y). cbn [concat] in IH. rewrite app_length in IH.
            assert (El : last (y :: l) x = last l y).
            { clear. revert x y. induction l as [|z l IH]; intros x y; [reflexivity|].
              change (last (z :: l) x = last (z :: l) y). rewrite (IH x z), (IH y z). reflexivity. }
            rewrite El. cbn [concat removelast] in *. lia. }
        specialize (G (map (fun s => snd (fst s)) st) c0). cbn [concat] in G. rewrite app_length in G. exact G. }
      unfold sub64, u64. lia.
    + intros H. rewrite Hd by lia. do 2 f_equal. lia.
Qed.

(** ** IStreamIterator *)
Record ist_inv (data : list N) (n : nat) (i : istrm) : Prop := mkIst {
  ist_rel : istrm_rel i (mkStream (skipn n data) EndZero (N.of_nat n));
  ist_abs : exists x, is_abs i = u64 x /\
     x + N.of_nat (length (is_buf i)) + N.of_nat (length (flat_map rd_data (is_input i))) = N.of_nat (length data)
}.

Lemma ist_position : forall data n i, ist_inv data n i ->
  istrm_position i = u64 (N.of_nat (Nat.min n (length data))).
Proof.
  intros data n i [[_ [H2 [_ H4]]] [x [Hx Hs]]]. cbn [rest] in H2.
  assert (Hl : (length (skipn n data) = length (skipn (N.to_nat (is_readpos i)) (is_buf i)) + length (flat_map rd_data (is_input i)))%nat)
    by (rewrite H2, app_length; reflexivity).
  rewrite !skipn_length in Hl.
  unfold istrm_position. rewrite Hx, u64_add_l. f_equal.
  destruct H4 as [H4|[H4 [H5 H6]]]; [lia|].
  rewrite H4, H5, H6 in *. cbn [length flat_map] in *. lia.
Qed.

Lemma ist_incr : forall data n i, ist_inv data n i ->
  exists i', istrm_incr i = Ret i' tt /\ ist_inv data (S n) i'.
Proof.
  intros data n i Hi. pose proof (is_incr _ _ _ _ istrm_isim i _ (ist_rel _ _ _ Hi)) as Hs.
  cbn [istrm_ops stream_ops incr] in Hs. unfold stream_incr in Hs. cbn [rest emode spos] in Hs.
  inversion Hs as [i' s' a Hrel E1 E2| | | |]; subst. rename E1 into E1'. symmetry in E1'.
  exists i'. split; [reflexivity|]. destruct Hi as [Hr [x [Hx Hsum]]]. constructor.
  - rewrite skipn_S_tl. replace (N.of_nat (S n)) with (N.of_nat n + 1) by lia. exact Hrel.
  - unfold istrm_incr in E1'.
    destruct (N.leb_spec (N.of_nat (length (is_buf i))) (is_readpos i + 1)).
    + unfold istrm_fillbuf in E1'. exists (x + N.of_nat (length (is_buf i))).
      destruct (is_input i) as [|r rs] eqn:Ei.
      * injection E1' as <-. cbn [is_abs is_buf is_input length flat_map] in *.
        rewrite Hx, u64_add_l. split; [reflexivity|]. lia.
      * destruct (is_bufsize i <? N.of_nat (length (rd_data r))); [discriminate|].
        destruct (rd_err r); [discriminate|]. injection E1' as <-.
        cbn [is_abs is_buf is_input length flat_map] in *. rewrite app_length in Hsum.
        rewrite Hx, u64_add_l. split; [reflexivity|]. lia.
    + injection E1' as <-. cbn [is_abs is_buf is_input] in *. exists x. auto.
Qed.

Lemma ist_make : forall reads bufsize, Forall (goodread bufsize) reads ->
  exists i, istrm_make reads bufsize = Ret i tt /\ ist_inv (flat_map rd_data reads) 0 i.
Proof.
  intros reads bufsize Hg. unfold istrm_make, istrm_fillbuf. cbn [is_input is_bufsize is_abs is_buf length].
  destruct reads as [|r rs].
  - eexists. split; [reflexivity|]. constructor.
    + split; [reflexivity|]. split; [reflexivity|]. split; [constructor|]. right. auto.
    + exists 0. cbn [is_abs is_buf is_input length flat_map]. split; reflexivity.
  - inversion Hg as [|r' rs' H1 H2]; subst. destruct H1 as [H1 [H3 H4]].
    destruct (N.ltb_spec bufsize (N.of_nat (length (rd_data r)))); [lia|]. rewrite H1.
    eexists. split; [reflexivity|]. constructor.
    + split; [reflexivity|]. split; [reflexivity|]. split; [auto|].
      left. cbn [is_readpos is_buf]. destruct (rd_data r); [congruence|]. cbn [length]. lia.
    + exists 0. cbn [is_abs is_buf is_input flat_map]. rewrite app_length. split; [reflexivity|]. lia.
Qed.

Lemma ist_increments : forall data n i, ist_inv data 0 i ->
  exists i', increments istrm_ops n i = Ret i' tt /\ ist_inv data n i'.
Proof.
  intros data n i Hi. induction n as [|n IH]; [exists i; split; [reflexivity|exact Hi]|].
  rewrite increments_S. destruct IH as [i1 [-> H1]]. cbn [bind]. apply ist_incr. exact H1.
Qed.

Lemma hd_skipn_nth : forall n (l : list N), hd 0 (skipn n l) = nth n l 0.
Proof. induction n as [|n IH]; intros l; destruct l; cbn [skipn hd nth]; auto. Qed.

Lemma ist_deref : forall data n i, ist_inv data n i -> istrm_deref i = Ret i (nth n data 0).
Proof.
  intros data n i Hi. pose proof (is_deref _ _ _ _ istrm_isim i _ (ist_rel _ _ _ Hi)) as Hs.
  cbn [istrm_ops stream_ops deref] in Hs. unfold stream_deref in Hs. cbn [rest emode] in Hs.
  assert (Hd : forall a, istrm_deref i = Ret i a \/ (forall s, istrm_deref i <> Ret s a)).
  { intros a. unfold istrm_deref. destruct (nth_error _ _) as [b|].
    - destruct (N.eq_dec a b) as [->|]; [left; reflexivity|right; intros s E; congruence].
    - destruct (N.eq_dec a 0) as [->|]; [left; reflexivity|right; intros s E; congruence]. }
  rewrite <- hd_skipn_nth. destruct (skipn n data) as [|b t]; cbn [hd].
  - inversion Hs as [i' s' a Hrel E1 E2| | | |]; subst. destruct (Hd 0) as [E|E]; [congruence|]. symmetry in E1. congruence.
  - inversion Hs as [i' s' a Hrel E1 E2| | | |]; subst. destruct (Hd b) as [E|E]; [congruence|]. symmetry in E1. congruence.
Qed.

(** a read error after the reads [goods] *)
Lemma ist_error_step : forall k goods bad more i, rd_err bad = true ->
  N.of_nat (length (rd_data bad)) <= is_bufsize i ->
  is_input i = goods ++ bad :: more -> Forall (goodread (is_bufsize i)) goods ->
  is_readpos i < N.of_nat (length (is_buf i)) ->
  (k = length (skipn (N.to_nat (is_readpos i)) (is_buf i) ++ flat_map rd_data goods))%nat ->
  (exists i', increments istrm_ops k i = Throw i') /\
  forall n, (n < k)%nat -> exists i', increments istrm_ops n i = Ret i' tt /\
     istrm_deref i' = Ret i' (nth n (skipn (N.to_nat (is_readpos i)) (is_buf i) ++ flat_map rd_data goods) 0).
Proof.
  induction k as [|k IH]; intros goods bad more i He Hbs Hin Hg Hp Hk.
  { rewrite app_length, skipn_length in Hk. lia. }
  assert (Hd0 : exists i', increments istrm_ops 0 i = Ret i' tt /\
     istrm_deref i' = Ret i' (nth 0 (skipn (N.to_nat (is_readpos i)) (is_buf i) ++ flat_map rd_data goods) 0)).
  { exists i. split; [reflexivity|]. unfold istrm_deref. rewrite nth_error_skipn_hd.
    destruct (skipn (N.to_nat (is_readpos i)) (is_buf i)) as [|b t] eqn:E; [|reflexivity].
    assert (length (skipn (N.to_nat (is_readpos i)) (is_buf i)) = 0%nat) by (rewrite E; reflexivity).
    rewrite skipn_length in *. lia. }
  assert (Hstep : (exists i', istrm_incr i = Throw i' /\ k = 0%nat) \/
    exists i1 goods1, istrm_incr i = Ret i1 tt /\ is_input i1 = goods1 ++ bad :: more /\ is_bufsize i1 = is_bufsize i /\
      Forall (goodread (is_bufsize i)) goods1 /\ is_readpos i1 < N.of_nat (length (is_buf i1)) /\
      tl (skipn (N.to_nat (is_readpos i)) (is_buf i) ++ flat_map rd_data goods) =
      skipn (N.to_nat (is_readpos i1)) (is_buf i1) ++ flat_map rd_data goods1).
  { unfold istrm_incr. destruct (N.leb_spec (N.of_nat (length (is_buf i))) (is_readpos i + 1)) as [Hl|Hl].
    - assert (El : length (skipn (N.to_nat (is_readpos i)) (is_buf i)) = 1%nat) by (rewrite skipn_length; lia).
      destruct (skipn (N.to_nat (is_readpos i)) (is_buf i)) as [|b [|]] eqn:Es; try discriminate.
      unfold istrm_fillbuf. rewrite Hin. destruct goods as [|g gs]; cbn [app].
      + left. destruct (N.ltb_spec (is_bufsize i) (N.of_nat (length (rd_data bad)))); [lia|].
        rewrite He. eexists. split; [reflexivity|]. cbn in Hk. lia.
      + right. inversion Hg as [|g' gs' Hg1 Hgs]; subst. destruct Hg1 as [Hg1 [Hg2 Hg3]].
        destruct (N.ltb_spec (is_bufsize i) (N.of_nat (length (rd_data g)))); [lia|]. rewrite Hg1.
        do 2 eexists. split; [reflexivity|]. cbn [is_input is_bufsize is_readpos is_buf].
        split; [reflexivity|]. split; [reflexivity|]. split; [exact Hgs|].
        split; [destruct (rd_data g); [congruence|cbn [length]; lia]|]. reflexivity.
    - right. do 2 eexists. split; [reflexivity|]. cbn [is_input is_bufsize is_readpos is_buf].
      split; [exact Hin|]. split; [reflexivity|]. split; [exact Hg|]. split; [lia|].
      replace (N.to_nat (is_readpos i + 1)) with (S (N.to_nat (is_readpos i))) by lia.
      rewrite skipn_S_tl. destruct (skipn (N.to_nat (is_readpos i)) (is_buf i)) as [|b t] eqn:E; [|reflexivity].
      assert (length (skipn (N.to_nat (is_readpos i)) (is_buf i)) = 0%nat) by (rewrite E; reflexivity).
      rewrite skipn_length in *. lia. }
  destruct Hstep as [[i' [E Hz]]|[i1 [goods1 [E [H1 [H2 [H3 [H4 H5]]]]]]]].
  - subst k. split.
    + exists i'. cbn [increments]. cbn [istrm_ops incr]. rewrite E. reflexivity.
    + intros n Hn. assert (n = 0%nat) by lia. subst n. exact Hd0.
  - rewrite <- H2 in Hbs, H3.
    destruct (IH goods1 bad more i1 He Hbs H1 H3 H4) as [Ha Hb].
    { rewrite <- H5. destruct (skipn _ _ ++ _); cbn [length tl] in *; lia. }
    split.
    + destruct Ha as [i' Ha]. exists i'. cbn [increments istrm_ops incr]. rewrite E. cbn [bind]. exact Ha.
    + intros n Hn. destruct n as [|n]; [exact Hd0|].
      destruct (Hb n ltac:(lia)) as [i' [E1 E2]]. exists i'. cbn [increments istrm_ops incr]. rewrite E. cbn [bind].
      split; [exact E1|]. rewrite <- H5 in E2. rewrite E2. f_equal.
      destruct (skipn _ _ ++ _); [destruct n|]; reflexivity.
Qed.
