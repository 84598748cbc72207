(** The test program test_TextReader.cpp (proofs). *)
From Verif Require Import Base Iter CharMap CodePages Charset TextScanner Ideal ReaderSim ScannerSim IterSim
  CharsetSpec CharsetProofs ReadSpec ReadProofs StaticBuffer BufProofs ClientSpec ClientProofs TestText.

(** the numbers following [ii] *)
Fixpoint following (n : nat) (ii : N) : list N := match n with O => [] | S n' => (ii + 1) :: following n' (ii + 1) end.

Lemma en_print_is : forall l cap l0 b, cap < 2 ^ 64 -> sb_is cap l0 false b -> N.of_nat (length l0 + length l) <= cap ->
  exists b', en_print l b = Ret b' tt /\ sb_is cap (l0 ++ l) false b'.
Proof.
  induction l as [|c l IH]; intros cap l0 b Hc Hb Hl; cbn [en_print].
  - exists b. rewrite app_nil_r. auto.
  - cbn [length] in Hl. destruct (sb_push_is cap l0 false b c Hc Hb) as [b1 [E [H _]]]. replace (_ <? _) with true in H by lia.
    destruct (IH cap (l0 ++ [c]) b1 Hc H) as [b2 [E2 H2]]; [rewrite app_length; cbn [length]; lia|].
    exists b2. rewrite E. cbn [bind]. rewrite E2. split; [reflexivity|]. rewrite <- app_assoc in H2. exact H2.
Qed.

Section Enum.
Context (cs : charset) (character : N -> N) (nof : N).
Hypothesis Hcs : cs_constructible cs = true.
Hypothesis Hnof : nof < 2 ^ 31.
Hypothesis Hch : forall k, 0 < k <= nof -> representable cs (character k).

Definition remaining (ii : N) : list N := map character (following (N.to_nat (nof - ii)) ii).
Lemma remaining_next : forall ii, ii < nof -> remaining ii = character (ii + 1) :: remaining (ii + 1).
Proof.
  intros ii H. unfold remaining. replace (N.to_nat (nof - ii)) with (S (N.to_nat (nof - (ii + 1)))) by lia. reflexivity.
Qed.
Lemma remaining_repr : forall n ii, N.of_nat n + ii <= nof -> Forall (representable cs) (map character (following n ii)).
Proof. induction n as [|n IH]; intros ii H; cbn [following map]; constructor; [apply Hch; lia|apply IH; lia]. Qed.
Lemma remaining_all : forall ii, Forall (representable cs) (remaining ii).
Proof.
  intros ii. unfold remaining. destruct (N.le_gt_cases ii nof); [apply remaining_repr; lia|]. replace (nof - ii) with 0 by lia. constructor.
Qed.

Definition en_reads (i : enumit) (l : list N) : Prop :=
  exists content, sb_is 16 content false (en_buf i) /\ en_ii i <= nof /\ en_pos i <= N.of_nat (length content) /\
    (en_pos i < N.of_nat (length content) \/ en_ii i = nof) /\
    l = skipn (N.to_nat (en_pos i)) content ++ flat_map (cs_print cs) (remaining (en_ii i)).

Lemma print_fits : forall c, representable cs c -> (0 < length (cs_print cs c) <= 8)%nat.
Proof.
  intros c H. pose proof (clen_print cs c [] Hcs H) as E. pose proof (clen_bounds cs (cs_print cs c ++ [])) as B. lia.
Qed.

Lemma en_fill : forall i, sb_size (en_buf i) = 16 -> 16 <= N.of_nat (length (sb_mem (en_buf i))) -> en_ii i < nof ->
  exists b, omap (fun b => mkEn (u32 (en_ii i + 1)) 0 b) (en_print (cs_print cs (character (u32 (en_ii i + 1)))) (sb_clear (en_buf i))) = Ret (mkEn (en_ii i + 1) 0 b) tt /\
    en_reads (mkEn (en_ii i + 1) 0 b) (flat_map (cs_print cs) (remaining (en_ii i))).
Proof.
  intros i H1 H2 H3. change (2 ^ 31) with 2147483648 in Hnof. replace (u32 (en_ii i + 1)) with (en_ii i + 1) by (unfold u32; rewrite N.mod_small; [reflexivity|lia]).
  assert (Hrep : representable cs (character (en_ii i + 1))) by (apply Hch; lia). pose proof (print_fits _ Hrep) as Hp.
  destruct (en_print_is (cs_print cs (character (en_ii i + 1))) 16 [] (sb_clear (en_buf i))) as [b [E Hb]].
  - reflexivity.
  - unfold sb_is, sb_clear, sb_content. cbn [sb_size sb_mem sb_pos sb_over length N.to_nat firstn]. repeat split; auto; lia.
  - cbn [length]. lia.
  - rewrite E. cbn [omap]. exists b. split; [reflexivity|]. exists (cs_print cs (character (en_ii i + 1))). cbn [en_ii en_pos en_buf].
    split; [exact Hb|]. split; [lia|]. split; [lia|]. split; [left; lia|]. cbn [N.to_nat skipn]. rewrite remaining_next by lia. reflexivity.
Qed.

Lemma en_reads_null : reads_null (en_ops cs character nof) en_reads.
Proof.
  intros i l [content [Hb [Hi [Hp [Hq ->]]]]]. pose proof Hb as (B1 & B2 & B3 & B4 & B5 & B6). cbn [en_ops deref incr]. split.
  - exists i. split; [|exists content; auto]. unfold en_deref, en_eof, sb_getSize. rewrite B3.
    destruct (N.eq_dec (en_pos i) (N.of_nat (length content))) as [E|E].
    + destruct Hq as [Hq|Hq]; [lia|]. rewrite Hq, E, N.leb_refl, N.eqb_refl. cbn [andb].
      rewrite Nat2N.id, skipn_all. unfold remaining. rewrite N.sub_diag. reflexivity.
    + replace (en_pos i =? N.of_nat (length content)) with false by (symmetry; apply N.eqb_neq; exact E). rewrite andb_false_r.
      unfold sb_at. rewrite B3. replace (_ <? en_pos i) with false by lia.
      assert (Hlt : (N.to_nat (en_pos i) < length content)%nat) by lia.
      unfold sb_content in B5. rewrite B3, Nat2N.id in B5.
      assert (Hn : nth_error (sb_mem (en_buf i)) (N.to_nat (en_pos i)) = nth_error content (N.to_nat (en_pos i))).
      { rewrite <- (firstn_skipn (length content) (sb_mem (en_buf i))), B5. apply nth_error_app1. exact Hlt. }
      rewrite Hn. destruct (nth_error content (N.to_nat (en_pos i))) as [x|] eqn:Ex; [|apply nth_error_None in Ex; lia].
      destruct (nth_error_split _ _ Ex) as [l1 [l2 [Ec El]]]. rewrite Ec at 1. rewrite <- El. rewrite skipn_app, skipn_all, Nat.sub_diag. cbn [skipn app hd omap].
      destruct i; reflexivity.
  - change (2 ^ 31) with 2147483648 in Hnof. unfold en_incr, en_skip, sb_getSize. rewrite B3.
    replace (u32 (en_pos i + 1)) with (en_pos i + 1) by (unfold u32; rewrite N.mod_small; [reflexivity|lia]).
    destruct (N.leb_spec (N.of_nat (length content)) (en_pos i + 1)) as [Hle|Hgt].
    + assert (Hs : skipn (N.to_nat (en_pos i)) content = [] \/ exists x, skipn (N.to_nat (en_pos i)) content = [x]).
      { pose proof (skipn_length (N.to_nat (en_pos i)) content) as L. destruct (skipn (N.to_nat (en_pos i)) content) as [|x [|y r]]; cbn [length] in L; [auto|eauto|lia]. }
      destruct (N.leb_spec nof (en_ii i)) as [Hn|Hn].
      * cbn [bind]. eexists. split; [reflexivity|]. exists content. cbn [en_ii en_pos en_buf].
        replace (u32 (N.of_nat (length content))) with (N.of_nat (length content)) by (unfold u32; rewrite N.mod_small; [reflexivity|lia]).
        split; [exact Hb|]. split; [exact Hi|]. split; [lia|]. split; [right; lia|]. rewrite Nat2N.id, skipn_all. cbn [app].
        unfold remaining. replace (nof - en_ii i) with 0 by lia. cbn [N.to_nat following map flat_map]. rewrite app_nil_r. destruct Hs as [-> | [x ->]]; reflexivity.
      * destruct (en_fill i) as [b [E Hr]]; [exact B1|lia|lia|]. rewrite E. cbn [bind]. eexists. split; [reflexivity|].
        destruct Hs as [Hs|[x Hs]].
        { pose proof (skipn_length (N.to_nat (en_pos i)) content) as L. rewrite Hs in L. cbn [length] in L. destruct Hq as [Hq|Hq]; lia. }
        rewrite Hs. exact Hr.
    + cbn [bind]. eexists. split; [reflexivity|]. exists content. cbn [en_ii en_pos en_buf]. split; [exact Hb|]. split; [exact Hi|]. split; [lia|]. split; [left; lia|].
      destruct (skipn (N.to_nat (en_pos i)) content) as [|x r] eqn:Es.
      { pose proof (skipn_length (N.to_nat (en_pos i)) content) as L. rewrite Es in L. cbn [length] in L. lia. }
      cbn [app tl]. f_equal. replace (N.to_nat (en_pos i + 1)) with (1 + N.to_nat (en_pos i))%nat by lia. rewrite <- skipn_skipn. rewrite Es. reflexivity.
Qed.

Lemma en_make_reads : forall start, start < nof ->
  exists i, en_make cs character nof start = Ret i tt /\ en_reads i (flat_map (cs_print cs) (remaining start)).
Proof.
  intros start Hs. unfold en_make, en_skip. cbn [en_pos en_buf en_ii sb_getSize]. change (sb_getSize (sb_new 16) <=? u32 (0 + 1)) with true. cbn match.
  replace (nof <=? start) with false by lia. destruct (en_fill (mkEn start 0 (sb_new 16))) as [b [E Hr]]; [reflexivity|vm_compute; discriminate|exact Hs|].
  cbn [en_ii en_buf] in E, Hr. rewrite E. cbn [bind]. eauto.
Qed.

(** *** The checks *)
Hypothesis Hnz : forall k, 0 < k <= nof -> character k <> 0.

Notation rel := (clr en_reads cs).
Lemma char_facts : forall c l, representable cs c -> c <> 0 ->
  casc cs (cs_print cs c ++ l) = (if c <? 128 then c else 255) /\ cval cs (cs_print cs c ++ l) = c /\ ctl_of (casc cs (cs_print cs c ++ l)) <> CEndOfText.
Proof.
  intros c l Hc H0. pose proof (dec_print cs c l Hcs Hc) as D. unfold dec, uchr_of in D. injection D as D1 D2 _ _. rewrite D1. split; [reflexivity|]. split; [exact D2|].
  destruct (N.ltb_spec c 128) as [Hlt|Hlt]; [|vm_compute; discriminate].
  assert (Hall : forallb (fun n => match ctl_of (N.of_nat n) with CEndOfText => false | _ => true end) (seq 1 127) = true) by (vm_compute; reflexivity).
  rewrite forallb_forall in Hall. specialize (Hall (N.to_nat c)). rewrite N2Nat.id in Hall. intros E. rewrite E in Hall.
  assert (false = true) by (apply Hall; apply in_seq; lia). discriminate.
Qed.

Lemma en_ask : forall ob t l p, rel t (mkIr l EndZero p) -> exists t', ask (en_ops cs character nof) cs ob t = Ret t' (answer_of cs ob l) /\ rel t' (mkIr l EndZero p).
Proof.
  intros ob t l p H. destruct (ask_ir _ _ _ _ _ _ (client_rsim _ _ en_reads_null cs Hcs) ob t l p H) as [t' [E H']].
  exists t'. split; [exact E|]. apply (rs_weak _ _ _ _ _ _ (client_rsim _ _ en_reads_null cs Hcs)). exact H'.
Qed.

Lemma asc_check : forall c, (asc_of (if c <? 128 then c else 255) =? (if 127 <? c then 0 else N.land c 0xFF)) = true.
Proof.
  intros c. apply N.eqb_eq. unfold asc_of. destruct (N.ltb_spec c 128) as [H|H].
  - destruct (N.ltb_spec c 128); [|lia]. destruct (N.ltb_spec 127 c); [lia|]. change 255 with (N.ones 8). rewrite N.land_ones. symmetry. apply N.mod_small. change (2 ^ 8) with 256. lia.
  - destruct (N.ltb_spec 127 c); [|lia]. reflexivity.
Qed.

(** the numbers drawn *)
Fixpoint draws (fuel : nat) (seed : N) : option N :=
  match fuel with
  | O => None
  | S f => let seed1 := tt_rnd seed in if 1 <? seed1 mod 3 then draws f seed1 else Some seed1
  end.

Lemma checks_ok : forall fuel c seed t l p, representable cs c -> c <> 0 -> rel t (mkIr (cs_print cs c ++ l) EndZero p) ->
  match draws fuel seed with
  | Some seed' => exists t', tt_checks cs character nof fuel c seed t = Ret t' (seed', true) /\ rel t' (mkIr (cs_print cs c ++ l) EndZero p)
  | None => tt_checks cs character nof fuel c seed t = Fuel
  end.
Proof.
  induction fuel as [|fuel IH]; intros c seed t l p Hc H0 H; cbn [draws tt_checks]; [reflexivity|].
  destruct (char_facts c l Hc H0) as [Ha [Hv _]].
  destruct (en_ask ObsAscii t _ _ H) as [t1 [E1 H1]]. destruct (en_ask ObsChr t _ _ H) as [t2 [E2 H2]].
  cbn [ask answer_of] in E1, E2. rewrite Ha in E1. rewrite Hv in E2.
  set (seed1 := tt_rnd seed). set (rr := seed1 mod 3).
  assert (Hok : exists t', (if N.land rr 1 =? 0
         then let! (t1, a) := ts_ascii (en_ops cs character nof) cs t in Ret t1 (a =? (if 127 <? c then 0 else N.land c 0xFF))
         else let! (t1, d) := ts_chr (en_ops cs character nof) cs t in Ret t1 (d =? c)) = Ret t' true /\ rel t' (mkIr (cs_print cs c ++ l) EndZero p)).
  { destruct (N.land rr 1 =? 0).
    - destruct (ts_ascii (en_ops cs character nof) cs t) as [t' a| | | |]; cbn [bind] in E1; try discriminate E1. injection E1 as -> ->. exists t1. split; [|exact H1]. cbn [bind]. f_equal.
      apply asc_check.
    - destruct (ts_chr (en_ops cs character nof) cs t) as [t' a| | | |]; cbn [bind] in E2; try discriminate E2. injection E2 as -> ->. exists t2. split; [|exact H2]. cbn [bind]. rewrite N.eqb_refl. reflexivity. }
  destruct Hok as [t' [E' H']]. fold seed1 rr. rewrite E'. cbn [bind]. destruct (1 <? rr); [apply IH; auto|]. exists t'. auto.
Qed.

(** all the numbers drawn by the program *)
Fixpoint draws_all (fuel : nat) (n : nat) (seed : N) : option N :=
  match fuel with
  | O => None
  | S f => match n with
           | O => Some seed
           | S n' => match draws f seed with Some seed' => draws_all f n' seed' | None => None end
           end
  end.
Lemma loop_ok : forall fuel ii seed t p, ii <= nof -> rel t (mkIr (flat_map (cs_print cs) (remaining ii)) EndZero p) ->
  match draws_all fuel (N.to_nat (nof - ii)) seed with
  | Some _ => exists t', tt_loop cs character nof fuel ii seed t = Ret t' (0, true)
  | None => tt_loop cs character nof fuel ii seed t = Fuel
  end.
Proof.
  induction fuel as [|fuel IH]; intros ii seed t p Hi H; cbn [draws_all tt_loop]; [reflexivity|].
  destruct (en_ask ObsControl t _ _ H) as [t1 [E1 H1]]. cbn [ask answer_of] in E1.
  destruct (ts_control (en_ops cs character nof) cs t) as [t0 c0| | | |]; cbn [bind] in E1 |- *; try discriminate E1. injection E1 as -> ->.
  destruct (N.eq_dec ii nof) as [->|Hne].
  - rewrite N.sub_diag. cbn [N.to_nat]. replace (nof <? nof) with false by lia. rewrite andb_false_r. eauto.
  - assert (Hlt : ii < nof) by lia. rewrite (remaining_next ii Hlt) in *. cbn [flat_map] in *.
    assert (Hc : representable cs (character (ii + 1))) by (apply Hch; lia). assert (Hz : character (ii + 1) <> 0) by (apply Hnz; lia).
    destruct (char_facts (character (ii + 1)) (flat_map (cs_print cs) (remaining (ii + 1))) Hc Hz) as [_ [_ Hct]].
    replace (ii <? nof) with true by lia. rewrite andb_true_r.
    replace (negb match ctl_of (casc cs (cs_print cs (character (ii + 1)) ++ flat_map (cs_print cs) (remaining (ii + 1)))) with CEndOfText => true | _ => false end) with true
      by (destruct (ctl_of _); try reflexivity; congruence).
    change (2 ^ 31) with 2147483648 in Hnof. replace (u32 (ii + 1)) with (ii + 1) by (unfold u32; rewrite N.mod_small; [reflexivity|lia]).
    replace (N.to_nat (nof - ii)) with (S (N.to_nat (nof - (ii + 1)))) by lia.
    pose proof (checks_ok fuel (character (ii + 1)) seed t1 _ p Hc Hz H1) as K. destruct (draws fuel seed) as [seed'|].
    + destruct K as [t2 [E2 H2]]. rewrite E2. cbn [bind snd fst].
      destruct (client_skip0 _ _ en_reads_null cs t2 _ p Hcs H2) as [t3 [E3 H3]]. rewrite E3. cbn [bind].
      unfold ir_skipto in H3. cbn [ir_l ir_m ir_p] in H3. rewrite clen_print in H3 by assumption. rewrite skipn_app_exact in H3 by reflexivity.
      apply (IH (ii + 1) seed' t3 _ ltac:(lia) H3).
    + rewrite K. reflexivity.
Qed.

Theorem test_ok : forall fuel start, start < nof ->
  match draws_all fuel (N.to_nat (nof - start)) 0 with
  | Some _ => exists t, tt_test cs character nof fuel start = Ret t (0, true)
  | None => tt_test cs character nof fuel start = Fuel
  end.
Proof.
  intros fuel start Hs. unfold tt_test. destruct (en_make_reads start Hs) as [i [E Hr]]. rewrite E.
  eapply (loop_ok fuel start 0 (ts_make i)); [lia|]. apply client_make; [exact Hr|]. apply print_bytes; [exact Hcs|apply remaining_all].
Qed.
End Enum.
