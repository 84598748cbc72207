(** Scanning a text in chunks delivers the same as scanning it in one piece (proofs). *)
From Verif Require Import Base Iter CharMap CodePages Charset TextScanner Ideal ReaderSim ScannerSim IterSim
  CharsetSpec CharsetProofs CharsetMore ReadSpec ReadProofs ChunkRead XmlScanner ScanSpec ScanProofs Safety FuelMono Term ChunkScan.

Ltac Zify.zify_post_hook ::= Z.div_mod_to_equations.

(** ** SrcIterator with the number of bytes supplied to it *)
Definition src_relA (A : N) (i : srcit) (s : stream) : Prop := src_rel i s /\ si_abs i = A.

Lemma orel_and : forall {S T V} (RR RJ : S -> T -> Prop) (P : S -> Prop) (x : out S V) (y : out T V), orel RR RJ x y ->
  match x with Ret s _ | Jump s | Throw s => P s | _ => True end ->
  orel (fun s t => RR s t /\ P s) (fun s t => RJ s t /\ P s) x y.
Proof. intros S T V RR RJ P x y H HP. destruct H; constructor; auto. Qed.

Lemma srcA_isim : forall A, isim eq src_ops stream_ops (src_relA A).
Proof.
  intros A. pose proof src_isim as [H1 H2 H3]. constructor.
  - intros i j [Hr Ha]. apply (orel_and _ _ (fun i => si_abs i = A) _ _ (H1 i j Hr)).
    cbn [src_ops deref]. unfold src_deref. destruct (nth_error (si_buf i) (N.to_nat (si_itr i))); [exact Ha|].
    destruct (si_eom i); exact Ha.
  - intros i j [Hr Ha]. apply (orel_and _ _ (fun i => si_abs i = A) _ _ (H2 i j Hr)). exact Ha.
  - intros i j k [Hr Ha]. apply H3. exact Hr.
Qed.

Definition srA A cs := rcomp (tsrel (src_relA A)) (trel cs).
Definition srAp A cs := rcomp (tsrel (src_relA A)) (trelp cs).
Definition srAj A cs := rcomp (tsrel (src_relA A)) (trelj cs).
Lemma srA_rsim : forall A cs, cs_constructible cs = true ->
  rsim eq (ts_ops src_ops cs) (ir_ops cs) (srA A cs) (srAp A cs) (srAj A cs).
Proof.
  intros A cs Hcs. eapply rsim_prel; [|eapply rsim_comp; [apply (isim_rsim _ _ _ _ (srcA_isim A))|apply ts_rsim; auto]].
  intros a b [c [-> ->]]. reflexivity.
Qed.

Lemma src_make_relA : forall cs l eom, Forall isByte l ->
  srA (N.of_nat (length l)) cs (ts_make (src_make l eom)) (mkIr l (emode_of eom) 0).
Proof.
  intros cs l eom Hl. exists (ts_make (mkStream l (emode_of eom) 0)).
  split; [|apply ts_make_rel; auto]. apply tsrel_make. split; [|reflexivity]. split; [reflexivity|]. split; [reflexivity|].
  cbn [spos]. unfold src_position, src_make. cbn [si_abs si_buf si_itr]. unfold u64, sub64, u64. lia.
Qed.

(** ** The two ways to supply a chunk *)
Definition feed_of (put : bool) : srcit -> list N -> bool -> srcit := if put then feed_put else feed_new.

Lemma feed_resume : forall put A cs t a p c eom, Forall isByte c -> srAj A cs t (mkIr a EndJump p) ->
  exists p2 A2, srA A2 cs (ts_setSource t (feed_of put (rit (ts_rd t)) c eom)) (mkIr (a ++ c) (emode_of eom) p2) /\
    (put = true -> u64 (p2 + N.of_nat (length a)) = u64 A) /\ (put = true -> u64 A2 = u64 (A + N.of_nat (length c))).
Proof.
  intros put A cs t a p c eom Hc [ts [H1 H2]].
  assert (Ha : (length a <= 8)%nat).
  { destruct H2 as [[_ [k [Hr [Hk _]]]] [_ [Hp _]]]. cbn [ir_l] in *.
    pose proof (clen_bounds cs a). rewrite (rr_pos _ _ _ _ _ Hr) in Hp. lia. }
  destruct put; cbn [feed_of].
  - exists (A + 2 ^ 64 - N.of_nat (length a)), (u64 (A + N.of_nat (length c))). split; [|split].
    + exists (ts_setSource ts (mkStream c (emode_of eom) (A + 2 ^ 64))). split.
      * destruct H1 as [r s v d Hrs]. destruct Hrs as [b q i j [Hij HA]]. unfold ts_setSource, rd_it, feed_put, src_putInput.
        cbn [ts_rd ts_val ts_cur rbuf rpos rit]. constructor. constructor. split; [|cbn [si_abs]; rewrite HA; reflexivity].
        split; [reflexivity|]. split; [reflexivity|]. cbn [spos].
        unfold src_position. cbn [si_abs si_buf si_itr]. rewrite HA. unfold u64, sub64, u64. lia.
      * replace (A + 2 ^ 64) with (A + 2 ^ 64 - N.of_nat (length a) + N.of_nat (length a)) at 1 by lia.
        eapply trelj_resume; eauto.
    + intros _. unfold u64. lia.
    + intros _. unfold u64. lia.
  - exists (2 ^ 64 - N.of_nat (length a)), (N.of_nat (length c)). split; [|split; discriminate].
    exists (ts_setSource ts (mkStream c (emode_of eom) (2 ^ 64))). split.
    + destruct H1 as [r s v d Hrs]. destruct Hrs as [b q i j [Hij HA]]. unfold ts_setSource, rd_it, feed_new.
      cbn [ts_rd ts_val ts_cur rbuf rpos]. constructor. constructor. split; [|reflexivity].
      split; [reflexivity|]. split; [reflexivity|]. cbn [spos].
      unfold src_position, src_make. cbn [si_abs si_buf si_itr]. unfold u64, sub64, u64. lia.
    + replace (2 ^ 64) with (2 ^ 64 - N.of_nat (length a) + N.of_nat (length a)) at 1 by lia.
      eapply trelj_resume; eauto.
Qed.

Section Top.
Context (cs : charset) (cfg : config) (put : bool).
Hypothesis Hcs : cs_constructible cs = true.
Notation iops := (ir_ops cs).
Notation cops := (ts_ops src_ops cs).
Notation XX := (X cs put).
Notation VV := (V cs put).
Notation OO := (O cs put).

Lemma ideal_next : forall w T mask f si t t' v,
  (XX w T si t \/ exists k, VV w T k si t /\ swallow mask si) -> nextItem iops cfg f mask t = Ret t' v ->
  (exists si', nextItem iops cfg (f + 9) mask si = Ret si' v /\ XX w T si' t') \/
  (exists si1 t1, nextItem iops cfg (f + 9) mask si = Jump si1 /\ nextItem iops cfg f mask t1 = Ret t' v /\
     (XX w T si1 t1 \/ exists k, OO w T k si1 t1 /\ swallow mask si1)).
Proof.
  intros w T mask f si t t' v H Ht.
  assert (HX : forall s0, XX w T s0 t -> fle (nextItem iops cfg f mask s0) (nextItem iops cfg (f + 9) mask si) ->
    (exists si', nextItem iops cfg (f + 9) mask si = Ret si' v /\ XX w T si' t') \/
    (exists si1 t1, nextItem iops cfg (f + 9) mask si = Jump si1 /\ nextItem iops cfg f mask t1 = Ret t' v /\
     (XX w T si1 t1 \/ exists k, OO w T k si1 t1 /\ swallow mask si1))).
  { intros s0 H0 Hle. pose proof (x_nextItem cs cfg put w T mask f s0 t H0) as HC. rewrite Ht in HC.
    remember (nextItem iops cfg f mask s0) as xs eqn:Exs. remember (Ret t' v) as yt eqn:Eyt.
    destruct HC as [s1 t1 a H1|s1 y [t1 [[Hy _] Hx]]| |]; try discriminate.
    - injection Eyt as <- <-. left. exists s1. split; auto. eapply fle_ret; eauto.
    - right. subst y. exists s1, t1. split.
      + destruct Hle as [Hle|Hle]; [discriminate|auto].
      + split; [eapply fle_ret; eauto|]. destruct Hx as [Hx|[[n Hx] Hsw]]; eauto. }
  destruct H as [H|[k [H Hsw]]].
  - apply (HX si); auto. apply mono_nextItem. lia.
  - assert (Hk : (k <= 7)%nat).
    { destruct H as [H _]. destruct H as [? ? ? ? ? ? ? ? H]. pose proof (v_k _ _ _ _ _ _ _ H). lia. }
    destruct (absorb cs cfg put w T mask f k si t H Hsw) as [[s0 [H0 Hle]]|[s0 [k' [Hj [H0 Hsw0]]]]].
    + apply (HX s0); auto. eapply fle_trans; [exact Hle|]. apply mono_nextItem. lia.
    + right. exists s0, t. split.
      * destruct (mono_nextItem iops cfg (S (S f) + k) (f + 9) mask si ltac:(lia)) as [E|E]; congruence.
      * split; auto. right. eauto.
Qed.

Lemma chunk_next : forall chunks mask f s si t A t' v, Forall (Forall isByte) chunks ->
  srel eq (srA A cs) s si ->
  (XX (concat chunks) (A, more chunks) si t \/ exists k, VV (concat chunks) (A, more chunks) k si t /\ swallow mask si) ->
  nextItem iops cfg f mask t = Ret t' v ->
  exists s' chunks' si' A', resume (sc_feed (feed_of put)) (nextItem cops cfg (f + 9) mask) chunks s = Ret (s', chunks') v /\
    srel eq (srA A' cs) s' si' /\ XX (concat chunks') (A', more chunks') si' t' /\ Forall (Forall isByte) chunks'.
Proof.
  induction chunks as [|c chunks IH]; intros mask f s si t A t' v Hb Hs H Ht.
  - pose proof (sim_nextItem _ _ cfg _ _ _ _ (srA_rsim A cs Hcs) (f + 9) mask s si Hs) as Hsim.
    cbn [resume]. destruct (ideal_next _ _ _ _ _ _ _ _ H Ht) as [[si' [E HX]]|[si1 [t1 [E [Et Hx]]]]]; rewrite E in Hsim;
      inversion Hsim as [s1 x1 a1 Hr E1 E2|s1 x1 Hr E1 E2| | |]; subst.
    + do 4 eexists. split; [reflexivity|]. split; [exact Hr|]. split; auto.
    + exfalso. assert (Hm : ir_m (sc_src si1) = EndJump).
      { destruct Hr as [? ? r t0 ? ? ? ? [ts [_ [_ [Hm _]]]]]. exact Hm. }
      destruct Hx as [[Hx _]|[k [[Hx _] _]]]; destruct Hx as [? ? r t0 ? ? ? ? Hx].
      * pose proof (x_mode _ _ _ _ _ _ Hx) as Hm2. cbn in Hm, Hm2. congruence.
      * pose proof (o_mode _ _ _ _ _ _ _ Hx) as Hm2. cbn in Hm, Hm2. congruence.
  - inversion Hb as [|? ? Hc Hb2]; subst.
    pose proof (sim_nextItem _ _ cfg _ _ _ _ (srA_rsim A cs Hcs) (f + 9) mask s si Hs) as Hsim.
    cbn [resume]. destruct (ideal_next _ _ _ _ _ _ _ _ H Ht) as [[si' [E HX]]|[si1 [t1 [E [Et Hx]]]]]; rewrite E in Hsim;
      inversion Hsim as [s1 x1 a1 Hr E1 E2|s1 x1 Hr E1 E2| | |]; subst.
    + do 4 eexists. split; [reflexivity|]. split; [exact Hr|]. split; auto.
    + assert (Hsrc : exists a p, sc_src si1 = mkIr a EndJump p).
      { destruct Hx as [Hx|[k [Hx _]]]; [eapply X_jumped; eauto; reflexivity|eapply O_jumped; eauto]. }
      destruct Hsrc as [a [p Hsrc]].
      assert (Hfeed : exists p2 A2, srel eq (srA A2 cs) (sc_feed (feed_of put) s1 c (more chunks))
                  (set_src si1 (mkIr (a ++ c) (emode_of (more chunks)) p2)) /\
                 (put = true -> u64 (p2 + N.of_nat (length a)) = u64 A) /\ (put = true -> u64 A2 = u64 (A + N.of_nat (length c)))).
      { clear Hx E E1. destruct Hr as [st er r t0 ob tp tp' tk Hr Htp]. cbn [sc_src] in Hsrc. subst t0.
        destruct (feed_resume put A cs r a p c (more chunks) Hc Hr) as [p2 [A2 [G1 [G2 G3]]]].
        exists p2, A2. split; [|split; auto]. unfold sc_feed, sc_setSource, set_src. cbn [sc_src sc_state sc_err sc_obuf sc_tokpos sc_tok].
        constructor; auto. }
      destruct Hfeed as [p2 [A2 [G1 [G2 G3]]]].
      assert (Hmore : more chunks = false -> concat chunks = []) by (destruct chunks; [reflexivity|discriminate]).
      eapply (IH mask f _ _ t1 A2 t' v Hb2 G1); auto.
      destruct Hx as [Hx|[k [Hx Hsw]]].
      * left. eapply feed_X; eauto.
      * right. exists k. split; [|exact Hsw]. eapply feed_O; eauto.
Qed.

Lemma chunk_scan : forall f masks s chunks si t A t' evs, Forall (Forall isByte) chunks ->
  srel eq (srA A cs) s si -> XX (concat chunks) (A, more chunks) si t ->
  scan iops cfg f masks t = Ret t' evs ->
  exists st' evs', scanChunked cs cfg (feed_of put) (f + 9) masks (s, chunks) = Ret st' evs' /\
    Forall2 (evrel (fun a b => put = true -> a = b)) evs' evs.
Proof.
  intros f. induction masks as [|m masks IH]; intros s chunks si t A t' evs Hb Hs H Ht.
  - cbn [scan] in Ht. injection Ht as <- <-. cbn [scanChunked]. eauto.
  - cbn [scan] in Ht. destruct (nextItem iops cfg f m t) as [t1 ty| | | |] eqn:E1; cbn [bind] in Ht; try discriminate.
    destruct (scan iops cfg f masks t1) as [t2 evs2| | | |] eqn:E2; cbn [bind] in Ht; try discriminate.
    injection Ht as <- <-.
    destruct (chunk_next chunks m f s si t A t1 ty Hb Hs (or_introl H) E1) as [s' [ch' [si' [A' [G1 [G2 [G3 G4]]]]]]].
    cbn [scanChunked fst snd]. rewrite G1. cbn [bind].
    destruct (IH s' ch' si' t1 A' t2 evs2 G4 G2 G3 E2) as [st' [evs' [K1 K2]]]. rewrite K1. cbn [bind].
    do 2 eexists. split; [reflexivity|]. constructor; auto. cbn [fst].
    unfold observe, evrel, element, sc_getItem, sc_getTokenPosition, sc_getPosition.
    cbn [ev_type ev_item ev_err ev_tokpos ev_pos].
    pose proof (X_pos _ _ _ _ _ _ G3) as Hpos.
    destruct G3 as [G3 _]. destruct G3 as [st er r t1 ob tp tp' tk G3 Htp].
    inversion G2 as [st0 er0 r0 t0 ob0 tp0 tp0' tk0 Hr0 Htp0]; subst. cbn [sc_src sc_obuf sc_err sc_tokpos] in *.
    split; [reflexivity|]. split; [exact Htp|].
    intros Hput. rewrite (rs_pos _ _ _ _ _ _ (srA_rsim A' cs Hcs) _ _ Hr0). apply Hpos. exact Hput.
Qed.

(** *** The other direction: the outcome of the scan in chunks is the outcome of the scan in one piece *)
Lemma ideal_back : forall w T mask f si t,
  (XX w T si t \/ exists k, VV w T k si t /\ swallow mask si) ->
  match nextItem iops cfg f mask si with
  | Ret si' v => exists t', nextItem iops cfg f mask t = Ret t' v /\ XX w T si' t'
  | Jump si1 => exists t1, (forall h, fle (nextItem iops cfg h mask t1) (nextItem iops cfg (h + f) mask t)) /\
      (XX w T si1 t1 \/ exists k, OO w T k si1 t1 /\ swallow mask si1)
  | Throw _ => False
  | Undef => nextItem iops cfg f mask t = Undef
  | Fuel => True
  end.
Proof.
  intros w T mask f si t H.
  assert (HX : forall s0, XX w T s0 t -> fle (nextItem iops cfg f mask si) (nextItem iops cfg f mask s0) ->
    match nextItem iops cfg f mask si with
    | Ret si' v => exists t', nextItem iops cfg f mask t = Ret t' v /\ XX w T si' t'
    | Jump si1 => exists t1, (forall h, fle (nextItem iops cfg h mask t1) (nextItem iops cfg (h + f) mask t)) /\
        (XX w T si1 t1 \/ exists k, OO w T k si1 t1 /\ swallow mask si1)
    | Throw _ => False
    | Undef => nextItem iops cfg f mask t = Undef
    | Fuel => True
    end).
  { intros s0 H0 [E|E]; rewrite E; [exact I|]. pose proof (x_nextItem cs cfg put w T mask f s0 t H0) as HC.
    remember (nextItem iops cfg f mask s0) as xs eqn:Exs. remember (nextItem iops cfg f mask t) as yt eqn:Eyt.
    destruct HC as [s1 t1 a H1|s1 y [t1 [[_ Hy] Hx]]| |]; try reflexivity; try exact I.
    - eauto.
    - exists t1. split; [exact Hy|]. destruct Hx as [Hx|[[n Hx] Hsw]]; eauto. }
  destruct H as [H|[k [H Hsw]]].
  - apply (HX si); auto. right. reflexivity.
  - destruct (absorb_back cs cfg put w T mask f k si t H Hsw) as [[s0 [H0 Hle]]|[s0 [k' [[Hj|Hj] [H0 Hsw0]]]]].
    + apply (HX s0); auto.
    + rewrite Hj. exact I.
    + rewrite Hj. exists t. split; [intros h; apply mono_nextItem; lia|]. right. eauto.
Qed.

Lemma chunk_back : forall chunks mask f s si t A, Forall (Forall isByte) chunks ->
  srel eq (srA A cs) s si ->
  (XX (concat chunks) (A, more chunks) si t \/ exists k, VV (concat chunks) (A, more chunks) k si t /\ swallow mask si) ->
  match resume (sc_feed (feed_of put)) (nextItem cops cfg f mask) chunks s with
  | Ret (s', chunks') v => exists g t' si' A', nextItem iops cfg g mask t = Ret t' v /\
      srel eq (srA A' cs) s' si' /\ XX (concat chunks') (A', more chunks') si' t' /\ Forall (Forall isByte) chunks'
  | Jump _ | Throw _ => False
  | Undef => exists g, nextItem iops cfg g mask t = Undef
  | Fuel => True
  end.
Proof.
  induction chunks as [|c chunks IH]; intros mask f s si t A Hb Hs H.
  - pose proof (sim_nextItem _ _ cfg _ _ _ _ (srA_rsim A cs Hcs) f mask s si Hs) as Hsim.
    cbn [resume]. pose proof (ideal_back _ _ mask f _ _ H) as HB.
    destruct Hsim as [s1 x1 a1 Hr|s1 x1 Hr|s1 x1 Hr| |]; auto.
    + destruct HB as [t' [E HX]]. exists f, t', x1, A. auto.
    + destruct HB as [t1 [_ Hx]]. assert (Hm : ir_m (sc_src x1) = EndJump).
      { destruct Hr as [? ? r t0 ? ? ? ? [ts [_ [_ [Hm _]]]]]. exact Hm. }
      destruct Hx as [[Hx _]|[k [[Hx _] _]]]; destruct Hx as [? ? r t0 ? ? ? ? Hx].
      * pose proof (x_mode _ _ _ _ _ _ Hx) as Hm2. cbn in Hm, Hm2. congruence.
      * pose proof (o_mode _ _ _ _ _ _ _ Hx) as Hm2. cbn in Hm, Hm2. congruence.
    + eauto.
  - inversion Hb as [|? ? Hc Hb2]; subst.
    pose proof (sim_nextItem _ _ cfg _ _ _ _ (srA_rsim A cs Hcs) f mask s si Hs) as Hsim.
    cbn [resume]. pose proof (ideal_back _ _ mask f _ _ H) as HB.
    destruct Hsim as [s1 x1 a1 Hr|s1 x1 Hr|s1 x1 Hr| |]; auto.
    + destruct HB as [t' [E HX]]. exists f, t', x1, A. auto.
    + destruct HB as [t1 [Hle Hx]].
      assert (Hsrc : exists a p, sc_src x1 = mkIr a EndJump p).
      { destruct Hx as [Hx|[k [Hx _]]]; [eapply X_jumped; eauto; reflexivity|eapply O_jumped; eauto]. }
      destruct Hsrc as [a [p Hsrc]].
      assert (Hfeed : exists p2 A2, srel eq (srA A2 cs) (sc_feed (feed_of put) s1 c (more chunks))
                  (set_src x1 (mkIr (a ++ c) (emode_of (more chunks)) p2)) /\
                 (put = true -> u64 (p2 + N.of_nat (length a)) = u64 A) /\ (put = true -> u64 A2 = u64 (A + N.of_nat (length c)))).
      { clear Hx. destruct Hr as [st er r t0 ob tp tp' tk Hr Htp]. cbn [sc_src] in Hsrc. subst t0.
        destruct (feed_resume put A cs r a p c (more chunks) Hc Hr) as [p2 [A2 [G1 [G2 G3]]]].
        exists p2, A2. split; [|split; auto]. unfold sc_feed, sc_setSource, set_src. cbn [sc_src sc_state sc_err sc_obuf sc_tokpos sc_tok].
        constructor; auto. }
      destruct Hfeed as [p2 [A2 [G1 [G2 G3]]]].
      assert (Hmore : more chunks = false -> concat chunks = []) by (destruct chunks; [reflexivity|discriminate]).
      assert (HV : XX (concat chunks) (A2, more chunks) (set_src x1 (mkIr (a ++ c) (emode_of (more chunks)) p2)) t1 \/
         exists k, VV (concat chunks) (A2, more chunks) k (set_src x1 (mkIr (a ++ c) (emode_of (more chunks)) p2)) t1 /\
           swallow mask (set_src x1 (mkIr (a ++ c) (emode_of (more chunks)) p2))).
      { destruct Hx as [Hx|[k [Hx Hsw]]].
        * left. eapply feed_X; eauto.
        * right. exists k. split; [|exact Hsw]. eapply feed_O; eauto. }
      specialize (IH mask f _ _ t1 A2 Hb2 G1 HV).
      destruct (resume (sc_feed (feed_of put)) (nextItem cops cfg f mask) chunks (sc_feed (feed_of put) s1 c (more chunks))) as [[s' ch'] v| | | |]; auto.
      * destruct IH as [g [t' [si' [A' [K1 K2]]]]]. exists (g + f)%nat, t', si', A'. split; [|exact K2].
        eapply fle_ret; [apply Hle|exact K1].
      * destruct IH as [g K1]. exists (g + f)%nat. destruct (Hle g) as [E|E]; congruence.
    + eauto.
Qed.

Lemma chunk_scan_back : forall f masks s chunks si t A, Forall (Forall isByte) chunks ->
  srel eq (srA A cs) s si -> XX (concat chunks) (A, more chunks) si t ->
  match scanChunked cs cfg (feed_of put) f masks (s, chunks) with
  | Ret st' evs' => exists g t' evs, scan iops cfg g masks t = Ret t' evs /\ Forall2 (evrel (fun a b => put = true -> a = b)) evs' evs
  | Jump _ | Throw _ => False
  | Undef => exists g, scan iops cfg g masks t = Undef
  | Fuel => True
  end.
Proof.
  intros f. induction masks as [|m masks IH]; intros s chunks si t A Hb Hs H.
  - cbn [scanChunked scan]. exists 0%nat, t, []. auto.
  - cbn [scanChunked fst snd].
    pose proof (chunk_back chunks m f s si t A Hb Hs (or_introl H)) as HB.
    destruct (resume (sc_feed (feed_of put)) (nextItem cops cfg f m) chunks s) as [[s' ch'] v| | | |]; cbn [bind]; auto.
    + destruct HB as [g [t1 [si' [A' [E1 [G2 [G3 G4]]]]]]].
      specialize (IH s' ch' si' t1 A' G4 G2 G3). cbn [fst].
      destruct (scanChunked cs cfg (feed_of put) f masks (s', ch')) as [st' evs'| | | |]; cbn [bind]; auto.
      * destruct IH as [g2 [t2 [evs [E2 He]]]].
        assert (E1' : nextItem iops cfg (max g g2) m t = Ret t1 v) by (eapply fle_ret; [apply mono_nextItem; apply Nat.le_max_l|exact E1]).
        assert (E2' : scan iops cfg (max g g2) masks t1 = Ret t2 evs) by (eapply fle_ret; [apply mono_scan; apply Nat.le_max_r|exact E2]).
        exists (max g g2). do 2 eexists. split; [cbn [scan]; rewrite E1'; cbn [bind]; rewrite E2'; cbn [bind]; reflexivity|].
        constructor; auto.
        unfold observe, evrel, element, sc_getItem, sc_getTokenPosition, sc_getPosition.
        cbn [ev_type ev_item ev_err ev_tokpos ev_pos].
        pose proof (X_pos _ _ _ _ _ _ G3) as Hpos.
        destruct G3 as [G3 _]. destruct G3 as [st er r t1 ob tp tp' tk G3 Htp].
        inversion G2 as [st0 er0 r0 t0 ob0 tp0 tp0' tk0 Hr0 Htp0]; subst. cbn [sc_src sc_obuf sc_err sc_tokpos] in *.
        split; [reflexivity|]. split; [exact Htp|].
        intros Hput. rewrite (rs_pos _ _ _ _ _ _ (srA_rsim A' cs Hcs) _ _ Hr0). apply Hpos. exact Hput.
      * destruct IH as [g2 E2].
        assert (E1' : nextItem iops cfg (max g g2) m t = Ret t1 v) by (eapply fle_ret; [apply mono_nextItem; apply Nat.le_max_l|exact E1]).
        assert (E2' : scan iops cfg (max g g2) masks t1 = Undef).
        { destruct (mono_scan iops cfg g2 (max g g2) masks t1 (Nat.le_max_r _ _)) as [E|E]; congruence. }
        exists (max g g2). cbn [scan]. rewrite E1'. cbn [bind]. rewrite E2'. reflexivity.
    + destruct HB as [g E1]. exists g. cbn [scan]. rewrite E1. reflexivity.
Qed.
End Top.

Theorem chunked_scan : forall incs outcs put f masks c0 chunks s evs, cs_constructible incs = true ->
  Forall isByte (concat (c0 :: chunks)) -> complete_text incs (concat (c0 :: chunks)) ->
  xml_scan incs outcs f masks (concat (c0 :: chunks)) = Ret s evs ->
  exists st' evs', scanChunked incs (xml_config incs outcs None 0) (feed_of put) (f + 9) masks
      (sc_make (ts_make (src_make c0 (more chunks))), chunks) = Ret st' evs' /\
    map element evs' = map element evs /\ (put = true -> evs' = evs).
Proof.
  intros incs outcs put f masks c0 chunks s evs Hcs Hb Hok Hscan.
  assert (Hb0 : Forall isByte c0 /\ Forall (Forall isByte) chunks).
  { cbn [concat] in Hb. apply Forall_app in Hb. destruct Hb as [H1 H2]. split; auto.
    clear - H2. induction chunks as [|c chunks IH]; constructor; cbn [concat] in H2; apply Forall_app in H2; [apply H2|apply IH; apply H2]. }
  destruct Hb0 as [Hb0 Hb1].
  pose proof (sim_scan _ _ _ _ eq _ _ (sim_nextItem _ _ (xml_config incs outcs None 0) _ _ _ _ (src_rsim incs Hcs))
     (rs_pos _ _ _ _ _ _ (src_rsim incs Hcs)) f masks (sc_make (ts_make (src_make (concat (c0 :: chunks)) false)))
     (sc_make (mkIr (concat (c0 :: chunks)) EndZero 0))) as Hsim.
  unfold xml_scan in Hscan. rewrite Hscan in Hsim.
  assert (Hini : srel eq (srcr incs) (sc_make (ts_make (src_make (concat (c0 :: chunks)) false))) (sc_make (mkIr (concat (c0 :: chunks)) EndZero 0))).
  { constructor; auto. apply (src_make_rel incs _ false Hb). }
  specialize (Hsim Hini). inversion Hsim as [s1 t1 e1 e2 H1 H2 E1 E2| | | |]; subst. symmetry in E2.
  apply evrel_eq in H2. subst e2.
  destruct (chunk_scan incs (xml_config incs outcs None 0) put Hcs f masks (sc_make (ts_make (src_make c0 (more chunks)))) chunks
     (sc_make (mkIr c0 (emode_of (more chunks)) 0)) (sc_make (mkIr (concat (c0 :: chunks)) EndZero 0)) (N.of_nat (length c0)) t1 evs Hb1)
     as [st' [evs' [G1 G2]]]; auto.
  - constructor; auto. apply src_make_relA. exact Hb0.
  - split; [|intros E0; discriminate E0]. constructor; [|intros _; reflexivity].
    constructor; cbn [ir_l ir_m ir_p fst snd]; auto.
    destruct chunks; [reflexivity|discriminate].
  - exists st', evs'. split; auto. split; [eapply evrel_elements; eauto|].
    intros Hput. apply evrel_eq. clear - G2 Hput. induction G2 as [|e1 e2 l1 l2 [He [Hp Hq]] H IH]; constructor; auto.
    split; auto.
Qed.

Theorem chunked_scan_back : forall incs outcs put f masks c0 chunks, cs_constructible incs = true ->
  Forall isByte (concat (c0 :: chunks)) -> complete_text incs (concat (c0 :: chunks)) ->
  match scanChunked incs (xml_config incs outcs None 0) (feed_of put) f masks (sc_make (ts_make (src_make c0 (more chunks))), chunks) with
  | Ret st' evs' => exists g s evs, xml_scan incs outcs g masks (concat (c0 :: chunks)) = Ret s evs /\
      map element evs' = map element evs /\ (put = true -> evs' = evs)
  | Jump _ | Throw _ => False
  | Undef => exists g, xml_scan incs outcs g masks (concat (c0 :: chunks)) = Undef
  | Fuel => True
  end.
Proof.
  intros incs outcs put f masks c0 chunks Hcs Hb Hok.
  assert (Hb0 : Forall isByte c0 /\ Forall (Forall isByte) chunks).
  { cbn [concat] in Hb. apply Forall_app in Hb. destruct Hb as [H1 H2]. split; auto.
    clear - H2. induction chunks as [|c chunks IH]; constructor; cbn [concat] in H2; apply Forall_app in H2; [apply H2|apply IH; apply H2]. }
  destruct Hb0 as [Hb0 Hb1].
  assert (Hini : srel eq (srcr incs) (sc_make (ts_make (src_make (concat (c0 :: chunks)) false))) (sc_make (mkIr (concat (c0 :: chunks)) EndZero 0))).
  { constructor; auto. apply (src_make_rel incs _ false Hb). }
  assert (Hsim : forall g, orelv (srel eq (srcr incs)) (srel eq (srcrj incs)) (Forall2 (evrel eq))
     (xml_scan incs outcs g masks (concat (c0 :: chunks)))
     (scan (ir_ops incs) (xml_config incs outcs None 0) g masks (sc_make (mkIr (concat (c0 :: chunks)) EndZero 0)))).
  { intros g. apply (sim_scan _ _ _ _ eq _ _ (sim_nextItem _ _ (xml_config incs outcs None 0) _ _ _ _ (src_rsim incs Hcs))
     (rs_pos _ _ _ _ _ _ (src_rsim incs Hcs)) g masks _ _ Hini). }
  pose proof (chunk_scan_back incs (xml_config incs outcs None 0) put Hcs f masks (sc_make (ts_make (src_make c0 (more chunks)))) chunks
     (sc_make (mkIr c0 (emode_of (more chunks)) 0)) (sc_make (mkIr (concat (c0 :: chunks)) EndZero 0)) (N.of_nat (length c0)) Hb1) as HB.
  match type of HB with ?A -> ?B -> _ => assert (HA : A); [|assert (HB2 : B); [|specialize (HB HA HB2); clear HA HB2]] end.
  - constructor; auto. apply src_make_relA. exact Hb0.
  - split; [|intros E0; discriminate E0]. constructor; [|intros _; reflexivity].
    constructor; cbn [ir_l ir_m ir_p fst snd]; auto.
    destruct chunks; [reflexivity|discriminate].
  - destruct (scanChunked incs (xml_config incs outcs None 0) (feed_of put) f masks (sc_make (ts_make (src_make c0 (more chunks))), chunks)) as [st' evs'| | | |]; auto.
    + destruct HB as [g [t' [evs [E1 G2]]]]. specialize (Hsim g). rewrite E1 in Hsim.
      remember (xml_scan incs outcs g masks (concat (c0 :: chunks))) as z eqn:Ez.
      inversion Hsim as [s1 t1 e1 e2 H1 H2 K1 K2| | | |]; subst. apply evrel_eq in H2. subst e1.
      exists g, s1, evs. split; auto. split; [eapply evrel_elements; eauto|].
      intros Hput. apply evrel_eq. clear - G2 Hput. induction G2 as [|e1 e2 l1 l2 [He [Hp Hq]] H IH]; constructor; auto.
      split; auto.
    + destruct HB as [g E1]. specialize (Hsim g). rewrite E1 in Hsim. exists g.
      remember (xml_scan incs outcs g masks (concat (c0 :: chunks))) as z eqn:Ez. clear Ez. inversion Hsim. reflexivity.
Qed.
