(** The parser of the model does the same as the parser of lists of characters (proofs). *)
From Coq Require Import Lia ZifyBool ZifyNat.
From Verif Require Import Base Iter CharMap Charset TextScanner XmlScanner Ideal CharReader PathAtm PathSpec PathProg PathParse ParseSpec ParseRead ParseList ParseGram.

(** *** the parser of the model *)
Section Reader.
Context {R : Type} (rops : readerops R) (acs : charset) (size : N) (rd rdp : R -> list N -> Prop).
Hypothesis HR : charreader rops size rd rdp.
Notation enc := (encoded acs).

Lemma skipSpaces_spec : forall f r l, rd r l -> (length l < f)%nat -> exists r', skipSpaces rops f r = Ret r' tt /\ rdp r' (dropsp l).
Proof.
  induction f as [|f IH]; intros r l H Hf; [lia|]. cbn [skipSpaces]. destruct (cr_control _ _ _ _ HR r l H) as (r1 & E1 & H1). rewrite E1. cbn [bind].
  unfold dropsp. destruct l as [|c l]; cbn [hd span snd].
  - change (ctl_eqb (ctl_of (kasc 0)) CSpace) with false. cbv iota. eauto.
  - change (ctl_eqb (ctl_of (kasc c)) CSpace) with (spaceb c). destruct (spaceb c); [|eauto]. destruct (cr_skip _ _ _ _ HR r1 c l H1) as (r2 & E2 & H2). rewrite E2. cbn [bind snd].
    apply IH; [exact H2|cbn [length] in Hf; lia].
Qed.
Lemma isIdent_spec : forall r l, rd r l -> exists r', isIdentifierChar rops r = Ret r' (identb (hd 0 l)) /\ rdp r' l.
Proof.
  intros r l H. unfold isIdentifierChar. destruct (cr_control _ _ _ _ HR r l H) as (r1 & E1 & H1). rewrite E1. cbn [bind]. unfold identb, kctl.
  destruct (_ || _) eqn:E; cbn [andb]; [|eauto]. destruct (cr_chr _ _ _ _ HR r1 l (cr_weak _ _ _ _ HR _ _ H1)) as (r2 & E2 & H2). rewrite E2. cbn [bind]. eauto.
Qed.
Lemma parseIdentifier_spec : forall f buf r l, rd r l -> (length l < f)%nat ->
  exists r', parseIdentifier rops acs f buf r = Ret r' (buf ++ enc (fst (span identb l))) /\ rdp r' (snd (span identb l)).
Proof.
  induction f as [|f IH]; intros buf r l H Hf; [lia|]. cbn [parseIdentifier]. destruct (isIdent_spec r l H) as (r1 & E1 & H1). rewrite E1. cbn [bind].
  destruct l as [|c l]; cbn [hd span].
  - rewrite identb_0. cbn [fst snd encoded flat_map]. rewrite app_nil_r. eauto.
  - destruct (identb c); [|cbn [fst snd encoded flat_map]; rewrite app_nil_r; eauto].
    destruct (cr_chr _ _ _ _ HR r1 _ (cr_weak _ _ _ _ HR _ _ H1)) as (r2 & E2 & H2). rewrite E2. cbn [bind hd].
    destruct (cr_skip _ _ _ _ HR r2 c l H2) as (r3 & E3 & H3). rewrite E3. cbn [bind]. cbn [length] in Hf.
    destruct (IH (buf ++ cs_print acs c) r3 l H3 ltac:(lia)) as (r4 & E4 & H4). exists r4. rewrite E4. cbn [fst snd]. split; [|exact H4].
    unfold encoded. cbn [flat_map]. rewrite app_assoc. reflexivity.
Qed.
Lemma parseQuoted_spec : forall f eb buf r l, rd r l -> (length l < f)%nat ->
  exists r', parseQuoted rops acs f eb buf r = Ret r' (buf ++ enc (fst (span (fun c => negb (c =? eb)) l))) /\ rd r' (tl (snd (span (fun c => negb (c =? eb)) l))).
Proof.
  induction f as [|f IH]; intros eb buf r l H Hf; [lia|]. cbn [parseQuoted]. destruct (cr_chr _ _ _ _ HR r l H) as (r1 & E1 & H1). rewrite E1. cbn [bind].
  destruct l as [|c l]; cbn [hd span].
  - cbn [N.eqb fst snd encoded flat_map tl]. rewrite app_nil_r. exists r1. split; [reflexivity|]. apply (cr_weak _ _ _ _ HR). exact H1.
  - pose proof (cr_nz _ _ _ _ HR _ _ H) as Hz. destruct (N.eqb_spec c 0) as [->|_]; [exfalso; apply Hz; left; reflexivity|].
    destruct (cr_skip _ _ _ _ HR r1 c l H1) as (r2 & E2 & H2). rewrite E2. cbn [bind]. destruct (c =? eb); cbn [negb].
    + cbn [fst snd encoded flat_map tl]. rewrite app_nil_r. eauto.
    + cbn [length] in Hf. destruct (IH eb (buf ++ cs_print acs c) r2 l H2 ltac:(lia)) as (r4 & E4 & H4). exists r4. rewrite E4. cbn [fst snd]. split; [|exact H4].
      unfold encoded. cbn [flat_map]. rewrite app_assoc. reflexivity.
Qed.
Lemma parseDigits_spec : forall f num r l, rd r l -> (length l < f)%nat ->
  exists r', parseDigits rops f num r = Ret r' (num ++ fst (span digitb l)) /\ rdp r' (snd (span digitb l)).
Proof.
  induction f as [|f IH]; intros num r l H Hf; [lia|]. cbn [parseDigits]. destruct (cr_chr _ _ _ _ HR r l H) as (r1 & E1 & H1). rewrite E1. cbn [bind].
  destruct l as [|c l]; cbn [hd span].
  - change ((48 <=? 0) && (0 <=? 57)) with false. cbn [fst snd]. rewrite app_nil_r. eauto.
  - change ((48 <=? c) && (c <=? 57)) with (digitb c). destruct (digitb c); [|cbn [fst snd]; rewrite app_nil_r; eauto].
    destruct (cr_skip _ _ _ _ HR r1 c l H1) as (r3 & E3 & H3). rewrite E3. cbn [bind]. cbn [length] in Hf.
    destruct (IH (num ++ [c]) r3 l H3 ltac:(lia)) as (r4 & E4 & H4). exists r4. rewrite E4, <- app_assoc. cbn [fst snd app]. auto.
Qed.
Lemma atoi_nonneg d : Forall (fun c => digitb c = true) d -> (0 <= atoi d)%Z.
Proof.
  intro H. unfold atoi. assert (G : forall v, (0 <= v)%Z -> (0 <= fold_left (fun v c => v * 10 + (Z.of_N c - 48)) d v)%Z); [|apply G; lia].
  induction H as [|c d Hc H IH]; intros v Hv; cbn [fold_left]; [exact Hv|]. apply IH. unfold digitb in Hc. lia.
Qed.
Lemma parseNum_spec f r l : rd r l -> (length l < f)%nat ->
  exists r' z, parseNum rops f r = Ret r' z /\ rdp r' (snd (span digitb l)) /\ match lp_num l with Some (n, l') => z = n /\ (z <? 0)%Z = false /\ l' = snd (span digitb l) | None => (z <? 0)%Z = true end.
Proof.
  intros H Hf. unfold parseNum, lp_num. destruct (parseDigits_spec f [] r l H Hf) as (r1 & E1 & H1). rewrite E1. cbn [bind app]. exists r1. eexists. split; [reflexivity|]. split; [exact H1|].
  pose proof (atoi_nonneg _ (span_all digitb l)) as Hd. destruct (span digitb l) as [d l']. cbn [fst snd] in *. destruct (_ || _); [reflexivity|]. split; [reflexivity|]. split; [lia|reflexivity].
Qed.
Lemma parseValue_spec f r l : rd r l -> (length l < f)%nat ->
  exists r' o, parseValue rops acs f r = Ret r' o /\ match lp_value l with
    | Some (v, l') => o = Some (enc v) /\ rd r' l'
    | None => o = None /\ rd r' l \/ exists v, o = Some v /\ rd r' []
    end.
Proof.
  intros H Hf. unfold parseValue, lp_value. destruct (cr_chr _ _ _ _ HR r l H) as (r1 & E1 & H1). rewrite E1. cbn [bind].
  rewrite (eat_hd 34 l), (eat_hd 39 l) by discriminate.
  assert (Q : forall q l', l = q :: l' -> exists r' o, (let! (r, _) := r_skip rops r1 in let! (r, v) := parseQuoted rops acs f q [] r in Ret r (Some v)) = Ret r' o /\
     match (let (v, l) := span (fun c => negb (c =? q)) l' in match l with [] => None | _ :: l => Some (v, l) end) with
     | Some (v, l') => o = Some (enc v) /\ rd r' l' | None => o = None /\ rd r' l \/ exists v, o = Some v /\ rd r' [] end).
  { intros q l' ->. destruct (cr_skip _ _ _ _ HR r1 q l' H1) as (r2 & E2 & H2). rewrite E2. cbn [bind]. cbn [length] in Hf.
    destruct (parseQuoted_spec f q [] r2 l' H2 ltac:(lia)) as (r3 & E3 & H3). rewrite E3. cbn [bind app]. exists r3. eexists. split; [reflexivity|].
    destruct (span _ l') as [v l1]. cbn [fst snd] in *. destruct l1 as [|x l1]; cbn [tl] in H3; [right; eexists; split; [reflexivity|exact H3]|auto]. }
  destruct (eat 34 l) as [l'|] eqn:E34.
  - apply eat_Some in E34. assert (Hh : hd 0 l = 34) by (rewrite E34; reflexivity). cbn [orb]. rewrite Hh. apply (Q 34 l' E34).
  - destruct (eat 39 l) as [l'|] eqn:E39.
    + apply eat_Some in E39. assert (Hh : hd 0 l = 39) by (rewrite E39; reflexivity). cbn [orb]. rewrite Hh. apply (Q 39 l' E39).
    + cbn [orb]. destruct (isIdent_spec r1 l (cr_weak _ _ _ _ HR _ _ H1)) as (r2 & E2 & H2). rewrite E2. cbn [bind]. unfold lp_ident.
      destruct (identb (hd 0 l)).
      * destruct (parseIdentifier_spec f [] r2 l (cr_weak _ _ _ _ HR _ _ H2) Hf) as (r3 & E3 & H3). rewrite E3. cbn [bind app]. exists r3. eexists. split; [reflexivity|].
        destruct (span identb l) as [v l1]. cbn [fst snd] in *. split; [reflexivity|]. apply (cr_weak _ _ _ _ HR). exact H3.
      * exists r2, None. split; [reflexivity|]. left. split; [reflexivity|]. apply (cr_weak _ _ _ _ HR). exact H2.
Qed.
Lemma lp_names_mono : forall f f' l, (length l < f)%nat -> (f <= f')%nat -> lp_names f' l = lp_names f l.
Proof.
  induction f as [|f IH]; intros f' l Hl Hf; [lia|]. destruct f' as [|f']; [lia|]. cbn [lp_names]. destruct (lp_ident (dropsp l)) as [[n l1]|] eqn:E; [|reflexivity].
  destruct (eat 44 (dropsp l1)) as [l2|] eqn:E2; [|reflexivity]. apply lp_ident_len in E. destruct E as [E _]. pose proof (dropsp_len l). pose proof (dropsp_len l1).
  apply eat_Some in E2. assert (length (dropsp l1) = S (length l2)) by (rewrite E2; reflexivity). rewrite (IH f' l2) by lia. reflexivity.
Qed.
Lemma parseNames_spec : forall f ns c r l, rdp r (c :: l) -> (length (c :: l) < f)%nat ->
  exists r', match lp_names f l with
    | Some (ms, l') => parseNames rops acs f ns r = Ret r' (ns ++ map enc ms) /\ rd r' l' /\ ms <> []
    | None => parseNames rops acs f ns r = Ret r' [] /\ exists l', rd r' l'
    end.
Proof.
  induction f as [|f IH]; intros ns c r l H Hf; [lia|]. cbn [parseNames lp_names]. cbn [length] in Hf.
  destruct (cr_skip _ _ _ _ HR r c l H) as (r1 & E1 & H1). rewrite E1. cbn [bind].
  destruct (skipSpaces_spec f r1 l H1 ltac:(lia)) as (r2 & E2 & H2). rewrite E2. cbn [bind]. pose proof (dropsp_len l) as L1. set (l1 := dropsp l) in *. clearbody l1.
  destruct (isIdent_spec r2 l1 (cr_weak _ _ _ _ HR _ _ H2)) as (r3 & E3 & H3). rewrite E3. cbn [bind].
  pose proof (lp_ident_len l1) as L2. unfold lp_ident in *. destruct (identb (hd 0 l1)); [|exists r3; split; [reflexivity|]; exists l1; apply (cr_weak _ _ _ _ HR); exact H3].
  destruct (parseIdentifier_spec f [] r3 l1 (cr_weak _ _ _ _ HR _ _ H3) ltac:(lia)) as (r4 & E4 & H4). rewrite E4. cbn [bind app].
  destruct (span identb l1) as [n l2]. cbn [fst snd] in *. specialize (L2 n l2 eq_refl). destruct L2 as [L2 _].
  destruct (skipSpaces_spec f r4 l2 (cr_weak _ _ _ _ HR _ _ H4) ltac:(lia)) as (r5 & E5 & H5). rewrite E5. cbn [bind]. pose proof (dropsp_len l2) as L3. set (l3 := dropsp l2) in *. clearbody l3.
  destruct (cr_chr _ _ _ _ HR r5 l3 (cr_weak _ _ _ _ HR _ _ H5)) as (r6 & E6 & H6). rewrite E6. cbn [bind]. rewrite (eat_hd 44 l3), (eat_hd 125 l3) by discriminate.
  destruct (eat 44 l3) as [l4|] eqn:E44.
  - apply eat_Some in E44. subst l3. cbn [length] in L3. destruct (IH (ns ++ [enc n]) 44 r6 l4 H6 ltac:(cbn [length]; lia)) as (r7 & E7). exists r7.
    destruct (lp_names f l4) as [[ms l5]|]; [|exact E7]. destruct E7 as (E7 & H7 & _). rewrite E7, <- app_assoc. cbn [map app]. split; [reflexivity|]. split; [exact H7|discriminate].
  - destruct (eat 125 l3) as [l4|] eqn:E125.
    + apply eat_Some in E125. subst l3. destruct (cr_skip _ _ _ _ HR r6 125 l4 H6) as (r7 & E7 & H7). rewrite E7. cbn [bind]. exists r7. split; [reflexivity|]. split; [exact H7|discriminate].
    + exists r6. split; [reflexivity|]. exists l3. apply (cr_weak _ _ _ _ HR). exact H6.
Qed.

(** what a part does to the path elements *)
Definition item_ops (st : stage) (it : item) : list pathop :=
  match it with
  | IAt | ISlash => []
  | IDeep => [BFollow]
  | IName n => [step_call st (Some (enc n))]
  | IEvery => [step_call st None]
  | IAmong ns => map (fun n => step_call st (Some (enc n))) ns
  | IIf n v => [BCond (Some (enc n)) (Some (enc v))]
  | IIndex i => [BIndex i]
  | IFrom i => [BFrom i]
  | IRange i j => [BRange i j]
  | IContent => [BContent]
  | IClose => [BClose]
  end.
Definition item_run (st : stage) (it : item) (ps : list pelem) (a : atm) : out atm (list pelem) :=
  match it with IAt | ISlash => Ret a ps | _ => for_alts acs (item_ops st it) ps a end.
Lemma for_alts_one o ps a : for_alts acs [o] ps a = for_each acs o ps a.
Proof. cbn [for_alts]. destruct (for_each acs o ps a); cbn [bind]; rewrite ?app_nil_r; reflexivity. Qed.

Notation err r := (PError (Z.of_N (u64 (r_pos rops r + 1)))).
(** the outcome of a step of the parser *)
Definition runs {A B} (m : out atm A) (post : atm -> A -> out (both (R := R)) B -> Prop) (o : out (both (R := R)) B) : Prop :=
  match m with
  | Ret a x => post a x o
  | Throw a => exists r, o = Throw (r, a)
  | Jump a => exists r, o = Jump (r, a)
  | Undef => o = Undef
  | Fuel => o = Fuel
  end.
Definition step_spec (res : option (item * stage * list N)) (st : stage) (ps : list pelem) (a : atm) (o : out (both (R := R)) pnext) : Prop :=
  match res with
  | Some (it, st', l') => runs (item_run st it ps a) (fun a ps o => exists r', rd r' l' /\ o = Ret (r', a) (PNext (place_of st') ps)) o
  | None => exists r' l', rd r' l' /\ o = Ret (r', a) (err r')
  end.
Notation weak := (cr_weak _ _ _ _ HR _ _).

Lemma pcall_skip o st it pl ps r a r' l' : item_run st it ps a = for_alts acs [o] ps a -> r_skip rops r = Ret r' tt -> rd r' l' ->
  runs (item_run st it ps a) (fun a ps o => exists r', rd r' l' /\ o = Ret (r', a) (PNext pl ps)) (let! (s, n) := pcall acs o pl ps (r, a) in let! (s, _) := on_r (r_skip rops) s in Ret s n).
Proof.
  intros E E1 H. rewrite E, for_alts_one. unfold pcall, on_a, on_r. cbn [fst snd]. destruct (for_each acs o ps a); cbn [omap bind runs fst snd]; eauto.
  rewrite E1. cbn [omap bind]. eauto.
Qed.
Lemma pcall_last o st it pl ps r a l' : item_run st it ps a = for_alts acs [o] ps a -> rd r l' ->
  runs (item_run st it ps a) (fun a ps o => exists r', rd r' l' /\ o = Ret (r', a) (PNext pl ps)) (pcall acs o pl ps (r, a)).
Proof.
  intros E H. rewrite E, for_alts_one. unfold pcall, on_a. cbn [fst snd]. destruct (for_each acs o ps a); cbn [omap bind runs fst snd]; eauto.
Qed.
Lemma pcalls_last os st it pl ps r a l' : item_run st it ps a = for_alts acs os ps a -> rd r l' ->
  runs (item_run st it ps a) (fun a ps o => exists r', rd r' l' /\ o = Ret (r', a) (PNext pl ps)) (pcalls acs os pl ps (r, a)).
Proof.
  intros E H. rewrite E. unfold pcalls, on_a. cbn [fst snd]. destruct (for_alts acs os ps a); cbn [omap bind runs fst snd]; eauto.
Qed.

Ltac onr E := unfold on_r at 1; cbn [fst snd]; rewrite E; cbn [omap bind].
Ltac sps f r l H r' H' := let E := fresh "E" in destruct (skipSpaces_spec f r l H ltac:(lia)) as (r' & E & H'); onr E; pose proof (dropsp_len l); generalize dependent (dropsp l).

Lemma parse_bracket_spec f st st' ps r l a : rd r l -> (length l < f)%nat -> (forall n v, next_stage st (IIf n v) = Some st') -> place_of st' = SelectCondition ->
  step_spec (match lp_bracket l with Some (it, l') => Some (it, st', l') | None => None end) st ps a (parse_bracket rops acs f ps (r, a)).
Proof.
  intros H Hf _ Hst. unfold parse_bracket, lp_bracket.
  destruct (skipSpaces_spec f r l H Hf) as (r1 & E1 & H1). onr E1. pose proof (dropsp_len l) as L1. pose proof (dropsp_twice l) as ED. generalize dependent (dropsp l). intros l1 H1 L1 ED. destruct (cr_chr _ _ _ _ HR r1 l1 (weak H1)) as (r2 & E2 & H2). onr E2. rewrite (eat_hd 64 l1) by discriminate.
  destruct (eat 64 l1) as [l2|] eqn:E64.
  - apply eat_Some in E64. subst l1. destruct (cr_skip _ _ _ _ HR r2 64 l2 H2) as (r3 & E3 & H3). onr E3. cbn [length] in *.
    sps f r3 l2 H3 r4 H4. intros l3 H4 L3.
    destruct (isIdent_spec r4 l3 (weak H4)) as (r5 & E5 & H5). onr E5. pose proof (lp_ident_len l3) as L4. unfold lp_ident at 1. unfold lp_ident in L4. destruct (identb (hd 0 l3)); cbn [negb]; [|exists r5, l3; split; [exact (weak H5)|reflexivity]].
    destruct (parseIdentifier_spec f [] r5 l3 (weak H5) ltac:(lia)) as (r6 & E6 & H6). onr E6. cbn [app].
    destruct (span identb l3) as [n l4]. cbn [fst snd] in *. specialize (L4 n l4 eq_refl).
    sps f r6 l4 (weak H6) r7 H7. intros l5 H7 L5.
    destruct (cr_chr _ _ _ _ HR r7 l5 (weak H7)) as (r8 & E8 & H8). onr E8. rewrite (eat_hd 61 l5) by discriminate.
    destruct (eat 61 l5) as [l6|] eqn:E61; cbn [negb]; [|exists r8, l5; split; [exact (weak H8)|reflexivity]].
    apply eat_Some in E61. subst l5. destruct (cr_skip _ _ _ _ HR r8 61 l6 H8) as (r9 & E9 & H9). onr E9. cbn [length] in *.
    sps f r9 l6 H9 r10 H10. intros l7 H10 L7.
    destruct (parseValue_spec f r10 l7 (weak H10) ltac:(lia)) as (r11 & o & E11 & H11). onr E11.
    destruct (lp_value l7) as [[v l8]|] eqn:EV.
    + destruct H11 as [-> H11]. assert (L8 : (length l8 <= length l7)%nat).
      { unfold lp_value in EV. pose proof (eat_Some 34 l7) as X1. pose proof (eat_Some 39 l7) as X2. pose proof (lp_ident_len l7) as X3.
        destruct (eat 34 l7) as [l9|]; [specialize (X1 _ eq_refl)|destruct (eat 39 l7) as [l9|]; [specialize (X2 _ eq_refl); clear X1|]].
        - pose proof (span_len (fun c => negb (c =? 34)) l9) as X4. destruct (span _ l9) as [v' [|x l10]]; [discriminate|]. injection EV as <- <-. cbn [snd length] in X4. rewrite X1. cbn [length]. lia.
        - pose proof (span_len (fun c => negb (c =? 39)) l9) as X4. destruct (span _ l9) as [v' [|x l10]]; [discriminate|]. injection EV as <- <-. cbn [snd length] in X4. rewrite X2. cbn [length]. lia.
        - apply X3 in EV. lia. }
      sps f r11 l8 H11 r12 H12. intros l9 H12 L9.
      destruct (cr_chr _ _ _ _ HR r12 l9 (weak H12)) as (r13 & E13 & H13). onr E13. rewrite (eat_hd 93 l9) by discriminate.
      destruct (eat 93 l9) as [l10|] eqn:E93; cbn [negb]; [|exists r13, l9; split; [exact (weak H13)|reflexivity]].
      apply eat_Some in E93. subst l9. destruct (cr_skip _ _ _ _ HR r13 93 l10 H13) as (r14 & E14 & H14). unfold step_spec. rewrite Hst. eapply pcall_skip; [reflexivity|exact E14|exact H14].
    + destruct H11 as [[-> H11]|[v [-> H11]]].
      * sps f r11 l7 H11 r12 H12. intros l9 H12 L9. exists r12, l9. split; [exact (weak H12)|reflexivity].
      * destruct (skipSpaces_spec f r11 [] H11 ltac:(cbn [length]; lia)) as (r12 & E12 & H12). onr E12.
        destruct (cr_chr _ _ _ _ HR r12 [] (weak H12)) as (r13 & E13 & H13). onr E13. change (hd 0 [] =? 93) with false. cbn [negb]. exists r13, []. split; [exact (weak H13)|reflexivity].
  - destruct (skipSpaces_spec f r2 l1 (weak H2) ltac:(lia)) as (r3 & E3 & H3). onr E3. rewrite ED in H3.
    destruct (isIdent_spec r3 l1 (weak H3)) as (r4 & E4 & H4). onr E4.
    destruct (parseNum_spec f r4 l1 (weak H4) ltac:(lia)) as (r5 & z & E5 & H5 & H6).
    pose proof (lp_num_ident l1) as Hi.
    destruct (identb (hd 0 l1)); cbn [negb]; [|rewrite (Hi eq_refl); exists r4, l1; split; [exact (weak H4)|reflexivity]]. clear Hi.
    onr E5. pose proof (span_len digitb l1) as L5.
    destruct (lp_num l1) as [[n l2]|]; [|rewrite H6; exists r5; eexists; split; [exact (weak H5)|reflexivity]].
    destruct H6 as (-> & -> & H6). rewrite <- H6 in *. clear H6.
    sps f r5 l2 (weak H5) r6 H6. intros l3 H6 L6. destruct (cr_chr _ _ _ _ HR r6 l3 (weak H6)) as (r7 & E7 & H7). onr E7. rewrite (eat_hd 44 l3), (eat_hd 93 l3) by discriminate.
    destruct (eat 44 l3) as [l4|] eqn:E44.
    + apply eat_Some in E44. subst l3. destruct (cr_skip _ _ _ _ HR r7 44 l4 H7) as (r8 & E8 & H8). onr E8. cbn [length] in *.
      sps f r8 l4 H8 r9 H9. intros l5 H9 L9. destruct (cr_chr _ _ _ _ HR r9 l5 (weak H9)) as (r10 & E10 & H10). onr E10. rewrite (eat_hd 93 l5) by discriminate.
      destruct (eat 93 l5) as [l6|] eqn:E93.
      * apply eat_Some in E93. subst l5. destruct (cr_skip _ _ _ _ HR r10 93 l6 H10) as (r11 & E11 & H11). unfold step_spec. rewrite Hst. eapply pcall_skip; [reflexivity|exact E11|exact H11].
      * destruct (isIdent_spec r10 l5 (weak H10)) as (r11 & E11 & H11). onr E11.
        destruct (parseNum_spec f r11 l5 (weak H11) ltac:(lia)) as (r12 & z & E12 & H12 & H13). pose proof (lp_num_ident l5) as Hi.
        destruct (identb (hd 0 l5)); cbn [negb]; [|rewrite (Hi eq_refl); exists r11, l5; split; [exact (weak H11)|reflexivity]]. clear Hi.
        onr E12. pose proof (span_len digitb l5) as L12.
        destruct (lp_num l5) as [[m l6]|]; [|rewrite H13; exists r12; eexists; split; [exact (weak H12)|reflexivity]].
        destruct H13 as (-> & -> & H13). rewrite <- H13 in *. clear H13.
        sps f r12 l6 (weak H12) r13 H13. intros l7 H13 L13. destruct (cr_chr _ _ _ _ HR r13 l7 (weak H13)) as (r14 & E14 & H14). onr E14. rewrite (eat_hd 93 l7) by discriminate.
        destruct (eat 93 l7) as [l8|] eqn:E93'; [|exists r14, l7; split; [exact (weak H14)|reflexivity]].
        apply eat_Some in E93'. subst l7. destruct (cr_skip _ _ _ _ HR r14 93 l8 H14) as (r15 & E15 & H15). unfold step_spec. rewrite Hst. eapply pcall_skip; [reflexivity|exact E15|exact H15].
    + destruct (eat 93 l3) as [l4|] eqn:E93; [|exists r7, l3; split; [exact (weak H7)|reflexivity]].
      apply eat_Some in E93. subst l3. destruct (cr_skip _ _ _ _ HR r7 93 l4 H7) as (r8 & E8 & H8). unfold step_spec. rewrite Hst. eapply pcall_skip; [reflexivity|exact E8|exact H8].
Qed.

Lemma place_in_of (l : list place) st : place_in l (place_of st) = existsb (fun q => place_in [q] (place_of st)) l.
Proof. unfold place_in. cbn [existsb]. induction l as [|q l IH]; [reflexivity|]. cbn [existsb]. rewrite orb_false_r. f_equal. exact IH. Qed.

Lemma parse_switch_spec f st ps r c l a : rdp r (c :: l) -> (length (c :: l) < f)%nat ->
  step_spec (lp_next st (c :: l)) st ps a (parse_switch rops acs f c (place_of st) ps (r, a)).
Proof.
  intros H Hf. unfold parse_switch, lp_next, lp_item. pose proof (cr_skip _ _ _ _ HR r c l H) as (r1 & E1 & H1).
  assert (Hperr : forall r l, rd r l -> step_spec None st ps a (perror rops (r, a))) by (intros r' l' H'; exists r', l'; split; [exact H'|reflexivity]).
  destruct (c =? 64); [|destruct (c =? 47); [|destruct (c =? 91); [|destruct (c =? 40); [|destruct (c =? 42); [|destruct (c =? 123); [|destruct (c =? 126)]]]]]].
  - destruct st; cbn [next_stage place_of]; try (apply (Hperr r _ (weak H)));
      (change (place_in _ _) with true; cbv iota; onr E1; cbn [step_spec item_run runs]; exists r1; split; [exact H1|reflexivity]).
  - destruct st; cbn [next_stage place_of]; try (destruct (eat 47 l); apply (Hperr r _ (weak H)));
      (change (place_in _ _) with true; cbv iota; onr E1; destruct (cr_chr _ _ _ _ HR r1 l H1) as (r2 & E2 & H2); onr E2; rewrite (eat_hd 47 l) by discriminate;
       destruct (eat 47 l) as [l2|] eqn:E47; [|cbn [step_spec item_run runs]; exists r2; split; [exact (weak H2)|reflexivity]];
       apply eat_Some in E47; subst l; destruct (cr_skip _ _ _ _ HR r2 47 l2 H2) as (r3 & E3 & H3); unfold step_spec; eapply pcall_skip; [reflexivity|exact E3|exact H3]).
  - assert (Eb : match lp_bracket l with Some (it, l') => match next_stage st it with Some st' => Some (it, st', l') | None => None end | None => None end =
      match next_stage st (IIndex 0) with Some st' => match lp_bracket l with Some (it, l') => Some (it, st', l') | None => None end | None => None end).
    { pose proof (bracket_stage l) as B. destruct (lp_bracket l) as [[it l']|]; [|destruct (next_stage st (IIndex 0)); reflexivity]. rewrite (B it l' st eq_refl). reflexivity. }
    rewrite Eb. clear Eb. cbn [length] in Hf.
    destruct st; cbn [next_stage place_of]; try (apply (Hperr r _ (weak H)));
      (change (place_in _ _) with true; cbv iota; onr E1; apply parse_bracket_spec; [exact H1|lia|reflexivity|reflexivity]).
  - cbn [length] in Hf. destruct (skipSpaces_spec f r1 l H1 ltac:(lia)) as (r2 & E2 & H2).
    destruct st; cbn [next_stage place_of]; try (destruct (eat 41 (dropsp l)); apply (Hperr r _ (weak H)));
      (change (place_in _ _) with true; cbv iota; onr E1; onr E2; destruct (cr_chr _ _ _ _ HR r2 _ (weak H2)) as (r3 & E3 & H3); onr E3; rewrite (eat_hd 41 (dropsp l)) by discriminate;
       destruct (eat 41 (dropsp l)) as [l2|] eqn:E41; cbn [negb]; [|apply (Hperr r3 _ (weak H3))];
       apply eat_Some in E41; rewrite E41 in H3; destruct (cr_skip _ _ _ _ HR r3 41 l2 H3) as (r4 & E4 & H4); onr E4; unfold step_spec; eapply pcall_last; [reflexivity|exact H4]).
  - destruct st; cbn [next_stage place_of]; try (apply (Hperr r _ (weak H)));
      (change (place_in [SelectStart; SelectTag; SelectAttribute] _) with true; cbv iota; onr E1; unfold step_spec; eapply pcall_last; [reflexivity|exact H1]).
  - pose proof (parseNames_spec f [] c r l H Hf) as (r2 & E2). cbn [length] in Hf. rewrite (lp_names_mono (S (length l)) f l) in E2 by lia.
    destruct (lp_names (S (length l)) l) as [[ms l2]|].
    + destruct E2 as (E2 & H2 & Hne). cbn [app] in E2.
      destruct st; cbn [next_stage place_of]; try (apply (Hperr r _ (weak H)));
        (change (place_in [SelectStart; SelectTag; SelectAttribute] _) with true; cbv iota; onr E2; unfold step_spec; destruct ms as [|m ms]; [contradiction|]; cbn [map]; 
         eapply pcalls_last; [|exact H2]; cbn [item_run item_ops]; rewrite map_map; reflexivity).
    + destruct E2 as (E2 & l2 & H2).
      destruct (place_in _ _); [|apply (Hperr r _ (weak H))]. onr E2. apply (Hperr r2 _ H2).
  - destruct st; cbn [next_stage place_of]; try (apply (Hperr r _ (weak H)));
      (change (place_in _ _) with true; cbv iota; onr E1; unfold step_spec; eapply pcall_last; [reflexivity|exact H1]).
  - pose proof (isIdent_spec r _ (weak H)) as (r2 & E2 & H2). pose proof (parseIdentifier_spec f [] r2 _ (weak H2) Hf) as (r3 & E3 & H3). cbn [app] in E3. 
    unfold lp_ident. cbn [hd] in *. destruct (identb c).
    + destruct (span identb (c :: l)) as [n l2]. cbn [fst snd] in *.
      destruct st; cbn [next_stage place_of]; try (apply (Hperr r _ (weak H)));
        (change (place_in [SelectStart; SelectTag; SelectAttribute] _) with true; cbv iota; onr E2; cbn [negb]; onr E3; unfold step_spec; eapply pcall_last; [reflexivity|exact (weak H3)]).
    + destruct (place_in _ _); [|apply (Hperr r _ (weak H))]. onr E2. cbn [negb]. apply (Hperr r2 _ (weak H2)).
Qed.

(** the calls of the parts one after the other *)
Fixpoint items_run (st : stage) (its : list item) (ps : list pelem) (a : atm) : out atm (list pelem) :=
  match its with
  | [] => Ret a ps
  | it :: its => let! (a, ps) := item_run st it ps a in
                 match next_stage st it with Some st' => items_run st' its ps a | None => Undef end
  end.
Definition text_run (t : Z) (st : stage) (its : list item) (ok : bool) (ps : list pelem) (a : atm) : out atm bool :=
  let! (a, ps) := items_run st its ps a in
  if ok then let! (a, _) := for_each acs (BOut t) ps a in Ret a true else Ret a false.
Definition code_of (ok : bool) (z : Z) : Prop := if ok then z = 0%Z else (1 <= z <= Z.of_N size + 1)%Z.

Hypothesis Hsize : size < 2 ^ 32.
Lemma loop_spec : forall f t st ps r l a, rd r l -> (length l + 1 < f)%nat ->
  runs (text_run t st (fst (lp_items f st l)) (snd (lp_items f st l)) ps a) (fun a ok o => exists r' z, o = Ret (r', a) z /\ code_of ok z) (parse_loop rops acs f t (place_of st) ps (r, a)).
Proof.
  induction f as [|f IH]; intros t st ps r l a H Hf; [lia|]. cbn [parse_loop lp_items].
  destruct (cr_chr _ _ _ _ HR r l H) as (r1 & E1 & H1). onr E1. pose proof (cr_nz _ _ _ _ HR r l H) as Hz. destruct l as [|c l]; cbn [hd].
  - cbn [N.eqb fst snd]. unfold text_run. cbn [items_run bind]. unfold on_a. cbn [fst snd]. destruct (for_each acs (BOut t) ps a); cbn [omap bind runs]; eauto.
    exists r1, 0%Z. split; reflexivity.
  - destruct (N.eqb_spec c 0) as [->|_]; [exfalso; apply Hz; left; reflexivity|]. cbn [length] in Hf.
    pose proof (parse_switch_spec f st ps r1 c l a H1 ltac:(cbn [length]; lia)) as HS. unfold step_spec in HS. pose proof (lp_next_len st (c :: l)) as HL.
    destruct (lp_next st (c :: l)) as [[[it st'] l']|] eqn:EN.
    + specialize (HL _ _ _ eq_refl). cbn [length] in HL. cbn [fst snd]. unfold text_run. cbn [items_run].
      assert (Est : next_stage st it = Some st').
      { unfold lp_next in EN. destruct (lp_item (c :: l)) as [[it2 l2]|]; [|discriminate]. destruct (next_stage st it2) eqn:X; [|discriminate]. injection EN as <- <- <-. exact X. }
      rewrite Est. destruct (item_run st it ps a) as [a' ps'|a'|a'| |]; cbn [runs bind] in *.
      * destruct HS as (r2 & H2 & E2). rewrite E2. cbn [bind].
        destruct (skipSpaces_spec f r2 l' H2 ltac:(lia)) as (r3 & E3 & H3). onr E3. pose proof (dropsp_len l'). apply IH; [exact (weak H3)|lia].
      * destruct HS as (r2 & E2). rewrite E2. cbn [bind]. eauto.
      * destruct HS as (r2 & E2). rewrite E2. cbn [bind]. eauto.
      * rewrite HS. reflexivity.
      * rewrite HS. reflexivity.
    + destruct HS as (r2 & l2 & H2 & E2). rewrite E2. cbn [bind fst snd]. unfold text_run. cbn [items_run bind runs]. exists r2. eexists. split; [reflexivity|]. cbn [code_of].
      pose proof (cr_pos _ _ _ _ HR r2 l2 H2). unfold u64. change (2 ^ 32) with 4294967296 in *. change (2 ^ 64) with 18446744073709551616. rewrite N.mod_small by lia. lia.
Qed.
End Reader.
