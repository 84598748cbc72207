(** The language read by the scanner (proofs): ampersands and tokens. *)
From Verif Require Import Base Iter CharMap CodePages Charset TextScanner Ideal ReaderSim ScannerSim IterSim
  CharsetSpec CharsetProofs ReadSpec ReadProofs XmlScanner ScanSpec ScanProofs CharReader FuelMono Term DocSpec XmlSpec DocProofs.

Lemma base_of : forall base mark, base_mark base mark -> base = 10 \/ base = 16.
Proof. intros base mark []; auto. Qed.

Lemma digit_yes : forall base c, base = 10 \/ base = 16 -> digitb base c = true -> HEX c = Some (digit_value c) /\ digit_value c < base /\ c <> 59 /\ c < 128.
Proof.
  intros base c [->| ->] H; unfold digitb in H.
  - apply HEX_dec. unfold dec_digit. change (10 =? 16) with false in H. cbn iota in H. lia.
  - apply HEX_hex. unfold hex_digit. change (16 =? 16) with true in H. cbn iota in H. lia.
Qed.
Lemma digit_no : forall base c, base = 10 \/ base = 16 -> digitb base c = false -> exists h, HEX (asc_of (kasc c)) = Some h /\ base <= h.
Proof.
  intros base c Hb H. unfold kasc. destruct (c <? 128) eqn:E; [|exists 255; split; [reflexivity|lia]].
  unfold asc_of. rewrite E.
  assert (Hs : forallb (fun c => digitb base c || match HEX c with Some h => base <=? h | None => false end) (map N.of_nat (seq 0 128)) = true)
    by (destruct Hb as [->| ->]; vm_compute; reflexivity).
  rewrite forallb_forall in Hs. specialize (Hs c (below c 128 ltac:(change (N.of_nat 128) with 128; lia))). cbn beta in Hs.
  rewrite H in Hs. destruct (HEX c) as [h|]; [exists h; split; [reflexivity|cbn in Hs; lia]|discriminate].
Qed.
Lemma plainb_ok : forall c, plainb c = true <-> plain_char c.
Proof.
  intros c. unfold plainb, plain_char. fold (bin c markup_chars). rewrite bin_in. destruct (bin c markup_chars); cbn [negb]; split; intros H; try lia.
Qed.

Section Tok.
Context (outcs : kout).
Let cfg := kcfg outcs None 0.
Notation pr := (prs outcs).
Ltac scn := cbn [bind sc_state sc_err sc_src sc_obuf sc_tokpos sc_tok tk_id tk_cr tk_pos tk_base tk_value tk_buf hd tl app].

(** *** Numbers *)
Lemma numLoop_step : forall base n d l st ob cr v b pos, base = 10 \/ base = 16 -> digitb base d = true -> (pos <= 15)%nat ->
  numBaseLoop (kr_ops outcs) cfg (S n) (mkSc st Ok (d :: l) ob 0 (mkTok TParsingNumericBaseEntity cr pos base v b)) =
  numBaseLoop (kr_ops outcs) cfg n (mkSc st Ok l ob 0 (mkTok TParsingNumericBaseEntity cr (S pos) base (u64 (v * base + digit_value d)) (upd pos d b))).
Proof.
  intros base n d l st ob cr v b pos Hb Hd Hp. destruct (digit_yes base d Hb Hd) as [Hx [Hlt [Hne H128]]].
  cbn [numBaseLoop]. rewrite k_ascii. scn. rewrite asc_k by lia. replace (d =? 59) with false by lia.
  rewrite asc_low by exact H128. rewrite Hx. replace (base <=? digit_value d) with false by lia.
  unfold tok_put. scn. replace (Nat.ltb pos 16) with true by (symmetry; apply Nat.ltb_lt; lia).
  unfold tok_value, tok_incpos, set_tok. scn. rewrite k_skip. reflexivity.
Qed.

Lemma fallback_num : forall ds (rest : list N) st ob cr base v b, Forall (fun c => c < 128) ds -> firstn (length ds) b = ds ->
  fallbackEntity cfg (mkSc st Ok rest ob 0 (mkTok TParsingNumericBaseEntity cr (length ds) base v b)) =
  mkSc st Ok rest (ob ++ pr (38 :: 35 :: ds)) 0 (mkTok TParsingNumericBaseEntity cr (length ds) base v b).
Proof.
  intros ds rest st ob cr base v b Hdd Hd. unfold fallbackEntity, tokchars. cbn [sc_tok tk_id tk_pos tk_buf]. rewrite Hd, map_low by exact Hdd.
  unfold push at 1 2, set_obuf. scn. unfold cfg. rewrite pushes_out by exact Hdd. rewrite <- !app_assoc. reflexivity.
Qed.

(** the digits read go to the buffer *)
Lemma numLoop_digits : forall base, base = 10 \/ base = 16 -> forall ds done rest st ob cr b, all (digitb base) ds ->
  (length done + length ds <= 16)%nat -> length b = 16%nat -> firstn (length done) b = done -> number base done < base ^ N.of_nat (length done) ->
  exists b', length b' = 16%nat /\ firstn (length (done ++ ds)) b' = done ++ ds /\ number base (done ++ ds) < base ^ N.of_nat (length (done ++ ds)) /\
    numBaseLoop (kr_ops outcs) cfg (16 - length done) (mkSc st Ok (ds ++ rest) ob 0 (mkTok TParsingNumericBaseEntity cr (length done) base (number base done mod 2 ^ 64) b)) =
    numBaseLoop (kr_ops outcs) cfg (16 - length (done ++ ds)) (mkSc st Ok rest ob 0 (mkTok TParsingNumericBaseEntity cr (length (done ++ ds)) base (number base (done ++ ds) mod 2 ^ 64) b')).
Proof.
  intros base Hb. induction ds as [|d ds IH]; intros done rest st ob cr b Hd Hl Hlb Hf Hn.
  - exists b. rewrite app_nil_r. auto.
  - inversion Hd; subst. cbn [length] in Hl. destruct (digit_yes base d Hb H1) as [_ [Hlt _]].
    assert (El : length (done ++ [d]) = S (length done)) by (rewrite app_length; cbn; lia).
    assert (Hn2 : number base (done ++ [d]) = number base done * base + digit_value d) by (unfold number; rewrite fold_left_app; reflexivity).
    destruct (IH (done ++ [d]) rest st ob cr (upd (length done) d b)) as [b' [B1 [B2 [B3 B4]]]]; auto.
    + rewrite El. lia.
    + rewrite upd_length. exact Hlb.
    + rewrite El. rewrite upd_firstn by lia. rewrite Hf. reflexivity.
    + rewrite El, Hn2. rewrite Nat2N.inj_succ, N.pow_succ_r'. nia.
    + rewrite <- app_assoc in B2, B3, B4. cbn [app] in B2, B3, B4. exists b'. split; [exact B1|]. split; [exact B2|]. split; [exact B3|].
      rewrite <- B4. destruct (16 - length done)%nat eqn:Ek; [lia|]. cbn [app]. rewrite numLoop_step by (auto; lia).
      rewrite El. replace (16 - S (length done))%nat with n by lia. unfold u64. rewrite Hn2. rewrite <- N.add_mod_idemp_l by discriminate.
      rewrite N.mul_mod_idemp_l by discriminate. rewrite N.add_mod_idemp_l by discriminate. reflexivity.
Qed.

Lemma number_small : forall base ds, base = 10 \/ base = 16 -> number base ds < base ^ N.of_nat (length ds) -> (length ds <= 15)%nat -> number base ds mod 2 ^ 64 = number base ds.
Proof.
  intros base ds Hb H Hl. apply N.mod_small. eapply N.lt_le_trans; [exact H|].
  assert (base ^ N.of_nat (length ds) <= 16 ^ N.of_nat (length ds)) by (apply N.pow_le_mono_l; destruct Hb as [->| ->]; lia).
  assert (16 ^ N.of_nat (length ds) <= 16 ^ 15) by (apply N.pow_le_mono_r; lia). change (16 ^ 15) with 1152921504606846976 in *.
  change (2 ^ 64) with 18446744073709551616. lia.
Qed.

Lemma digits_low : forall base ds, base = 10 \/ base = 16 -> all (digitb base) ds -> Forall (fun c => c < 128) ds.
Proof. intros base ds Hb H. eapply Forall_impl; [|exact H]. intros c Hc. apply (digit_yes base c Hb Hc). Qed.

(** from the mark to the loop *)
Lemma numeric_start : forall base mark l st ob cr b, base_mark base mark -> (base = 10 -> hd 0 l <> 120) ->
  parseEntity (kr_ops outcs) cfg (PS st (mark ++ l) ob cr b) = numBaseLoop (kr_ops outcs) cfg 16 (mkSc st Ok l ob 0 (mkTok TParsingNumericBaseEntity cr 0 base 0 b)).
Proof.
  intros base mark l st ob cr b [|] H; unfold parseEntity, parseNumericEntity, parseNumericBaseEntity, upd_tok, set_tok, tok_id, PS; scn;
    rewrite k_ascii; scn; rewrite asc_k by lia; change (35 =? 35) with true; cbn iota;
    rewrite k_skip; unfold set_src; scn; rewrite k_ascii; scn; rewrite asc_k by lia.
  - replace (hd 0 l =? 120) with false by (symmetry; apply N.eqb_neq; auto). unfold tok_base. scn. reflexivity.
  - change (120 =? 120) with true. cbn iota. unfold tok_base. scn. rewrite k_skip. unfold set_src. scn. reflexivity.
Qed.

Lemma digits_head : forall base ds r, base = 10 -> all (digitb base) ds -> (ds = [] -> hd 0 r <> 120) -> hd 0 (ds ++ r) <> 120.
Proof.
  intros base [|d ds] r Hb H Hr; cbn [app hd]; [auto|]. inversion H; subst. unfold digitb in H2. change (10 =? 16) with false in H2. cbn iota in H2. lia.
Qed.

(** *** Names *)
Lemma namedLoop_name : forall l done rest st ob cr b,
  all (fun c => plainb c && negb (c =? 59)) l -> (length done + length l <= 15)%nat ->
  (length done + length l = 15)%nat \/ hd 0 rest = 59 \/ plainb (hd 0 rest) = false ->
  length b = 16%nat -> firstn (length done) b = done ->
  exists b', length b' = 16%nat /\ firstn (length (done ++ l)) b' = done ++ l /\
    namedLoop (kr_ops outcs) (15 - length done) (mkSc st Ok (l ++ rest) ob 0 (mkTok TParsingNamedEntity cr (length done) 0 0 b)) (asc_of (kasc (hd 0 (l ++ rest)))) =
    Ret (mkSc st Ok rest ob 0 (mkTok TParsingNamedEntity cr (length (done ++ l)) 0 0 b')) (asc_of (kasc (hd 0 rest))).
Proof.
  induction l as [|c l IH]; intros done rest st ob cr b Hl Hn H1 Hb Hd; cbn [length app] in *.
  - exists b. rewrite Nat.add_0_r in *. rewrite app_nil_r. split; [exact Hb|]. split; [exact Hd|].
    destruct (15 - length done)%nat eqn:Ek; cbn [namedLoop]; [reflexivity|]. rewrite asc_k by lia.
    destruct (hd 0 rest =? 59) eqn:E59; [reflexivity|]. destruct H1 as [H1|[H1|H1]]; [lia|lia|].
    rewrite k_control. cbn [bind sc_src]. destruct (ctl_eqb (kctl (hd 0 rest)) CAny) eqn:E; [|reflexivity].
    apply ctl_eqb_eq in E. apply plain_ctl, plainb_ok in E. congruence.
  - inversion Hl as [|? ? Hc Hl2]; subst. apply andb_prop in Hc. destruct Hc as [Hc Hc59]. apply plainb_ok in Hc. destruct (15 - length done)%nat eqn:Ek; [lia|]. cbn [namedLoop hd].
    rewrite asc_k by lia. replace (c =? 59) with false by lia. rewrite k_control. cbn [bind sc_src hd].
    assert (Hk := Hc). apply plain_ctl in Hk. rewrite Hk. change (ctl_eqb CAny CAny) with true. cbn iota.
    destruct Hc as [Hr _]. rewrite asc_low by lia. unfold tok_put. cbn [sc_tok tk_pos]. replace (Nat.ltb (length done) 16) with true by (symmetry; apply Nat.ltb_lt; lia).
    unfold set_tok. scn. rewrite k_skip. unfold set_src, upd_tok, set_tok, tok_incpos. scn. rewrite k_ascii. scn.
    assert (El : length (done ++ [c]) = S (length done)) by (rewrite app_length; cbn; lia).
    destruct (IH (done ++ [c]) rest st ob cr (upd (length done) c b)) as [b' [B1 [B2 B3]]]; auto.
    + lia.
    + destruct H1 as [H1|H1]; [left; lia|auto].
    + rewrite upd_length. exact Hb.
    + rewrite El. rewrite upd_firstn by lia. rewrite Hd. reflexivity.
    + rewrite <- app_assoc in B2, B3. cbn [app] in B2, B3. exists b'. split; [exact B1|]. split; [exact B2|]. rewrite <- B3. rewrite El.
      replace (15 - S (length done))%nat with n by lia. reflexivity.
Qed.

Lemma name_low : forall l, all (fun c => plainb c && negb (c =? 59)) l -> Forall (fun c => c < 128) l.
Proof. intros l H. eapply Forall_impl; [|exact H]. intros c Hc. apply andb_prop in Hc. destruct Hc as [Hc _]. apply plainb_ok in Hc. destruct Hc. lia. Qed.

(** the buffer read as a C string *)
Lemma upd_zero : forall nm (b : list N), (length nm < length b)%nat -> firstn (length nm) b = nm -> exists x, upd (length nm) 0 b = nm ++ 0 :: x.
Proof.
  induction nm as [|c nm IH]; intros [|y b] Hl Hf; cbn [length] in *; try lia; [exists b; reflexivity|].
  cbn [firstn] in Hf. injection Hf as <- Hf. destruct (IH b ltac:(lia) Hf) as [x E]. exists x. cbn [upd app]. rewrite E. reflexivity.
Qed.
Lemma predefined_some : forall nm c x, In (nm, c) entities -> predefined (nm ++ 0 :: x) = Some c.
Proof. intros nm c x H. cbn in H. repeat (destruct H as [H|H]; [injection H as <- <-; reflexivity|]). destruct H. Qed.
Ltac chop x := let p := fresh "p" in destruct x as [|p]; [try (exfalso; lia); try reflexivity|];
  repeat (destruct p as [p|p|]; try (exfalso; lia); try reflexivity).

Lemma predefined_none : forall nm x, all (fun c => negb (c =? 0)) nm -> ~ In nm (map fst entities) -> predefined (nm ++ 0 :: x) = None.
Proof.
  intros nm x Hz H.
  destruct (predefined (nm ++ 0 :: x)) as [c|] eqn:E; [|reflexivity]. exfalso. apply H. clear H.
  assert (P : exists k y, nm ++ 0 :: x = k ++ 0 :: y /\ In k (map fst entities)).
  { unfold predefined in E. remember (nm ++ 0 :: x) as z. clear Heqz.
    repeat match type of E with
    | match ?l with [] => _ | _ :: _ => _ end = _ => destruct l; try discriminate
    | match ?v with 0 => _ | N.pos _ => _ end = _ => destruct v; try discriminate
    | match ?v with xI _ => _ | xO _ => _ | xH => _ end = _ => destruct v; try discriminate
    end;
    first [exists (str "quot"); eexists; split; [reflexivity|cbn; tauto]
          |exists (str "amp"); eexists; split; [reflexivity|cbn; tauto]
          |exists (str "apos"); eexists; split; [reflexivity|cbn; tauto]
          |exists (str "lt"); eexists; split; [reflexivity|cbn; tauto]
          |exists (str "gt"); eexists; split; [reflexivity|cbn; tauto]
          |exists (str "nbsp"); eexists; split; [reflexivity|cbn; tauto]]. }
  destruct P as [k [y [Ek Hk]]].
  assert (Hkz : all (fun c => negb (c =? 0)) k) by (cbn in Hk; repeat (destruct Hk as [<-|Hk]; [repeat constructor|]); destruct Hk).
  assert (nm = k); [|subst; exact Hk]. clear Hk E. revert k Hkz Ek. induction Hz as [|c' l Hc' Hz IH]; intros k Hkz Ek.
  - destruct k as [|d k]; [reflexivity|]. exfalso. cbn [app] in Ek. injection Ek as <- _. inversion Hkz; subst. discriminate.
  - destruct k as [|d k]; cbn [app] in Ek; [injection Ek as -> _; discriminate|]. injection Ek as <- Ek. inversion Hkz; subst. f_equal. apply IH; assumption.
Qed.

Lemma entity_plain : forall nm c, In (nm, c) entities -> all (fun c => plainb c && negb (c =? 59)) nm /\ (length nm <= 15)%nat /\ hd 0 nm <> 35.
Proof. intros nm c H. cbn in H. repeat (destruct H as [H|H]; [injection H as <- <-; split; [repeat constructor|split; [cbn; lia|discriminate]]|]). destruct H. Qed.

Lemma entity_value : forall nm c, In (nm, c) entities -> c < 2 ^ 32.
Proof. intros nm c H. cbn in H. repeat (destruct H as [H|H]; [injection H as _ <-; reflexivity|]). destruct H. Qed.

Lemma named_start : forall nm r st ob cr b, all (fun c => plainb c && negb (c =? 59)) nm -> (length nm <= 15)%nat -> hd 0 nm <> 35 ->
  length nm = 15%nat \/ hd 0 r = 59 \/ plainb (hd 0 r) = false -> length b = 16%nat ->
  exists b', length b' = 16%nat /\ firstn (length nm) b' = nm /\
  parseEntity (kr_ops outcs) cfg (PS st (nm ++ r) ob cr b) =
    let s := mkSc st Ok r ob 0 (mkTok TParsingNamedEntity cr (length nm) 0 0 b') in
    if hd 0 r =? 59
    then match tok_put 0 (sc_tok s) with
         | None => Undef
         | Some t => let (s3, ok) := pushEntity cfg (set_tok t s) in
                     if ok then let! (s4, u) := sc_skip (kr_ops outcs) (upd_tok (tok_init TParsingToken) s3) in Ret s4 true else Ret s3 false
         end
    else Ret (fallbackEntity cfg s) true.
Proof.
  intros nm r st ob cr b Hnm Hl H35 Hr Hb. destruct (namedLoop_name nm [] r st ob cr b Hnm Hl Hr Hb eq_refl) as [b' [B1 [B2 B3]]].
  exists b'. cbn [app] in B2, B3. split; [exact B1|]. split; [exact B2|].
  unfold parseEntity, parseNamedEntity, upd_tok, set_tok, tok_id, PS. scn. rewrite k_ascii. scn. rewrite asc_k by lia.
  assert (E35 : hd 0 (nm ++ r) =? 35 = false).
  { apply N.eqb_neq. destruct nm as [|c nm]; cbn [app hd] in *; [|exact H35]. destruct Hr as [Hr|[Hr|Hr]]; [discriminate|lia|]. intros E. rewrite E in Hr. discriminate. }
  rewrite E35. rewrite k_ascii. scn. cbn [length] in B3. rewrite B3. cbn [bind]. rewrite asc_k by lia. reflexivity.
Qed.

(** *** Ampersands *)
Lemma parse_amp_reads : forall l v r, amp_reads l (Some (v, r)) -> forall st ob cr b, length b = 16%nat ->
  exists tk, length (tk_buf tk) = 16%nat /\
    parseEntity (kr_ops outcs) cfg (PS st l ob cr b) = Ret (mkSc st Ok r (ob ++ pr v) 0 tk) true.
Proof.
  intros l v r H st ob cr b Hb. remember (Some (v, r)) as o eqn:Eo.
  destruct H as [base mark ds r0 H1 H2 H3 H4|base mark ds r0 H1 H2 H3 H4|base mark ds r0 H1 H2 H3 H4 H5|nm c r0 H1|nm r0 H1 H2 H3 H4|nm r0 H1 H2 H3 H4];
    try discriminate Eo; injection Eo as <- <-.
  - pose proof (base_of _ _ H1) as Hbase. rewrite (numeric_start base mark) by (auto; intros E; apply (digits_head base); auto; discriminate).
    destruct (numLoop_digits base Hbase ds [] (59 :: r0) st ob cr b H2 ltac:(cbn; lia) Hb eq_refl ltac:(cbn; lia)) as [b' [B1 [B2 [B3 B4]]]].
    cbn [app length] in B2, B3, B4. change (16 - 0)%nat with 16%nat in B4. change (number base [] mod 2 ^ 64) with 0 in B4. rewrite B4. rewrite number_small by auto.
    destruct (16 - length ds)%nat eqn:Ek; [lia|]. cbn [numBaseLoop]. rewrite k_ascii. scn. rewrite asc_k by lia. change (59 =? 59) with true. cbn iota.
    replace (0xFFFFFFFF <? number base ds) with false by lia. rewrite k_skip. unfold push, upd_tok, set_tok, set_obuf, tok_init, set_src. scn.
    eexists. split; [|unfold u32; rewrite N.mod_small by (change (2^32) with 4294967296 in *; lia); cbn [prs flat_map]; rewrite app_nil_r, kpr_low by assumption; reflexivity]. exact B1.
  - pose proof (base_of _ _ H1) as Hbase. rewrite (numeric_start base mark) by (auto; intros E; apply (digits_head base); auto; discriminate).
    destruct (numLoop_digits base Hbase ds [] (59 :: r0) st ob cr b H2 ltac:(cbn; lia) Hb eq_refl ltac:(cbn; lia)) as [b' [B1 [B2 [B3 B4]]]].
    cbn [app length] in B2, B3, B4. change (16 - 0)%nat with 16%nat in B4. change (number base [] mod 2 ^ 64) with 0 in B4. rewrite B4. rewrite number_small by auto.
    destruct (16 - length ds)%nat eqn:Ek; [lia|]. cbn [numBaseLoop]. rewrite k_ascii. scn. rewrite asc_k by lia. change (59 =? 59) with true. cbn iota.
    replace (0xFFFFFFFF <? number base ds) with true by (change (2^32) with 4294967296 in *; lia). rewrite asc_low by lia.
    unfold tok_put. scn. replace (Nat.ltb (length ds) 16) with true by (symmetry; apply Nat.ltb_lt; lia). unfold set_tok, tok_incpos. scn.
    assert (El : S (length ds) = length (ds ++ [59])) by (rewrite app_length; cbn; lia). rewrite El.
    eexists. split; [|rewrite fallback_num; [reflexivity| |]].
    + cbn [tk_buf]. rewrite upd_length. exact B1.
    + apply Forall_app. split; [eapply digits_low; eauto|]. repeat constructor.
    + rewrite <- El. rewrite upd_firstn by lia. rewrite B2. reflexivity.
  - pose proof (base_of _ _ H1) as Hbase. rewrite (numeric_start base mark) by (auto; intros E; apply (digits_head base); auto).
    destruct (numLoop_digits base Hbase ds [] r0 st ob cr b H2 ltac:(cbn; lia) Hb eq_refl ltac:(cbn; lia)) as [b' [B1 [B2 [B3 B4]]]].
    cbn [app length] in B2, B3, B4. change (16 - 0)%nat with 16%nat in B4. change (number base [] mod 2 ^ 64) with 0 in B4. rewrite B4.
    assert (Fb : forall v, fallbackEntity cfg (mkSc st Ok r0 ob 0 (mkTok TParsingNumericBaseEntity cr (length ds) base v b')) =
      mkSc st Ok r0 (ob ++ pr (str "&#" ++ ds)) 0 (mkTok TParsingNumericBaseEntity cr (length ds) base v b')).
    { intros v. rewrite fallback_num; [reflexivity|eapply digits_low; eauto|exact B2]. }
    destruct (16 - length ds)%nat eqn:Ek; cbn [numBaseLoop]; [rewrite Fb; eexists; split; [|reflexivity]; exact B1|].
    destruct H4 as [H4|[H4 H59]]; [lia|]. rewrite k_ascii. scn. rewrite asc_k by lia. replace (hd 0 r0 =? 59) with false by lia.
    destruct (digit_no base _ Hbase H4) as [h [Hx1 Hx2]]. rewrite Hx1. replace (base <=? h) with true by lia.
    rewrite Fb. eexists. split; [|reflexivity]. exact B1.
  - destruct (entity_plain _ _ H1) as [P1 [P2 P3]]. destruct (named_start nm (59 :: r0) st ob cr b P1 P2 P3 (or_intror (or_introl eq_refl)) Hb) as [b' [B1 [B2 B3]]].
    rewrite B3. cbn [hd]. change (59 =? 59) with true. cbn zeta iota. unfold tok_put. scn. replace (Nat.ltb (length nm) 16) with true by (symmetry; apply Nat.ltb_lt; lia).
    unfold pushEntity, set_tok. scn. destruct (upd_zero nm b' ltac:(lia) B2) as [x Ex].
    assert (Lx : length (nm ++ 0 :: x) = 16%nat) by (rewrite <- Ex, upd_length; exact B1).
    rewrite Ex, (predefined_some nm c x H1). rewrite k_skip. unfold push, upd_tok, set_tok, set_obuf, tok_init, set_src. scn.
    eexists. split; [|cbn [prs flat_map]; rewrite app_nil_r, kpr_low by (eapply entity_value; eauto); reflexivity]. exact Lx.
  - destruct (named_start nm r0 st ob cr b H1 H2 H3) as [b' [B1 [B2 B3]]]; [destruct H4 as [[? _]|[_ ?]]; auto|exact Hb|].
    rewrite B3. assert (E59 : hd 0 r0 =? 59 = false). { apply N.eqb_neq. destruct H4 as [[_ ?]|[_ H4]]; [assumption|]. intros E. rewrite E in H4. discriminate. }
    rewrite E59. cbn zeta. eexists. split; [|unfold fallbackEntity, tokchars; cbn [sc_tok tk_id tk_pos tk_buf]; rewrite B2, map_low by (apply name_low; exact H1);
      unfold push, set_obuf; scn; unfold cfg; rewrite pushes_out by (apply name_low; exact H1); rewrite <- app_assoc; reflexivity]. exact B1.
Qed.

Lemma parse_amp_undefined : forall l, amp_reads l None -> forall st ob cr b, length b = 16%nat ->
  exists s, parseEntity (kr_ops outcs) cfg (PS st l ob cr b) = Ret s false /\ sc_err s = ErrUndefinedCharacterEntity.
Proof.
  intros l H st ob cr b Hb. inversion H; subst.
  destruct (named_start nm (59 :: r) st ob cr b H0 H1 H2 (or_intror (or_introl eq_refl)) Hb) as [b' [B1 [B2 B3]]].
  rewrite B3. cbn [hd]. change (59 =? 59) with true. cbn zeta iota. unfold tok_put. scn. replace (Nat.ltb (length nm) 16) with true by (symmetry; apply Nat.ltb_lt; lia).
  unfold pushEntity, set_tok. scn. destruct (upd_zero nm b' ltac:(lia) B2) as [x Ex]. rewrite Ex, predefined_none; auto.
  - eexists. split; reflexivity.
  - eapply Forall_impl; [|exact H0]. intros c Hc. cbn beta in *. unfold plainb in Hc. destruct c; [discriminate|reflexivity].
Qed.

(** *** Tokens *)
Definition tokc (k : cls) : list bool :=
  match k with CName => isTagChar | CText => isContentChar | CValue q => if q =? 34 then isDQStringChar else isSQStringChar end.
Definition cls_ok (k : cls) : Prop := match k with CValue q => quoteb q = true | _ => True end.

Lemma charb_tok : forall k c, cls_ok k -> isTokAt (tokc k) (kctl c) = Some (charb k c).
Proof.
  intros k c Hk.
  assert (E : match isTokAt (tokc k) (kctl c) with Some b => Bool.eqb b (charb k c) | None => false end = true).
  { destruct k as [| |q].
    - apply (kctl_sweep (fun c x => match isTokAt isTagChar x with Some b => Bool.eqb b (charb CName c) | None => false end)); [vm_compute; reflexivity|].
      intros d Hd. change (isTokAt isTagChar CUndef) with (Some true). unfold charb. replace (128 <=? d) with true by lia. rewrite Bool.orb_true_r. reflexivity.
    - apply (kctl_sweep (fun c x => match isTokAt isContentChar x with Some b => Bool.eqb b (charb CText c) | None => false end)); [vm_compute; reflexivity|].
      intros d Hd. change (isTokAt isContentChar CUndef) with (Some true). unfold charb. replace (d =? 0) with false by lia. replace (d =? 38) with false by lia. replace (d =? 60) with false by lia. reflexivity.
    - cbn in Hk. unfold quoteb in Hk. assert (Hq : q = 34 \/ q = 39) by lia.
      apply (kctl_sweep (fun c x => match isTokAt (tokc (CValue q)) x with Some b => Bool.eqb b (charb (CValue q) c) | None => false end)); [destruct Hq as [->| ->]; vm_compute; reflexivity|].
      intros d Hd. replace (isTokAt (tokc (CValue q)) CUndef) with (Some true) by (destruct Hq as [->| ->]; reflexivity).
      unfold charb. replace (d =? 0) with false by lia. replace (d =? 38) with false by lia. replace (d =? 60) with false by lia. replace (d =? q) with false by lia. reflexivity. }
  destruct (isTokAt (tokc k) (kctl c)) as [b|]; [|discriminate]. apply Bool.eqb_prop in E. congruence.
Qed.
Lemma all_tok : forall k raw, cls_ok k -> all (charb k) raw -> Forall (fun c => isTokAt (tokc k) (kctl c) = Some true) raw.
Proof. intros k raw Hk H. eapply Forall_impl; [|exact H]. intros c Hc. rewrite charb_tok by exact Hk. rewrite Hc. reflexivity. Qed.

(** the token as delivered, or the error *)
Lemma ptl_reads : forall k, cls_ok k -> forall l o, tok_reads k l o -> exists n, forall st ob b f, length b = 16%nat ->
  match o with
  | Some (v, r) => exists b', length b' = 16%nat /\
      parseTokenLoop (kr_ops outcs) cfg (n + f) (tokc k) (PS st l ob false b) = Ret (mkSc st Ok r (ob ++ pr v) 0 (mkTok TParsingDone false 0 0 0 b')) true
  | None => exists s, parseTokenLoop (kr_ops outcs) cfg (n + f) (tokc k) (PS st l ob false b) = Ret s false /\ sc_err s = ErrUndefinedCharacterEntity
  end.
Proof.
  intros k Hk.
  assert (Amp : isTokAt (tokc k) CAmp = Some false) by (change CAmp with (kctl 38); rewrite charb_tok by exact Hk; destruct k; reflexivity).
  assert (Step : forall raw l st ob b f, all (charb k) raw ->
    parseTokenLoop (kr_ops outcs) cfg (length raw + S f) (tokc k) (PS st (raw ++ 38 :: l) ob false b) =
    let! (s3, ok) := parseEntity (kr_ops outcs) cfg (PS st l (ob ++ pr (eol raw)) (crl false raw) b) in
    if ok then parseTokenLoop (kr_ops outcs) cfg f (tokc k) (upd_tok (tok_init TParsingToken) s3) else Ret (upd_tok (tok_init TStart) s3) false).
  { intros raw l st ob b f H. unfold cfg. rewrite ptl_raw by (apply all_tok; assumption). rewrite <- eol_eolc. unfold PS at 1. cbn [parseTokenLoop].
    rewrite k_control. scn. change (kctl 38) with CAmp. rewrite Amp. change (ctl_eqb CAmp CAmp) with true. cbn iota. rewrite k_skip. reflexivity. }
  intros l o H. induction H as [raw r [H1 H2] H3|raw l v l' w r H1 H2 H3 IH|raw l H1 H2|raw l v l' H1 H2 H3 IH].
  - exists (length raw + 1)%nat. intros st ob b f Hb. exists b. split; [exact Hb|]. rewrite <- Nat.add_assoc. unfold cfg. rewrite ptl_raw by (apply all_tok; assumption).
    rewrite <- eol_eolc. cbn [Nat.add parseTokenLoop]. rewrite k_control. unfold PS. scn. rewrite charb_tok by exact Hk. rewrite H2.
    destruct (ctl_eqb (kctl (hd 0 r)) CAmp) eqn:E2; [|reflexivity]. apply ctl_eqb_eq in E2. change CAmp with (kctl 38) in E2. apply kctl_inj in E2; [contradiction|cbn; tauto].
  - destruct IH as [n IH]. exists (length raw + S n)%nat. intros st ob b f Hb. rewrite <- Nat.add_assoc. cbn [Nat.add]. rewrite Step by exact H1.
    destruct (parse_amp_reads _ _ _ H2 st (ob ++ pr (eol raw)) (crl false raw) b Hb) as [tk [Ht E]]. rewrite E. cbn [bind].
    destruct (IH st ((ob ++ pr (eol raw)) ++ pr v) (tk_buf tk) f Ht) as [b' [Hb' E2]]. exists b'. split; [exact Hb'|].
    unfold upd_tok, set_tok, tok_init. scn. unfold PS in E2. rewrite E2. rewrite !prs_app, <- !app_assoc. reflexivity.
  - exists (length raw + 1)%nat. intros st ob b f Hb. rewrite <- Nat.add_assoc. cbn [Nat.add]. rewrite Step by exact H1.
    destruct (parse_amp_undefined _ H2 st (ob ++ pr (eol raw)) (crl false raw) b Hb) as [s [E E2]]. rewrite E. cbn [bind]. eexists. split; [reflexivity|]. exact E2.
  - destruct IH as [n IH]. exists (length raw + S n)%nat. intros st ob b f Hb. rewrite <- Nat.add_assoc. cbn [Nat.add]. rewrite Step by exact H1.
    destruct (parse_amp_reads _ _ _ H2 st (ob ++ pr (eol raw)) (crl false raw) b Hb) as [tk [Ht E]]. rewrite E. cbn [bind].
    exact (IH st ((ob ++ pr (eol raw)) ++ pr v) (tk_buf tk) f Ht).
Qed.
End Tok.
