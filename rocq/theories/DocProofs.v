(** Documents are scanned to their elements (proofs), over the reader of characters. *)
From Verif Require Import Base Iter CharMap CodePages Charset TextScanner Ideal ReaderSim ScannerSim IterSim
  CharsetSpec CharsetProofs ReadSpec ReadProofs XmlScanner ScanSpec ScanProofs CharReader FuelMono Term DocSpec.

(** ** Characters *)
Definition kctl (c : N) : ctl := ctl_of (kasc c).

Lemma below : forall c n, c < N.of_nat n -> In c (map N.of_nat (seq 0 n)).
Proof. intros c n H. apply in_map_iff. exists (N.to_nat c). split; [lia|]. apply in_seq. lia. Qed.

(** a property of control characters is decided by the 128 ASCII characters *)
Lemma kctl_sweep : forall (P : N -> ctl -> bool),
  forallb (fun c => P c (kctl c)) (map N.of_nat (seq 0 128)) = true ->
  (forall c, 128 <= c -> P c CUndef = true) -> forall c, P c (kctl c) = true.
Proof.
  intros P H H2 c. destruct (c <? 128) eqn:E.
  - rewrite forallb_forall in H. apply H. apply below. change (N.of_nat 128) with 128. lia.
  - unfold kctl, kasc. rewrite E. apply H2. lia.
Qed.

Lemma asc_k : forall c d, 0 < d < 128 -> (asc_of (kasc c) =? d) = (c =? d).
Proof.
  intros c d H. unfold asc_of, kasc. destruct (c <? 128) eqn:E; [rewrite E; reflexivity|]. cbn.
  destruct d; [lia|]. symmetry. apply N.eqb_neq. lia.
Qed.
Lemma asc_low : forall c, c < 128 -> asc_of (kasc c) = c.
Proof. intros c H. unfold kasc. replace (c <? 128) with true by lia. unfold asc_of. replace (c <? 128) with true by lia. reflexivity. Qed.

Definition inctl (c : ctl) (l : list ctl) : bool := existsb (ctl_eqb c) l.
Lemma ctl_eqb_eq : forall a b, ctl_eqb a b = true -> a = b.
Proof. intros [] []; intros H; try discriminate; reflexivity. Qed.
Lemma inctl_in : forall c l, inctl c l = true -> In c l.
Proof. intros c l H. apply existsb_exists in H. destruct H as [x [H1 H2]]. apply ctl_eqb_eq in H2. subst. exact H1. Qed.

Definition bin (c : N) (l : list N) : bool := existsb (N.eqb c) l.
Lemma bin_in : forall c l, In c l <-> bin c l = true.
Proof.
  intros c l. unfold bin. rewrite existsb_exists. split.
  - intros H. exists c. split; [exact H|apply N.eqb_refl].
  - intros [x [H1 H2]]. apply N.eqb_eq in H2. subst. exact H1.
Qed.

Lemma white_ctl : forall c, white c -> kctl c = CSpace \/ kctl c = CEndOfLine.
Proof. intros c [->|[->|[->| ->]]]; vm_compute; auto. Qed.
Lemma name_ctl : forall c, name_char c -> In (kctl c) [CUndef; CAny; CDash].
Proof.
  intros c H. apply inctl_in.
  assert (Hn : (128 <=? c) || ((33 <=? c) && (c <? 128) && negb (bin c markup_chars)) = true).
  { destruct H as [H|[[H1 H2] H3]]; [replace (128 <=? c) with true by lia; reflexivity|].
    replace (33 <=? c) with true by lia. replace (c <? 128) with true by lia.
    destruct (bin c markup_chars) eqn:E; [apply bin_in in E; contradiction|]. apply Bool.orb_true_r. }
  revert Hn. apply Bool.implb_true_iff.
  apply (kctl_sweep (fun c k => implb ((128 <=? c) || ((33 <=? c) && (c <? 128) && negb (bin c markup_chars))) (inctl k [CUndef; CAny; CDash]))).
  - vm_compute. reflexivity.
  - intros d Hd. apply Bool.implb_true_iff. reflexivity.
Qed.
Lemma text_ctl : forall c, text_char c -> isTokAt isContentChar (kctl c) = Some true.
Proof.
  intros c [H1 [H2 H3]].
  assert (E : implb (negb (c =? 0) && negb (c =? 38) && negb (c =? 60)) (match isTokAt isContentChar (kctl c) with Some b => b | None => false end) = true).
  { apply (kctl_sweep (fun c k => implb (negb (c =? 0) && negb (c =? 38) && negb (c =? 60)) (match isTokAt isContentChar k with Some b => b | None => false end))).
    - vm_compute. reflexivity.
    - intros d Hd. apply Bool.implb_true_iff. reflexivity. }
  replace (c =? 0) with false in E by lia. replace (c =? 38) with false in E by lia. replace (c =? 60) with false in E by lia. cbn [negb andb implb] in E.
  destruct (isTokAt isContentChar (kctl c)) as [[]|]; congruence.
Qed.
Lemma value_ctl : forall q c, q = 34 \/ q = 39 -> value_char q c ->
  isTokAt (if q =? 34 then isDQStringChar else isSQStringChar) (kctl c) = Some true.
Proof.
  intros q c Hq [[H1 [H2 H3]] H4].
  assert (E : implb (negb (c =? 0) && negb (c =? 38) && negb (c =? 60) && negb (c =? q)) (match isTokAt (if q =? 34 then isDQStringChar else isSQStringChar) (kctl c) with Some b => b | None => false end) = true).
  { apply (kctl_sweep (fun c k => implb (negb (c =? 0) && negb (c =? 38) && negb (c =? 60) && negb (c =? q)) (match isTokAt (if q =? 34 then isDQStringChar else isSQStringChar) k with Some b => b | None => false end))).
    - destruct Hq as [->| ->]; vm_compute; reflexivity.
    - intros d Hd. apply Bool.implb_true_iff. destruct Hq as [->| ->]; reflexivity. }
  replace (c =? 0) with false in E by lia. replace (c =? 38) with false in E by lia. replace (c =? 60) with false in E by lia.
  replace (c =? q) with false in E by lia. cbn [negb andb implb] in E.
  destruct (isTokAt _ (kctl c)) as [[]|]; congruence.
Qed.
Lemma name_tok : forall c, name_char c -> isTokAt isTagChar (kctl c) = Some true.
Proof. intros c H. apply name_ctl in H. destruct H as [<-|[<-|[<-|[]]]]; reflexivity. Qed.
Lemma blank_ctl : forall c, blank c = inctl (kctl c) [CEndOfLine; CCntrl; CSpace].
Proof.
  intros c. apply Bool.eqb_prop.
  apply (kctl_sweep (fun c k => Bool.eqb (blank c) (inctl k [CEndOfLine; CCntrl; CSpace]))).
  - vm_compute. reflexivity.
  - intros d Hd. unfold blank. replace (d <=? 32) with false by lia. rewrite Bool.andb_false_r. reflexivity.
Qed.
Lemma kctl_inj : forall c d, In d [0;38;60;61;62;47;45;33;63;39;34;91;93] -> kctl c = kctl d -> c = d.
Proof.
  intros c d Hd. assert (E : implb (ctl_eqb (kctl c) (kctl d)) (c =? d) = true).
  { apply (kctl_sweep (fun c k => implb (ctl_eqb k (kctl d)) (c =? d))).
    - repeat (destruct Hd as [<-|Hd]; [vm_compute; reflexivity|]). destruct Hd.
    - intros e He. repeat (destruct Hd as [<-|Hd]; [vm_compute; reflexivity|]). destruct Hd. }
  intros H. rewrite H in E. replace (ctl_eqb (kctl d) (kctl d)) with true in E by (destruct (kctl d); reflexivity).
  cbn in E. lia.
Qed.

(** ** End of line normalisation as the scanner does it, with the memory of a carriage return *)
Fixpoint eolc (cr : bool) (l : list N) : list N :=
  match l with
  | [] => []
  | c :: r => if c =? 13 then 10 :: eolc true r
              else if c =? 10 then (if cr then [] else [10]) ++ eolc false r
              else c :: eolc false r
  end.
Fixpoint crl (cr : bool) (l : list N) : bool := match l with [] => cr | c :: r => crl (c =? 13) r end.

Lemma eol_eolc_n : forall n l, (length l <= n)%nat -> eol l = eolc false l /\ (forall r, l = 10 :: r -> eol r = eolc true l) /\ (hd 0 l <> 10 -> eol l = eolc true l).
Proof.
  induction n as [|n IH]; intros l Hl.
  - destruct l; [|cbn in Hl; lia]. repeat split; auto. discriminate.
  - destruct l as [|c r]; [repeat split; auto; discriminate|]. cbn [length] in Hl.
    destruct (IH r ltac:(lia)) as [H1 [H2 H3]].
    assert (Hcr : c = 13 -> eol (c :: r) = 10 :: eolc true r).
    { intros ->. cbn [eol]. change (13 =? 13) with true. cbn iota. destruct r as [|d r']; [reflexivity|].
      destruct (d =? 10) eqn:Ed.
      - apply N.eqb_eq in Ed. subst d. f_equal. apply H2. reflexivity.
      - f_equal. apply H3. cbn. lia. }
    assert (Hno : c <> 13 -> eol (c :: r) = c :: eolc false r).
    { intros Hc. cbn [eol]. replace (c =? 13) with false by lia. f_equal. exact H1. }
    repeat split.
    + cbn [eolc]. destruct (c =? 13) eqn:E; [apply Hcr; lia|]. rewrite Hno by lia. destruct (c =? 10) eqn:E2; [|reflexivity].
      replace c with 10 by lia. reflexivity.
    + intros r' E. injection E as -> <-. cbn [eolc]. change (10 =? 13) with false. change (10 =? 10) with true. cbn iota. exact H1.
    + cbn [hd]. intros Hc. cbn [eolc]. destruct (c =? 13) eqn:E; [apply Hcr; lia|]. rewrite Hno by lia. replace (c =? 10) with false by lia. reflexivity.
Qed.
Lemma eol_eolc : forall l, eol l = eolc false l.
Proof. intros l. apply (eol_eolc_n (length l) l). lia. Qed.

(** ** Tokens *)
Section Tok.
Context (outcs : kout) (m : option (list (N * N))) (addr : N).
Let cfg := kcfg outcs m addr.
Let scn := scanner (list N).
Definition prs (o : kout) (l : list N) : list N := flat_map (kpr o) l.
Notation pr := (prs outcs).

Lemma prs_app : forall o a b, prs o (a ++ b) = prs o a ++ prs o b.
Proof. intros. apply flat_map_app. Qed.

Definition PS (st : stm) (l ob : list N) (cr : bool) (b : list N) : scn := mkSc st Ok l ob 0 (mkTok TParsingToken cr 0 0 0 b).

Lemma k_control : forall (s : scn), sc_control (kr_ops outcs) s = Ret s (kctl (hd 0 (sc_src s))).
Proof. intros []. reflexivity. Qed.
Lemma k_ascii : forall (s : scn), sc_ascii (kr_ops outcs) s = Ret s (asc_of (kasc (hd 0 (sc_src s)))).
Proof. intros []. reflexivity. Qed.
Lemma k_skip : forall (s : scn), sc_skip (kr_ops outcs) s = Ret (set_src s (tl (sc_src s))) tt.
Proof. intros []. reflexivity. Qed.
Lemma k_copychar : forall (s : scn), copychar (kr_ops outcs) cfg s = Ret (set_obuf (sc_obuf s ++ kpr outcs (hd 0 (sc_src s))) s) tt.
Proof. intros []. reflexivity. Qed.

Lemma ptl_raw : forall isTok st raw rest ob cr b f,
  Forall (fun c => isTokAt isTok (kctl c) = Some true) raw ->
  parseTokenLoop (kr_ops outcs) cfg (length raw + f) isTok (PS st (raw ++ rest) ob cr b) =
  parseTokenLoop (kr_ops outcs) cfg f isTok (PS st rest (ob ++ pr (eolc cr raw)) (crl cr raw) b).
Proof.
  intros isTok st. induction raw as [|c raw IH]; intros rest ob cr b f H.
  - cbn [length Nat.add eolc crl app prs flat_map]. rewrite app_nil_r. reflexivity.
  - inversion H; subst. cbn [length Nat.add app]. unfold PS at 1. cbn [parseTokenLoop]. rewrite k_control. cbn [bind sc_src hd]. rewrite H2.
    unfold tokenChar. rewrite k_ascii. cbn [bind sc_src hd]. rewrite !asc_k by lia.
    cbn [eolc crl]. destruct (c =? 13) eqn:E13.
    + unfold push, upd_tok, set_tok, set_obuf, tok_cr. cbn [bind sc_state sc_err sc_src sc_obuf sc_tokpos sc_tok tk_id tk_cr tk_pos tk_base tk_value tk_buf].
      rewrite k_skip. unfold set_src. cbn [bind sc_state sc_err sc_src sc_obuf sc_tokpos sc_tok tl].
      change (mkSc st Ok (raw ++ rest) (ob ++ cs_print (cf_out cfg) 10) 0 (mkTok TParsingToken true 0 0 0 b)) with (PS st (raw ++ rest) (ob ++ kpr outcs 10) true b).
      rewrite IH by assumption. cbn [prs flat_map]. rewrite app_assoc. reflexivity.
    + destruct (c =? 10) eqn:E10.
      * unfold push, upd_tok, set_tok, set_obuf, tok_cr. cbn [bind sc_state sc_err sc_src sc_obuf sc_tokpos sc_tok tk_id tk_cr tk_pos tk_base tk_value tk_buf].
        destruct cr; cbn [sc_state sc_err sc_src sc_obuf sc_tokpos sc_tok tk_id tk_cr tk_pos tk_base tk_value tk_buf];
         rewrite k_skip; unfold set_src; cbn [bind sc_state sc_err sc_src sc_obuf sc_tokpos sc_tok tl].
        -- change (mkSc st Ok (raw ++ rest) ob 0 (mkTok TParsingToken false 0 0 0 b)) with (PS st (raw ++ rest) ob false b).
           rewrite IH by assumption. reflexivity.
        -- change (mkSc st Ok (raw ++ rest) (ob ++ cs_print (cf_out cfg) 10) 0 (mkTok TParsingToken false 0 0 0 b)) with (PS st (raw ++ rest) (ob ++ kpr outcs 10) false b).
           rewrite IH by assumption. cbn [prs flat_map app]. rewrite app_assoc. reflexivity.
      * rewrite k_copychar. unfold push, upd_tok, set_tok, set_obuf, tok_cr. cbn [bind sc_state sc_err sc_src sc_obuf sc_tokpos sc_tok tk_id tk_cr tk_pos tk_base tk_value tk_buf hd].
        rewrite k_skip. unfold set_src. cbn [bind sc_state sc_err sc_src sc_obuf sc_tokpos sc_tok tl].
        change (mkSc st Ok (raw ++ rest) (ob ++ kpr outcs c) 0 (mkTok TParsingToken false 0 0 0 b)) with (PS st (raw ++ rest) (ob ++ kpr outcs c) false b).
        rewrite IH by assumption. cbn [prs flat_map app]. rewrite app_assoc. reflexivity.
Qed.

(** *** Numeric references *)
Lemma HEX_dec : forall c, dec_digit c -> HEX c = Some (digit_value c) /\ digit_value c < 10 /\ c <> 59 /\ c < 128.
Proof.
  intros c H. unfold dec_digit in H.
  assert (E : forallb (fun c => implb ((48 <=? c) && (c <=? 57)) (match HEX c with Some v => (v =? digit_value c) && (digit_value c <? 10) | None => false end)) (map N.of_nat (seq 0 128)) = true) by (vm_compute; reflexivity).
  rewrite forallb_forall in E. specialize (E c (below c 128 ltac:(lia))).
  replace (48 <=? c) with true in E by lia. replace (c <=? 57) with true in E by lia. cbn [andb implb] in E.
  destruct (HEX c) as [v|]; [|discriminate]. apply andb_prop in E. destruct E as [E1 E2]. repeat split; try lia. f_equal. lia.
Qed.
Lemma HEX_hex : forall c, hex_digit c -> HEX c = Some (digit_value c) /\ digit_value c < 16 /\ c <> 59 /\ c < 128.
Proof.
  intros c H. unfold hex_digit in H.
  assert (E : forallb (fun c => implb ((48 <=? c) && (c <=? 57) || (65 <=? c) && (c <=? 70) || (97 <=? c) && (c <=? 102)) (match HEX c with Some v => (v =? digit_value c) && (digit_value c <? 16) | None => false end)) (map N.of_nat (seq 0 128)) = true) by (vm_compute; reflexivity).
  rewrite forallb_forall in E. specialize (E c (below c 128 ltac:(lia))).
  replace ((48 <=? c) && (c <=? 57) || (65 <=? c) && (c <=? 70) || (97 <=? c) && (c <=? 102)) with true in E by lia. cbn [implb] in E.
  destruct (HEX c) as [v|]; [|discriminate]. apply andb_prop in E. destruct E as [E1 E2]. repeat split; try lia. f_equal. lia.
Qed.

Lemma upd_length : forall {A} n (v : A) l, length (upd n v l) = length l.
Proof. intros A. induction n as [|n IH]; intros v [|x l]; cbn [upd length]; auto. Qed.

Lemma number_snoc : forall base ds v, fold_left (fun v c => v * base + digit_value c) ds v = v * base ^ N.of_nat (length ds) + number base ds.
Proof.
  intros base. unfold number. induction ds as [|d ds IH]; intros v; cbn [fold_left length].
  - cbn [N.of_nat]. rewrite N.pow_0_r. lia.
  - rewrite IH. rewrite (IH (0 * base + digit_value d)). rewrite Nat2N.inj_succ, N.pow_succ_r'. lia.
Qed.

Lemma numLoop_ok : forall base, base = 10 \/ base = 16 -> forall ds rest st ob cr v b pos,
  Forall (fun c => HEX c = Some (digit_value c) /\ digit_value c < base /\ c <> 59 /\ c < 128) ds ->
  (pos + length ds <= 15)%nat -> v < base ^ N.of_nat pos ->
  fold_left (fun v c => v * base + digit_value c) ds v < 2 ^ 32 -> length b = 16%nat ->
  exists b', length b' = 16%nat /\
    numBaseLoop (kr_ops outcs) cfg (16 - pos) (mkSc st Ok (ds ++ 59 :: rest) ob 0 (mkTok TParsingNumericBaseEntity cr pos base v b)) =
    Ret (PS st rest (ob ++ kpr outcs (fold_left (fun v c => v * base + digit_value c) ds v)) false b') true.
Proof.
  intros base Hbase. induction ds as [|d ds IH]; intros rest st ob cr v b pos Hd Hp Hv Hn Hb; cbn [length] in Hp.
  - exists b. split; [exact Hb|]. destruct (16 - pos)%nat eqn:Ek; [lia|]. cbn [numBaseLoop fold_left app].
    rewrite k_ascii. cbn [bind sc_src hd]. rewrite asc_k by lia. change (59 =? 59) with true. cbn iota. cbn [sc_tok tk_value].
    cbn [fold_left] in Hn. replace (0xFFFFFFFF <? v) with false by lia.
    unfold push, upd_tok, set_tok, set_obuf, tok_init. cbn [sc_state sc_err sc_src sc_obuf sc_tokpos sc_tok tk_id tk_cr tk_pos tk_base tk_value tk_buf].
    rewrite k_skip. unfold set_src. cbn [bind sc_state sc_err sc_src sc_obuf sc_tokpos sc_tok tl].
    unfold u32. rewrite N.mod_small by (change (2^32) with 4294967296 in *; lia). rewrite kpr_low by exact Hn. reflexivity.
  - inversion Hd; subst. destruct H1 as [Hx [Hlt [Hne H128]]]. destruct (16 - pos)%nat eqn:Ek; [lia|].
    cbn [numBaseLoop app]. rewrite k_ascii. cbn [bind sc_src hd]. rewrite asc_k by lia. replace (d =? 59) with false by lia.
    rewrite asc_low by exact H128. rewrite Hx. cbn [sc_tok tk_base]. replace (base <=? digit_value d) with false by lia.
    unfold tok_put. cbn [tk_pos]. replace (Nat.ltb pos 16) with true by (symmetry; apply Nat.ltb_lt; lia).
    cbn [tk_id tk_cr tk_pos tk_base tk_value tk_buf]. unfold tok_value, tok_incpos, set_tok.
    cbn [sc_state sc_err sc_src sc_obuf sc_tokpos sc_tok tk_id tk_cr tk_pos tk_base tk_value tk_buf].
    rewrite k_skip. unfold set_src. cbn [bind sc_state sc_err sc_src sc_obuf sc_tokpos sc_tok tl].
    assert (Hb1 : v * base + digit_value d < base ^ N.of_nat (S pos)).
    { rewrite Nat2N.inj_succ, N.pow_succ_r'. nia. }
    assert (Hu : u64 (v * base + digit_value d) = v * base + digit_value d).
    { unfold u64. apply N.mod_small. eapply N.lt_le_trans; [exact Hb1|].
      assert (base ^ N.of_nat (S pos) <= 16 ^ N.of_nat (S pos)) by (apply N.pow_le_mono_l; destruct Hbase as [->| ->]; lia).
      assert (16 ^ N.of_nat (S pos) <= 16 ^ 15) by (apply N.pow_le_mono_r; lia). change (16 ^ 15) with 1152921504606846976 in *.
      change (2 ^ 64) with 18446744073709551616. lia. }
    rewrite Hu. assert (n = (16 - S pos)%nat) by lia. subst n. cbn [fold_left] in *.
    apply IH; auto; [lia|]. rewrite upd_length. exact Hb.
Qed.

(** *** References *)
Lemma parse_ref : forall r, ref_ok r -> forall rest st ob cr b, length b = 16%nat ->
  exists b', length b' = 16%nat /\
    parseEntity (kr_ops outcs) cfg (PS st (tl (ref_src r) ++ rest) ob cr b) = Ret (PS st rest (ob ++ kpr outcs (ref_char r)) false b') true.
Proof.
  intros r Hr rest st ob cr b Hb.
  assert (Hnamed : forall nm c, In (nm, c) [(str "lt", 60); (str "gt", 62); (str "amp", 38); (str "quot", 34); (str "apos", 39)] ->
    exists b', length b' = 16%nat /\
    parseEntity (kr_ops outcs) cfg (PS st ((nm ++ [59]) ++ rest) ob cr b) = Ret (PS st rest (ob ++ kpr outcs c) false b') true).
  { intros nm c Hin. do 17 (destruct b as [|? b]; try discriminate Hb). clear Hb.
    unfold parseEntity, parseNamedEntity, upd_tok, set_tok, tok_id, PS.
    cbn [sc_state sc_err sc_src sc_obuf sc_tokpos sc_tok tk_id tk_cr tk_pos tk_base tk_value tk_buf].
    rewrite k_ascii. cbn [bind sc_src].
    assert (H35 : asc_of (kasc (hd 0 ((nm ++ [59]) ++ rest))) =? 35 = false) by (repeat (destruct Hin as [Hin|Hin]; [injection Hin as <- <-; reflexivity|]); destruct Hin).
    rewrite H35. rewrite k_ascii. cbn [bind sc_state sc_err sc_src sc_obuf sc_tokpos sc_tok tk_id tk_cr tk_pos tk_base tk_value tk_buf Nat.sub].
    repeat (destruct Hin as [Hin|Hin]; [injection Hin as <- <-; eexists; split; [|lazy -[cs_print app]; reflexivity]; reflexivity|]). destruct Hin. }
  destruct r as [ds|ds| | | | |]; cbn [ref_src ref_char ref_ok] in *;
    [| |exact (Hnamed (str "lt") 60 ltac:(cbn; tauto))|exact (Hnamed (str "gt") 62 ltac:(cbn; tauto))|exact (Hnamed (str "amp") 38 ltac:(cbn; tauto))
     |exact (Hnamed (str "quot") 34 ltac:(cbn; tauto))|exact (Hnamed (str "apos") 39 ltac:(cbn; tauto))].
  - destruct Hr as [Hd [Hl Hn]]. unfold parseEntity, parseNumericEntity, parseNumericBaseEntity, upd_tok, set_tok, tok_id, PS.
    cbn [sc_state sc_err sc_src sc_obuf sc_tokpos sc_tok tk_id tk_cr tk_pos tk_base tk_value tk_buf].
    change (tl (str "&#" ++ ds ++ str ";")) with (35 :: ds ++ str ";").
    rewrite k_ascii. cbn [bind sc_src hd app]. rewrite asc_k by lia. change (35 =? 35) with true. cbn iota.
    rewrite k_skip. unfold set_src. cbn [bind tl sc_state sc_err sc_src sc_obuf sc_tokpos sc_tok tk_id tk_cr tk_pos tk_base tk_value tk_buf].
    rewrite k_ascii. cbn [bind sc_src]. rewrite asc_k by lia.
    assert (Hh : (hd 0 ((ds ++ str ";") ++ rest) =? 120) = false).
    { destruct ds as [|d ds]; [cbn in Hl; lia|]. inversion Hd; subst. cbn [app hd]. unfold dec_digit in *. lia. }
    rewrite Hh. unfold tok_base. cbn [tl sc_state sc_err sc_src sc_obuf sc_tokpos sc_tok tk_id tk_cr tk_pos tk_base tk_value tk_buf].
    rewrite <- app_assoc. change (str ";" ++ rest) with (59 :: rest).
    apply (numLoop_ok 10) with (pos := 0%nat) (v := 0); auto; try lia.
    eapply Forall_impl; [|exact Hd]. intros a Ha. apply HEX_dec. exact Ha.
  - destruct Hr as [Hd [Hl Hn]]. unfold parseEntity, parseNumericEntity, parseNumericBaseEntity, upd_tok, set_tok, tok_id, PS.
    cbn [sc_state sc_err sc_src sc_obuf sc_tokpos sc_tok tk_id tk_cr tk_pos tk_base tk_value tk_buf].
    change (tl (str "&#x" ++ ds ++ str ";")) with (35 :: 120 :: ds ++ str ";").
    rewrite k_ascii. cbn [bind sc_src hd app]. rewrite asc_k by lia. change (35 =? 35) with true. cbn iota.
    rewrite k_skip. unfold set_src. cbn [bind tl sc_state sc_err sc_src sc_obuf sc_tokpos sc_tok tk_id tk_cr tk_pos tk_base tk_value tk_buf].
    rewrite k_ascii. cbn [bind sc_src hd]. rewrite asc_k by lia. change (120 =? 120) with true. cbn iota.
    unfold tok_base. cbn [tl sc_state sc_err sc_src sc_obuf sc_tokpos sc_tok tk_id tk_cr tk_pos tk_base tk_value tk_buf].
    rewrite k_skip. unfold set_src. cbn [bind tl sc_state sc_err sc_src sc_obuf sc_tokpos sc_tok tk_id tk_cr tk_pos tk_base tk_value tk_buf].
    rewrite <- app_assoc. change (str ";" ++ rest) with (59 :: rest).
    apply (numLoop_ok 16) with (pos := 0%nat) (v := 0); auto; try lia.
    eapply Forall_impl; [|exact Hd]. intros a Ha. apply HEX_hex. exact Ha.
Qed.

(** *** Text behind an ampersand that is not a reference *)
Lemma plain_ctl : forall c, plain_char c <-> kctl c = CAny.
Proof.
  intros c. assert (H : (if ctl_eqb (kctl c) CAny then (33 <=? c) && (c <? 128) && negb (bin c markup_chars) && negb (c =? 45)
                      else negb ((33 <=? c) && (c <? 128) && negb (bin c markup_chars) && negb (c =? 45))) = true).
  { apply (kctl_sweep (fun c k => if ctl_eqb k CAny then (33 <=? c) && (c <? 128) && negb (bin c markup_chars) && negb (c =? 45)
                      else negb ((33 <=? c) && (c <? 128) && negb (bin c markup_chars) && negb (c =? 45)))); [vm_compute; reflexivity|].
    intros d Hd. change (ctl_eqb CUndef CAny) with false. cbn iota. replace (d <? 128) with false by lia. rewrite Bool.andb_false_r. reflexivity. }
  unfold plain_char. rewrite bin_in. split.
  - intros [H1 [H2 H3]]. destruct (ctl_eqb (kctl c) CAny) eqn:E; [apply ctl_eqb_eq; exact E|]. exfalso.
    destruct (bin c markup_chars); [apply H2; reflexivity|]. lia.
  - intros E. rewrite E in H. change (ctl_eqb CAny CAny) with true in H. cbn iota in H. destruct (bin c markup_chars); [lia|]. repeat split; try lia; discriminate.
Qed.

Lemma uchar_low : forall c, c < 128 -> uchar_of_char c = c.
Proof. intros c H. unfold uchar_of_char. replace (c <? 128) with true by lia. reflexivity. Qed.

Lemma pushes_out : forall l st (r : list N) ob tp tk, Forall (fun c => c < 128) l -> pushes cfg l (mkSc st Ok r ob tp tk) = mkSc st Ok r (ob ++ pr l) tp tk.
Proof.
  induction l as [|c l IH]; intros st r ob tp tk H; cbn [pushes]; [rewrite app_nil_r; reflexivity|]. inversion H; subst.
  unfold push, set_obuf. cbn [sc_state sc_err sc_src sc_obuf sc_tokpos sc_tok]. rewrite IH by assumption. change (cf_out cfg) with (ko_cs outcs). rewrite <- kpr_low by (change (2 ^ 32) with 4294967296; lia). cbn [prs flat_map]. rewrite <- app_assoc. reflexivity.
Qed.

Lemma upd_firstn : forall (l : list N) n c, (n < length l)%nat -> firstn (S n) (upd n c l) = firstn n l ++ [c].
Proof. induction l as [|x l IH]; intros [|n] c H; cbn [length] in H; try lia; [reflexivity|]. cbn [upd]. rewrite !firstn_cons. rewrite IH by lia. reflexivity. Qed.

Lemma map_low : forall l, Forall (fun c => c < 128) l -> map uchar_of_char l = l.
Proof. intros l H. induction H as [|c l Hc H IH]; [reflexivity|]. cbn [map]. rewrite IH, uchar_low by exact Hc. reflexivity. Qed.

Lemma namedLoop_lit : forall l done rest st ob cr b,
  Forall (fun c => plain_char c /\ c <> 59) l -> (length done + length l <= 15)%nat ->
  ((length done + length l < 15)%nat -> ~ plain_char (hd 0 rest)) -> ((length done + length l = 15)%nat -> hd 0 rest <> 59) ->
  length b = 16%nat -> firstn (length done) b = done ->
  exists b', length b' = 16%nat /\ firstn (length done + length l) b' = done ++ l /\
    namedLoop (kr_ops outcs) (15 - length done) (mkSc st Ok (l ++ rest) ob 0 (mkTok TParsingNamedEntity cr (length done) 0 0 b)) (asc_of (kasc (hd 0 (l ++ rest)))) =
    Ret (mkSc st Ok rest ob 0 (mkTok TParsingNamedEntity cr (length done + length l) 0 0 b')) (asc_of (kasc (hd 0 rest))).
Proof.
  induction l as [|c l IH]; intros done rest st ob cr b Hl Hn H1 H2 Hb Hd; cbn [length app] in *.
  - exists b. rewrite Nat.add_0_r in *. rewrite app_nil_r. split; [exact Hb|]. split; [exact Hd|].
    destruct (15 - length done)%nat eqn:Ek; cbn [namedLoop]; [reflexivity|].
    assert (Hp : ~ plain_char (hd 0 rest)) by (apply H1; lia). rewrite plain_ctl in Hp. rewrite asc_k by lia.
    destruct (hd 0 rest =? 59) eqn:E59; [apply N.eqb_eq in E59; rewrite E59 in Hp; exfalso; apply Hp; reflexivity|].
    rewrite k_control. cbn [bind sc_src]. destruct (ctl_eqb (kctl (hd 0 rest)) CAny) eqn:E; [apply ctl_eqb_eq in E; contradiction|]. reflexivity.
  - inversion Hl as [|? ? [Hc Hc59] Hl2]; subst. destruct (15 - length done)%nat eqn:Ek; [lia|]. cbn [namedLoop hd].
    rewrite asc_k by lia. replace (c =? 59) with false by lia. rewrite k_control. cbn [bind sc_src hd].
    assert (Hk := Hc). apply plain_ctl in Hk. rewrite Hk. change (ctl_eqb CAny CAny) with true. cbn iota.
    destruct Hc as [Hr _]. rewrite asc_low by lia. unfold tok_put. cbn [sc_tok tk_pos]. replace (Nat.ltb (length done) 16) with true by (symmetry; apply Nat.ltb_lt; lia).
    cbn [tk_id tk_cr tk_pos tk_base tk_value tk_buf]. unfold set_tok. cbn [sc_state sc_err sc_src sc_obuf sc_tokpos sc_tok].
    rewrite k_skip. unfold set_src, upd_tok, set_tok, tok_incpos. cbn [bind sc_state sc_err sc_src sc_obuf sc_tokpos sc_tok tl tk_id tk_cr tk_pos tk_base tk_value tk_buf].
    rewrite k_ascii. cbn [bind sc_src].
    assert (En : n = (15 - length (done ++ [c]))%nat) by (rewrite app_length; cbn [length]; lia). rewrite En.
    assert (El : S (length done) = length (done ++ [c])) by (rewrite app_length; cbn [length]; lia).
    assert (El2 : (length done + S (length l) = length (done ++ [c]) + length l)%nat) by lia.
    destruct (IH (done ++ [c]) rest st ob cr (upd (length done) c b)) as [b' [B1 [B2 B3]]]; auto.
    + lia.
    + intros H. apply H1. lia.
    + intros H. apply H2. lia.
    + rewrite upd_length. exact Hb.
    + rewrite <- El. rewrite upd_firstn by lia. rewrite Hd. reflexivity.
    + exists b'. split; [exact B1|]. rewrite El2. split; [rewrite B2, <- app_assoc; reflexivity|]. rewrite El. exact B3.
Qed.

Lemma numLoop_lit : forall ds done rest st ob cr v b,
  Forall dec_digit ds -> Forall dec_digit done -> (length done + length ds <= 16)%nat ->
  ((length done + length ds < 16)%nat -> ~ dec_digit (hd 0 rest) /\ hd 0 rest <> 59) ->
  length b = 16%nat -> firstn (length done) b = done ->
  exists b' v', length b' = 16%nat /\ 
    numBaseLoop (kr_ops outcs) cfg (16 - length done) (mkSc st Ok (ds ++ rest) ob 0 (mkTok TParsingNumericBaseEntity cr (length done) 10 v b)) =
    Ret (mkSc st Ok rest (ob ++ pr (38 :: 35 :: done ++ ds)) 0 (mkTok TParsingNumericBaseEntity cr (length done + length ds) 10 v' b')) true.
Proof.
  assert (Hfb : forall done (rest : list N) st ob cr v b, Forall dec_digit done -> firstn (length done) b = done ->
    fallbackEntity cfg (mkSc st Ok rest ob 0 (mkTok TParsingNumericBaseEntity cr (length done) 10 v b)) =
    mkSc st Ok rest (ob ++ pr (38 :: 35 :: done)) 0 (mkTok TParsingNumericBaseEntity cr (length done) 10 v b)).
  { intros done rest st ob cr v b Hdd Hd. unfold fallbackEntity, tokchars. cbn [sc_tok tk_id tk_pos tk_buf]. 
    assert (Hlow : Forall (fun c => c < 128) done) by (eapply Forall_impl; [|exact Hdd]; intros a Ha; unfold dec_digit in Ha; lia). rewrite Hd, map_low by exact Hlow.
    unfold push at 1 2, set_obuf. cbn [sc_state sc_err sc_src sc_obuf sc_tokpos sc_tok]. rewrite pushes_out by exact Hlow. rewrite <- !app_assoc. reflexivity. }
  induction ds as [|c ds IH]; intros done rest st ob cr v b Hl Hdd Hn H1 Hb Hd; cbn [length app] in *.
  - exists b, v. rewrite Nat.add_0_r in *. rewrite app_nil_r. split; [exact Hb|].
    destruct (16 - length done)%nat eqn:Ek; cbn [numBaseLoop]; [rewrite Hfb by auto; reflexivity|].
    destruct (H1 ltac:(lia)) as [Hp H59]. rewrite k_ascii. cbn [bind sc_src]. rewrite asc_k by lia. replace (hd 0 rest =? 59) with false by lia.
    assert (Hx : exists h, HEX (asc_of (kasc (hd 0 rest))) = Some h /\ 10 <= h).
    { unfold kasc. destruct (hd 0 rest <? 128) eqn:E; [|exists 255; split; [reflexivity|lia]].
      unfold asc_of. rewrite E.
      assert (Hs : forallb (fun c => ((48 <=? c) && (c <=? 57)) || match HEX c with Some h => 10 <=? h | None => false end) (map N.of_nat (seq 0 128)) = true) by (vm_compute; reflexivity).
      rewrite forallb_forall in Hs. specialize (Hs (hd 0 rest) (below (hd 0 rest) 128 ltac:(change (N.of_nat 128) with 128; lia))). cbn beta in Hs.
      unfold dec_digit in Hp. destruct (HEX (hd 0 rest)) as [h|]; [exists h; split; [reflexivity|lia]|lia]. }
    destruct Hx as [h [Hx1 Hx2]]. rewrite Hx1. cbn [sc_tok tk_base]. replace (10 <=? h) with true by lia. rewrite Hfb by auto. reflexivity.
  - inversion Hl as [|? ? Hc Hl2]; subst. destruct (16 - length done)%nat eqn:Ek; [lia|]. cbn [numBaseLoop].
    destruct (HEX_dec c Hc) as [X1 [X2 [X3 X4]]].
    rewrite k_ascii. cbn [bind sc_src hd]. rewrite asc_k by lia. replace (c =? 59) with false by lia. rewrite asc_low by lia. rewrite X1.
    cbn [sc_tok tk_base]. replace (10 <=? digit_value c) with false by lia.
    unfold tok_put. cbn [sc_tok tk_pos]. replace (Nat.ltb (length done) 16) with true by (symmetry; apply Nat.ltb_lt; lia).
    cbn [tk_id tk_cr tk_pos tk_base tk_value tk_buf]. unfold tok_value, tok_incpos, set_tok.
    cbn [sc_state sc_err sc_src sc_obuf sc_tokpos sc_tok tk_id tk_cr tk_pos tk_base tk_value tk_buf].
    rewrite k_skip. unfold set_src. cbn [bind sc_state sc_err sc_src sc_obuf sc_tokpos sc_tok tl].
    assert (En : n = (16 - length (done ++ [c]))%nat) by (rewrite app_length; cbn [length]; lia). rewrite En.
    assert (El : S (length done) = length (done ++ [c])) by (rewrite app_length; cbn [length]; lia).
    assert (El2 : (length done + S (length ds) = length (done ++ [c]) + length ds)%nat) by lia.
    destruct (IH (done ++ [c]) rest st ob cr (u64 (v * 10 + digit_value c)) (upd (length done) c b)) as [b' [v' [B1 B3]]]; auto.
    + apply Forall_app. split; [exact Hdd|]. constructor; auto.
    + lia.
    + intros H. apply H1. lia.
    + rewrite upd_length. exact Hb.
    + rewrite <- El. rewrite upd_firstn by lia. rewrite Hd. reflexivity.
    + exists b', v'. split; [exact B1|]. rewrite El2. rewrite El. rewrite B3. rewrite <- app_assoc. reflexivity.
Qed.

Lemma parse_lit : forall l rest, amp_ok (Lit l) rest -> forall st ob cr b, length b = 16%nat ->
  exists tk, length (tk_buf tk) = 16%nat /\
    parseEntity (kr_ops outcs) cfg (PS st (l ++ rest) ob cr b) = Ret (mkSc st Ok rest (ob ++ pr (38 :: l)) 0 tk) true.
Proof.
  intros l rest [[Hl [H35 [Hn [H1 H2]]]]|[ds [-> [Hd [Hn H1]]]]] st ob cr b Hb.
  - unfold parseEntity, parseNamedEntity, upd_tok, set_tok, tok_id, PS.
    cbn [sc_state sc_err sc_src sc_obuf sc_tokpos sc_tok tk_id tk_cr tk_pos tk_base tk_value tk_buf].
    rewrite k_ascii. cbn [bind sc_src]. rewrite asc_k by lia.
    assert (E35 : hd 0 (l ++ rest) =? 35 = false).
    { destruct l as [|c l]; cbn [app hd] in *; [|lia]. specialize (H2 ltac:(cbn; lia)). rewrite plain_ctl in H2.
      apply N.eqb_neq. intros E. rewrite E in H2. apply H2. reflexivity. }
    rewrite E35. rewrite k_ascii. cbn [bind sc_state sc_err sc_src sc_obuf sc_tokpos sc_tok tk_id tk_cr tk_pos tk_base tk_value tk_buf].
    destruct (namedLoop_lit l [] rest st ob cr b) as [b' [B1 [B2 B3]]]; auto.
    cbn [length Nat.add] in B2, B3. rewrite B3. cbn [bind].
    assert (E59 : asc_of (kasc (hd 0 rest)) =? 59 = false).
    { rewrite asc_k by lia. apply N.eqb_neq. destruct (Nat.eq_dec (length l) 15) as [E|E]; [auto|].
      specialize (H2 ltac:(lia)). rewrite plain_ctl in H2. intros E9. rewrite E9 in H2. apply H2. reflexivity. }
    assert (Hlow : Forall (fun c => c < 128) l) by (eapply Forall_impl; [|exact Hl]; intros a [[Ha _] _]; lia).
    rewrite E59. eexists. split; [|unfold fallbackEntity, tokchars; cbn [sc_tok tk_id tk_pos tk_buf]; rewrite B2; cbn [app]; rewrite map_low by exact Hlow;
      unfold push, set_obuf; cbn [sc_state sc_err sc_src sc_obuf sc_tokpos sc_tok]; rewrite pushes_out by exact Hlow; rewrite <- app_assoc; reflexivity].
    exact B1.
  - unfold parseEntity, parseNumericEntity, parseNumericBaseEntity, upd_tok, set_tok, tok_id, PS.
    cbn [sc_state sc_err sc_src sc_obuf sc_tokpos sc_tok tk_id tk_cr tk_pos tk_base tk_value tk_buf].
    rewrite k_ascii. cbn [bind sc_src hd app]. rewrite asc_k by lia. change (35 =? 35) with true. cbn iota.
    rewrite k_skip. unfold set_src. cbn [bind tl sc_state sc_err sc_src sc_obuf sc_tokpos sc_tok tk_id tk_cr tk_pos tk_base tk_value tk_buf].
    rewrite k_ascii. cbn [bind sc_src]. rewrite asc_k by lia.
    assert (Hh : (hd 0 (ds ++ rest) =? 120) = false).
    { destruct ds as [|d ds]; cbn [app hd]; [apply N.eqb_neq; apply H1; cbn; auto; lia|]. inversion Hd; subst. unfold dec_digit in *. lia. }
    rewrite Hh. unfold tok_base. cbn [tl sc_state sc_err sc_src sc_obuf sc_tokpos sc_tok tk_id tk_cr tk_pos tk_base tk_value tk_buf].
    destruct (numLoop_lit ds [] rest st ob cr 0 b) as [b' [v' [B1 B2]]]; auto.
    + intros H. destruct (H1 H) as [G1 [G2 _]]. auto.
    + cbn [length Nat.sub Nat.add app] in B2. cbn [Nat.sub]. rewrite B2. eexists. split; [|reflexivity]. exact B1.
Qed.

Lemma parse_amp : forall a rest, amp_ok a rest -> forall st ob cr b, length b = 16%nat ->
  exists tk, length (tk_buf tk) = 16%nat /\
    parseEntity (kr_ops outcs) cfg (PS st (tl (amp_src a) ++ rest) ob cr b) = Ret (mkSc st Ok rest (ob ++ pr (amp_chars a)) 0 tk) true.
Proof.
  intros [r|l] rest Ha st ob cr b Hb; cbn [amp_src amp_chars amp_ok] in *; [|apply parse_lit; auto].
  destruct (parse_ref r Ha rest st ob cr b Hb) as [b' [H1 H2]]. rewrite H2. unfold PS. eexists. split; [|cbn [prs flat_map]; rewrite app_nil_r; reflexivity]. exact H1.
Qed.

(** the condition on the text behind only depends on its first character *)
Lemma amp_ok_app : forall a raw tail, amp_ok a raw -> ~ plain_char (hd 0 tail) -> amp_ok a (raw ++ tail).
Proof.
  intros [r|l] raw tail Ha Ht; cbn [amp_ok] in *; [exact Ha|]. destruct raw as [|c raw]; [|exact Ha]. cbn [app hd] in *.
  rewrite plain_ctl in Ht. destruct Ha as [[H1 [H2 [H3 [H4 H5]]]]|[ds [-> [H1 [H2 H3]]]]].
  - left. split; [exact H1|]. split; [exact H2|]. split; [exact H3|]. split.
    + intros _ E. apply Ht. rewrite E. reflexivity.
    + intros _. rewrite plain_ctl. exact Ht.
  - right. exists ds. split; [reflexivity|]. split; [exact H1|]. split; [exact H2|]. intros _. split; [|split].
    + intros Hd. apply Ht. apply plain_ctl. unfold dec_digit in Hd. split; [lia|]. split; [|lia]. rewrite bin_in. intros Hx.
      assert (Hs : forallb (fun c => negb ((48 <=? c) && (c <=? 57) && bin c markup_chars)) (map N.of_nat (seq 0 128)) = true) by (vm_compute; reflexivity).
      rewrite forallb_forall in Hs. specialize (Hs _ (below (hd 0 tail) 128 ltac:(change (N.of_nat 128) with 128; lia))). cbn beta in Hs. rewrite Hx in Hs. lia.
    + intros E. apply Ht. rewrite E. reflexivity.
    + intros _ E. apply Ht. rewrite E. reflexivity.
Qed.

(** *** A whole token *)
Lemma ref_amp : forall a, exists x, amp_src a = 38 :: x.
Proof. intros [[]|]; eexists; reflexivity. Qed.

Lemma ptl_refs : forall isTok st, isTokAt isTok CAmp = Some false -> forall refs,
  Forall (fun p => amp_ok (fst p) (snd p) /\ Forall (fun c => isTokAt isTok (kctl c) = Some true) (snd p)) refs ->
  exists k, forall rest ob cr b, length b = 16%nat -> ~ plain_char (hd 0 rest) -> exists cr' b', length b' = 16%nat /\ forall f,
   parseTokenLoop (kr_ops outcs) cfg (k + f) isTok (PS st (flat_map (fun p => amp_src (fst p) ++ snd p) refs ++ rest) ob cr b) =
   parseTokenLoop (kr_ops outcs) cfg f isTok (PS st rest (ob ++ pr (flat_map (fun p => amp_chars (fst p) ++ eol (snd p)) refs)) cr' b').
Proof.
  intros isTok st Ha. induction refs as [|[r raw] refs IH]; intros H.
  - exists 0%nat. intros rest ob cr b Hb Hr0. exists cr, b. split; [exact Hb|]. intros f. cbn. rewrite app_nil_r. reflexivity.
  - inversion H; subst. cbn [fst snd] in H2. destruct H2 as [Hr Hraw]. destruct (IH H3) as [k Hk].
    exists (S (length raw + k))%nat. intros rest ob cr b Hb Hr0.
    set (tail := flat_map (fun p => amp_src (fst p) ++ snd p) refs ++ rest).
    assert (Ht : ~ plain_char (hd 0 tail)).
    { unfold tail. destruct refs as [|[r2 x2] refs]; [exact Hr0|]. cbn [flat_map fst snd]. destruct (ref_amp r2) as [x Hx]. rewrite Hx. cbn [app hd]. rewrite plain_ctl. discriminate. }
    destruct (parse_amp r (raw ++ tail) (amp_ok_app _ _ _ Hr Ht) st ob cr b Hb) as [tk [Hb1 E1]].
    destruct (Hk rest ((ob ++ pr (amp_chars r)) ++ pr (eolc false raw)) (crl false raw) (tk_buf tk) Hb1 Hr0) as [cr' [b' [Hb' E']]].
    exists cr', b'. split; [exact Hb'|]. intros f. cbn [flat_map fst snd].
    destruct (ref_amp r) as [x Hx]. rewrite Hx in E1. cbn [tl] in E1. rewrite Hx. cbn [app Nat.add]. unfold PS at 1. cbn [parseTokenLoop].
    rewrite k_control. cbn [bind sc_src hd]. change (kctl 38) with CAmp. rewrite Ha. change (ctl_eqb CAmp CAmp) with true. cbn iota.
    rewrite k_skip. unfold set_src. cbn [bind tl sc_state sc_err sc_src sc_obuf sc_tokpos sc_tok].
    rewrite <- !app_assoc. fold tail. unfold PS in E1 at 1. rewrite E1. cbn [bind].
    unfold upd_tok, set_tok, tok_init. cbn [bind tl sc_state sc_err sc_src sc_obuf sc_tokpos sc_tok tk_buf].
    rewrite <- Nat.add_assoc.
    change (mkSc st Ok (raw ++ tail) (ob ++ pr (amp_chars r)) 0 (mkTok TParsingToken false 0 0 0 (tk_buf tk))) with (PS st (raw ++ tail) (ob ++ pr (amp_chars r)) false (tk_buf tk)).
    rewrite ptl_raw by exact Hraw. unfold tail. rewrite E'. unfold PS. rewrite eol_eolc. rewrite !prs_app, <- !app_assoc. reflexivity.
Qed.

Lemma ptl_token : forall isTok st, isTokAt isTok CAmp = Some false -> isTokAt isTok CAny = Some true -> forall t,
  tok_ok (fun c => isTokAt isTok (kctl c) = Some true) t ->
  exists k, forall rest ob b, length b = 16%nat -> isTokAt isTok (kctl (hd 0 rest)) = Some false -> kctl (hd 0 rest) <> CAmp ->
  exists b', length b' = 16%nat /\ forall f,
   parseTokenLoop (kr_ops outcs) cfg (k + f) isTok (PS st (tok_src t ++ rest) ob false b) =
   Ret (mkSc st Ok rest (ob ++ pr (tok_chars t)) 0 (mkTok TParsingDone false 0 0 0 b')) true.
Proof.
  intros isTok st Ha Hany [raw refs] [H1 H2]. unfold tok_src, tok_chars. cbn [t_raw t_refs] in *.
  destruct (ptl_refs isTok st Ha refs H2) as [k Hk]. exists (length raw + (k + 1))%nat. intros rest ob b Hb Hc Hn.
  destruct (Hk rest (ob ++ pr (eolc false raw)) (crl false raw) b Hb ltac:(rewrite plain_ctl; intros E; rewrite E in Hc; congruence)) as [cr' [b' [Hb' E]]].
  exists b'. split; [exact Hb'|]. intros f. rewrite <- app_assoc. rewrite <- Nat.add_assoc. rewrite ptl_raw by exact H1.
  rewrite <- Nat.add_assoc, E. cbn [Nat.add parseTokenLoop]. rewrite k_control. unfold PS. cbn [bind sc_src]. rewrite Hc.
  destruct (ctl_eqb (kctl (hd 0 rest)) CAmp) eqn:E2; [apply ctl_eqb_eq in E2; contradiction|].
  unfold upd_tok, set_tok, tok_init. cbn [sc_state sc_err sc_src sc_obuf sc_tokpos sc_tok tk_buf].
  rewrite eol_eolc, prs_app, <- app_assoc. reflexivity.
Qed.
End Tok.
