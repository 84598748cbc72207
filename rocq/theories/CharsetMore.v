(** References, malformed input, code pages (proofs). *)
From Verif Require Import Base Iter CharMap CodePages Charset TextScanner Ideal ReaderSim ScannerSim IterSim
  CharsetSpec CharsetProofs ReadSpec ReadProofs.

Ltac Zify.zify_post_hook ::= Z.div_mod_to_equations.

(** ** numeric character references *)
Lemma hexdigit_val : forall x, hexval (nth (N.to_nat (N.land x 0xf)) HEXdigits 0) = Some (x mod 16)
  /\ nth (N.to_nat (N.land x 0xf)) HEXdigits 0 < 128.
Proof.
  intros x. change 0xf with (N.ones 4). rewrite N.land_ones. change (2 ^ 4) with 16.
  pose proof (sweep256 (fun y => if y <? 16 then
     match hexval (nth (N.to_nat y) HEXdigits 0) with Some d => d =? y | None => false end
     && (nth (N.to_nat y) HEXdigits 0 <? 128) else true)
                ltac:(vm_compute; reflexivity) (x mod 16) ltac:(lia)) as H.
  cbn beta in H. destruct (N.ltb_spec (x mod 16) 16); [|lia].
  apply andb_true_iff in H. destruct H as [H1 H2]. split; [|lia].
  destruct (hexval (nth (N.to_nat (x mod 16)) HEXdigits 0)); [f_equal; lia|discriminate].
Qed.

Lemma hexnum_snoc : forall l acc c, hexnum acc (l ++ [c]) =
  match hexnum acc l with
  | Some v => match hexval c with Some d => Some (v * 16 + d) | None => None end
  | None => None
  end.
Proof.
  induction l as [|x l IH]; intros acc c; cbn [hexnum app].
  - destruct (hexval c); reflexivity.
  - destruct (hexval x); [apply IH|reflexivity].
Qed.

Lemma enc_digits_num : forall n c, c < 16 ^ N.of_nat n -> hexnum 0 (rev (enc_digits n c)) = Some c.
Proof.
  induction n as [|n IH]; intros c Hc; cbn [enc_digits].
  - cbn [rev hexnum]. f_equal. change (16 ^ N.of_nat 0) with 1 in Hc. lia.
  - destruct (N.eqb_spec c 0) as [->|Hz]; [reflexivity|].
    cbn [rev]. rewrite hexnum_snoc, IH.
    + destruct (hexdigit_val c) as [-> _]. f_equal. lia.
    + rewrite Nat2N.inj_succ, N.pow_succ_r' in Hc. apply N.div_lt_upper_bound; lia.
Qed.

Lemma enc_digits_ascii : forall n c, Forall (fun x => x < 128) (enc_digits n c).
Proof.
  induction n as [|n IH]; intros c; cbn [enc_digits]; [constructor|].
  destruct (c =? 0); constructor; auto. apply hexdigit_val.
Qed.

Lemma encode_reference : forall c, 0 < c < 2 ^ 32 -> is_reference (encode c) c.
Proof.
  intros c [H1 H2]. exists (rev (enc_digits 8 c)). split; [|split].
  - cbn [enc_digits]. destruct (N.eqb_spec c 0); [lia|]. cbn [rev]. intros E. apply app_eq_nil in E. destruct E. discriminate.
  - reflexivity.
  - apply enc_digits_num. change (16 ^ N.of_nat 8) with (2 ^ 32). exact H2.
Qed.

Lemma encode_ascii : forall c, Forall (fun x => x < 128) (encode c).
Proof.
  intros c. unfold encode. apply Forall_app. split; [repeat constructor; lia|].
  apply Forall_app. split; [apply Forall_rev, enc_digits_ascii|repeat constructor].
Qed.

Lemma flat_map_ext_Forall : forall {A B} (P : A -> Prop) (f g : A -> list B) l,
  Forall P l -> (forall x, P x -> f x = g x) -> flat_map f l = flat_map g l.
Proof. intros A B P f g l H Hfg. induction H; cbn [flat_map]; [reflexivity|]. rewrite Hfg, IHForall; auto. Qed.

(** what print() writes for a character that the character set does not contain *)
Lemma print_reference : forall cs c, cs_constructible cs = true -> cs <> UTF8 -> 0 < c < 2 ^ 32 ->
  (exists b, cs = IsoLatin 3 /\ cs_print cs c = [b] /\ ucharcode 3 b = Some c) \/
  representable cs c \/
  exists text, text = encode c /\ is_reference text c /\ cs_print cs c = flat_map (spec_encode cs) text.
Proof.
  intros cs c Hcs Hne Hc.
  assert (Href := encode_reference c Hc). assert (Ha := encode_ascii c).
  assert (Hp16 : forall be, flat_map (print16 be) (encode c) = flat_map (spec_unit16 be) (encode c)).
  { intros be. eapply flat_map_ext_Forall; [exact Ha|]. intros x Hx. cbn beta in Hx. apply print16_spec. lia. }
  destruct cs as [|be|be|be|p]; [congruence| | | |].
  - right. cbn [representable spec_encode cs_print]. unfold utf16_print.
    assert (Hr : exists text, text = encode c /\ is_reference text c /\ flat_map (print16 be) (encode c) = flat_map (spec_utf16 be) text).
    { exists (encode c). split; [reflexivity|]. split; [exact Href|]. rewrite Hp16. eapply flat_map_ext_Forall; [exact Ha|].
      intros x Hx. cbn beta in Hx. unfold spec_utf16. destruct (N.ltb_spec x 0x10000); [reflexivity|lia]. }
    destruct (N.leb_spec c 0xFFFF).
    + destruct (N.ltb_spec (sub32 c 0xD800) 0x400) as [E|E]; [right; exact Hr|left].
      split; [lia|]. intros Hs. rewrite sub32_ge in E by (change (2 ^ 32) with 4294967296; lia). lia.
    + destruct (N.leb_spec c 0x10FFFF); [left; lia|right; exact Hr].
  - right. cbn [representable spec_encode cs_print]. unfold ucs2_print. change (2 ^ 16) with 65536.
    destruct (N.ltb_spec 0xFFFF c); [right|left; lia].
    exists (encode c). split; [reflexivity|]. split; [exact Href|]. apply Hp16.
  - right. left. cbn [representable]. apply Hc.
  - cbn [cs_constructible] in Hcs.
    assert (Hsw : forallb (fun q => forallb (fun c => match iso_print q c with
        | [b] => match ucharcode q b with Some d => d =? c | None => false end && ((q =? 3) || (c =? 0) ||
                 ((c <? 128) || match iso8859_byte q c with Some b => iso8859_right q b | None => false end))
        | _ => if list_eq_dec N.eq_dec (iso_print q c) (encode c) then true else false end) bytes256)
        [1;2;3;4;5;6;7;8;9] = true) by (vm_compute; reflexivity).
    rewrite forallb_forall in Hsw.
    assert (Hin : In p [1;2;3;4;5;6;7;8;9]) by (cbn [In]; lia).
    assert (Henc : cs_print (IsoLatin p) c = encode c ->
       exists text, text = encode c /\ is_reference text c /\ cs_print (IsoLatin p) c = flat_map (spec_encode (IsoLatin p)) text).
    { intros E. exists (encode c). split; [reflexivity|]. split; [exact Href|]. rewrite E. cbn [spec_encode].
      generalize Ha. generalize (encode c). intros l Hl. induction Hl as [|x l Hx Hl IH]; [reflexivity|]. cbn [flat_map]. cbn [spec_encode].
      destruct (N.ltb_spec x 128); [|lia]. cbn [app]. f_equal. exact IH. }
    destruct (N.lt_ge_cases c 256) as [Hlt|Hge].
    + pose proof (sweep256 _ (Hsw p Hin) c Hlt) as G. cbn beta in G.
      destruct (list_eq_dec N.eq_dec (iso_print p c) (encode c)) as [E|E].
      * right. right. apply Henc. exact E.
      * cbn [cs_print]. destruct (iso_print p c) as [|b [|]]; try discriminate G.
        apply andb_true_iff in G. destruct G as [G1 G2]. destruct (N.eqb_spec p 3) as [->|Hp3].
        -- left. exists b. repeat split. destruct (ucharcode 3 b); [f_equal; lia|discriminate].
        -- right. left. cbn [representable]. destruct (N.lt_ge_cases c 128) as [Hl|Hl]; [left; lia|right]. split; [lia|]. destruct (N.eqb_spec c 0); [lia|]. destruct (N.ltb_spec c 128); [lia|]. cbn [orb] in G2.
           destruct (iso8859_byte p c) as [b0|]; [|discriminate]. exists b0. split; [reflexivity|exact G2].
    + right. right. apply Henc. cbn [cs_print]. unfold iso_print, invcode.
      assert (Hpg : exists a b, invcodePage p = Some a /\ ovlPage p = Some b).
      { repeat (destruct Hin as [<-|Hin]; [vm_compute; eauto|]). destruct Hin. }
      destruct Hpg as [a [b [-> ->]]].
      destruct (N.leb_spec c 128); [lia|]. destruct (N.leb_spec c 255); [lia|].
      change (0 =? 0) with true. cbn iota. change (N.shiftl 1 2) with 4.
      destruct (N.leb_spec 4 c); [|lia]. reflexivity.
Qed.

(** ** arbitrary bytes as UTF-8 *)
Lemma land_cont : forall x, x < 256 -> (N.land x 0xC0 =? 0x80) = continuation x /\ 
   (continuation x = true -> N.land x 0x3F = x - 0x80 /\ x - 0x80 < 64).
Proof.
  intros x Hx.
  pose proof (sweep256 (fun y => Bool.eqb (N.land y 0xC0 =? 0x80) (continuation y))
                ltac:(vm_compute; reflexivity) x Hx) as H.
  cbn beta in H. apply eqb_prop in H. split; [exact H|].
  intros Hc. unfold continuation in Hc. rewrite land_63. lia.
Qed.

Lemma utf8_loop_any : forall l res, Forall isByte l -> res < 2 ^ 32 ->
  utf8_loop res l =
  if forallb continuation l then fold_left (fun v x => v * 64 + (x - 0x80)) l res mod 2 ^ 32 else utf8_MaxChar.
Proof.
  induction l as [|x l IH]; intros res Hl Hr; cbn [utf8_loop forallb fold_left].
  - rewrite N.mod_small; auto.
  - inversion Hl as [|x' l' Hx Hl']; subst. unfold isByte in Hx. destruct (land_cont x Hx) as [E1 E2]. rewrite E1.
    destruct (continuation x); [|reflexivity]. cbn [andb]. destruct (E2 eq_refl) as [E3 E4]. rewrite E3.
    assert (E5 : N.lor (u32 (N.shiftl res 6)) (x - 128) = (res * 64 + (x - 128)) mod 2 ^ 32).
    { rewrite N.shiftl_mul_pow2. change (2 ^ 6) with 64. unfold u32. change (2 ^ 32) with 4294967296.
      replace ((res * 64) mod 4294967296) with ((res mod 67108864) * 2 ^ 6) by (change (2 ^ 6) with 64; lia).
      rewrite lor_add by exact E4. change (2 ^ 6) with 64. lia. }
    rewrite E5, IH; auto; [|apply N.mod_lt; discriminate].
    destruct (forallb continuation l); [|reflexivity].
    clear. generalize (res * 64 + (x - 128)) as r. revert l.
    assert (G : forall l a b, a mod 2 ^ 32 = b mod 2 ^ 32 ->
       fold_left (fun v x => v * 64 + (x - 0x80)) l a mod 2 ^ 32 =
       fold_left (fun v x => v * 64 + (x - 0x80)) l b mod 2 ^ 32).
    { induction l as [|y l IH]; intros a b H; cbn [fold_left]; [exact H|].
      apply IH. rewrite N.add_mod, N.mul_mod, H, <- N.mul_mod, <- N.add_mod by discriminate. reflexivity. }
    intros l r. apply G. rewrite N.mod_mod by discriminate. reflexivity.
Qed.

Lemma lead_any : forall b, 0xC0 <= b < 256 ->
  nth (N.to_nat b) utf8LengthTab 0 = N.of_nat (S (utf8_following b)) /\
  N.land b (N.shiftr 0x1F (N.of_nat (utf8_following b - 1))) = utf8_payload b /\
  (1 <= utf8_following b <= 7)%nat /\ utf8_payload b < 32.
Proof.
  intros b Hb.
  pose proof (sweep256 (fun b => if 0xC0 <=? b then
     (nth (N.to_nat b) utf8LengthTab 0 =? N.of_nat (S (utf8_following b))) &&
     (N.land b (N.shiftr 0x1F (N.of_nat (utf8_following b - 1))) =? utf8_payload b) &&
     (1 <=? utf8_following b)%nat && (utf8_following b <=? 7)%nat && (utf8_payload b <? 32) else true)
                ltac:(vm_compute; reflexivity) b ltac:(lia)) as H.
  cbn beta in H. destruct (N.leb_spec 0xC0 b); [|lia]. lia.
Qed.

Lemma low_len : forall b, b < 0xC0 -> Nat.max 1 (N.to_nat (nth (N.to_nat b) utf8LengthTab 0)) = 1%nat.
Proof.
  intros b Hb.
  pose proof (sweep256 (fun b => if b <? 0xC0 then (nth (N.to_nat b) utf8LengthTab 0 <=? 1) else true)
                ltac:(vm_compute; reflexivity) b ltac:(lia)) as H.
  cbn beta in H. destruct (N.ltb_spec b 0xC0); lia.
Qed.

Lemma utf8_read_spec : forall l, Forall isByte l ->
  cval UTF8 l = fst (spec_utf8_read l) /\ clen UTF8 l = snd (spec_utf8_read l).
Proof.
  intros l Hl. destruct l as [|b t]; [split; reflexivity|].
  inversion Hl as [|b' t' Hb Ht]; subst. unfold isByte in Hb.
  unfold spec_utf8_read. cbn [cval clen]. unfold nb at 1 2. cbn [nth].
  assert (Hp0 : nth 0 (pad 8 (b :: t)) 0 = b) by (rewrite nth_pad by lia; reflexivity).
  destruct (N.ltb_spec b 0x80) as [H1|H1].
  { rewrite low_len by lia. split; [|reflexivity]. unfold utf8_value_of. rewrite Hp0.
    destruct (N.ltb_spec 127 b); [lia|reflexivity]. }
  unfold continuation at 1 3.
  destruct (N.ltb_spec b 0xC0) as [H2|H2].
  { destruct (N.leb_spec 0x80 b); [|lia]. cbn [andb fst snd]. rewrite low_len by lia.
    split; [|reflexivity]. unfold utf8_value_of. rewrite Hp0. destruct (N.ltb_spec 127 b); [reflexivity|lia]. }
  rewrite andb_false_r. cbn [fst snd].
  destruct (lead_any b ltac:(lia)) as [E1 [E2 [E3 E4]]]. rewrite E1.
  set (k := utf8_following b) in *.
  replace (Nat.max 1 (N.to_nat (N.of_nat (S k)))) with (S k) by lia. split; [|reflexivity].
  unfold utf8_value_of. rewrite Hp0. destruct (N.ltb_spec 127 b); [|lia].
  destruct (Nat.ltb_spec (S k) 2); [lia|].
  replace (S k - 2)%nat with (k - 1)%nat by lia. rewrite E2.
  replace (S k - 1)%nat with k by lia.
  assert (Hf : firstn k (tl (pad 8 (b :: t))) = firstn k (t ++ repeat 0 k)).
  { apply (firstn_ext _ _ _ 0).
    - pose proof (pad_length 8 (b :: t)) as Hpl. destruct (pad 8 (b :: t)) as [|z zs]; [discriminate|].
      cbn [tl length] in *. lia.
    - rewrite app_length, repeat_length. lia.
    - intros i Hi.
      assert (Hn : nth i (tl (pad 8 (b :: t))) 0 = nb (b :: t) (S i)).
      { rewrite <- (nth_pad 8 (b :: t) (S i)) by lia. destruct (pad 8 (b :: t)); [destruct i|]; reflexivity. }
      rewrite Hn. unfold nb. cbn [nth].
      destruct (Nat.lt_ge_cases i (length t)) as [Hlt|Hge].
      + rewrite app_nth1 by exact Hlt. reflexivity.
      + rewrite app_nth2 by exact Hge. rewrite nth_repeat0, nth_overflow by exact Hge. reflexivity. }
  rewrite Hf, utf8_loop_any.
  - reflexivity.
  - rewrite Forall_forall. intros x Hx. rewrite <- (firstn_skipn k (t ++ repeat 0 k)) in *.
    assert (Hx2 : In x (t ++ repeat 0 k)).
    { rewrite <- (firstn_skipn k (t ++ repeat 0 k)). apply in_or_app. left.
      rewrite firstn_skipn in Hx. exact Hx. }
    apply in_app_or in Hx2. destruct Hx2 as [Hx2|Hx2].
    + rewrite Forall_forall in Ht. apply Ht. exact Hx2.
    + apply repeat_spec in Hx2. subst. unfold isByte. lia.
  - change (2 ^ 32) with 4294967296. lia.
Qed.

Lemma skipn_bytes : forall n l, Forall isByte l -> Forall isByte (skipn n l).
Proof.
  intros n l H. rewrite Forall_forall in *. intros x Hx. apply H.
  rewrite <- (firstn_skipn n l). apply in_or_app. auto.
Qed.

Lemma vals_utf8 : forall n l, Forall isByte l -> vals UTF8 n l = spec_utf8_chars n l /\ lens UTF8 n l = spec_utf8_size n l.
Proof.
  induction n as [|n IH]; intros l Hl; cbn [vals spec_utf8_chars lens spec_utf8_size]; [auto|].
  destruct (utf8_read_spec l Hl) as [E1 E2]. rewrite E1, E2.
  destruct (IH (skipn (snd (spec_utf8_read l)) l)) as [E3 E4]; [apply skipn_bytes; auto|].
  rewrite E3, E4. auto.
Qed.

(** ** high surrogates *)
Lemma utf16_pair : forall be hi lo l, 0xD800 <= hi < 0xDC00 -> lo < 0x10000 ->
  cval (UTF16 be) (spec_unit16 be hi ++ spec_unit16 be lo ++ l) =
  if 0xE000 <=? lo then 0xFFFF
  else ((hi - 0xD800) * 0x400 + lo + 2 ^ 32 - 0xDC00 + 0x10000) mod 2 ^ 32.
Proof.
  intros be hi lo l Hhi Hlo.
  destruct (unit16_bytes be hi (spec_unit16 be lo ++ l) 0 ltac:(lia)) as [E1 [E2 [_ E3]]].
  destruct (unit16_bytes be lo l 0 ltac:(lia)) as [F1 [F2 [_ F3]]].
  assert (Hz : utf16_size_of (hi / 256) = 4%nat) by (apply utf16_size_4; lia).
  cbn [cval clen]. rewrite E1, Hz. unfold utf16_value_of. cbn [Nat.eqb].
  rewrite bmp_value by lia. rewrite !nth_pad by (destruct be; cbn; lia).
  destruct (unit16_bytes be hi (spec_unit16 be lo ++ l) (msb be) ltac:(lia)) as [_ [_ [G1 _]]].
  destruct (unit16_bytes be hi (spec_unit16 be lo ++ l) (lsb be) ltac:(lia)) as [_ [_ [G2 _]]].
  rewrite G1, G2, F1, F2.
  destruct (Z.ltb_spec 3 (Z.of_N (lo / 256) - 0xDC)); destruct (N.leb_spec 0xE000 lo); try lia.
  rewrite N.shiftl_mul_pow2. unfold u16. change (2 ^ 8) with 256. change (2 ^ 16) with 65536.
  rewrite (sub32_ge hi) by (change (2 ^ 32) with 4294967296; lia).
  unfold u32 at 2. change (2 ^ 32) with 4294967296.
  rewrite (N.mod_small ((hi - 55296) * 1024)) by lia.
  replace ((lo / 256 * 256) mod 65536 + lo mod 256) with lo by lia.
  rewrite (N.mod_small lo) by lia.
  unfold sub32, u32. change (2 ^ 32) with 4294967296. rewrite (N.mod_small 0xDC00) by lia.
  replace ((hi - 55296) * 1024 + lo + (4294967296 - 56320)) with ((hi - 55296) * 1024 + lo + 4294967296 - 56320) by lia.
  generalize ((hi - 55296) * 1024 + lo + 4294967296 - 56320). intros x.
  rewrite N.add_mod_idemp_l by discriminate. reflexivity.
Qed.

(** ** code pages *)
Lemma pages_in : forall p, (1 <=? p) && (p <=? 9) = true -> In p [1;2;3;4;5;6;7;8;9].
Proof. intros p H. cbn [In]. lia. Qed.

Lemma iso_tables : forall p b, 1 <= p <= 9 -> p <> 3 -> b < 256 -> ucharcode p b = Some (iso8859_char p b).
Proof.
  intros p b Hp H3 Hb.
  assert (Hsw : forallb (fun q => (q =? 3) || forallb (fun b => match ucharcode q b with
      | Some c => c =? iso8859_char q b | None => false end) bytes256)
      [1;2;3;4;5;6;7;8;9] = true) by (vm_compute; reflexivity).
  rewrite forallb_forall in Hsw. specialize (Hsw p (pages_in p ltac:(lia))).
  destruct (N.eqb_spec p 3); [congruence|]. cbn [orb] in Hsw.
  pose proof (sweep256 _ Hsw b Hb) as G. cbn beta in G.
  destruct (ucharcode p b); [f_equal; lia|discriminate].
Qed.

Lemma iso_readback : forall p b c, 1 <= p <= 9 -> b < 256 -> ucharcode p b = Some c -> c <> 0 ->
  (c < 256 -> iso_print p c = [b]) /\ (256 <= c -> iso_print p c = encode c).
Proof.
  intros p b c Hp Hb Hc Hz.
  assert (Hsw : forallb (fun q => forallb (fun b => match ucharcode q b with
      | Some c => (c =? 0) || if c <? 256 then match iso_print q c with [d] => d =? b | _ => false end
                  else if list_eq_dec N.eq_dec (iso_print q c) (encode c) then true else false
      | None => false end) bytes256)
      [1;2;3;4;5;6;7;8;9] = true) by (vm_compute; reflexivity).
  rewrite forallb_forall in Hsw. specialize (Hsw p (pages_in p ltac:(lia))).
  pose proof (sweep256 _ Hsw b Hb) as G. cbn beta in G. rewrite Hc in G.
  destruct (N.eqb_spec c 0); [congruence|]. cbn [orb] in G.
  destruct (N.ltb_spec c 256); split; intros; try lia.
  - destruct (iso_print p c) as [|d [|]]; try discriminate. f_equal. lia.
  - destruct (list_eq_dec N.eq_dec (iso_print p c) (encode c)); [assumption|discriminate].
Qed.

Lemma vals_iso : forall p n l, (n <= length l)%nat ->
  vals (IsoLatin p) n l = map (fun b => match ucharcode p b with Some v => v | None => 0 end) (firstn n l).
Proof.
  intros p. induction n as [|n IH]; intros l Hn; cbn [vals]; [reflexivity|].
  destruct l as [|b l]; [cbn in Hn; lia|]. cbn [clen skipn firstn map]. f_equal.
  apply IH. cbn [length] in Hn. lia.
Qed.
