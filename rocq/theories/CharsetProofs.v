(** Printing and reading of characters (proofs). *)
From Verif Require Import Base Iter CharMap CodePages Charset TextScanner Ideal ReaderSim IterSim CharsetSpec.

Ltac Zify.zify_post_hook ::= Z.div_mod_to_equations.

(** ** bit operations *)
Lemma lor_add : forall a b n, b < 2 ^ n -> N.lor (a * 2 ^ n) b = a * 2 ^ n + b.
Proof.
  intros a b n H. destruct (N.eq_dec b 0) as [->|Hb].
  { rewrite N.lor_0_r. lia. }
  assert (Hz : N.land (a * 2 ^ n) b = 0).
  { apply N.bits_inj. intros i. rewrite N.land_spec, N.bits_0.
    destruct (N.lt_ge_cases i n) as [Hi|Hi].
    - rewrite N.mul_pow2_bits_low by lia. reflexivity.
    - rewrite (N.bits_above_log2 b i); [apply andb_false_r|].
      apply N.log2_lt_pow2; [lia|]. eapply N.lt_le_trans; [exact H|].
      apply N.pow_le_mono_r; lia. }
  rewrite <- N.lxor_lor by exact Hz. symmetry. apply N.add_nocarry_lxor. exact Hz.
Qed.

Lemma land_63 : forall x, N.land x 0x3F = x mod 64.
Proof. intros x. change 0x3F with (N.ones 6). rewrite N.land_ones. reflexivity. Qed.

(** finite sweeps over bytes *)
Definition bytes256 : list N := Eval vm_compute in map N.of_nat (seq 0 256).
Lemma sweep256 : forall (f : N -> bool), forallb f bytes256 = true -> forall b, b < 256 -> f b = true.
Proof.
  intros f H b Hb. rewrite forallb_forall in H. apply H.
  replace bytes256 with (map N.of_nat (seq 0 256)) by reflexivity.
  apply in_map_iff. exists (N.to_nat b). split; [lia|]. apply in_seq. lia.
Qed.

Lemma cont_byte : forall x, u8 (N.lor (N.land x 0x3F) 0x80) = 128 + x mod 64.
Proof.
  intros x. rewrite land_63.
  pose proof (sweep256 (fun y => if y <? 64 then u8 (N.lor y 0x80) =? 128 + y else true)
                ltac:(vm_compute; reflexivity) (x mod 64) ltac:(lia)) as H.
  cbn beta in H. destruct (N.ltb_spec (x mod 64) 64); lia.
Qed.

(** first byte: pp following bytes *)
Lemma first_byte : forall pp hb m, (pp, hb, m) = (1, 192, 32) \/ (pp, hb, m) = (2, 224, 16)
    \/ (pp, hb, m) = (3, 240, 8) \/ (pp, hb, m) = (4, 248, 4) \/ (pp, hb, m) = (5, 252, 2) ->
  forall x, x < m ->
  let HB := u8 (N.shiftl 0xFF (8 - (pp + 1))) in
  let mask := Z.to_N (Z.land (Z.shiftr (Z.lnot (Z.of_N HB)) 1) 0xFF) in
  u8 (N.lor (N.land (u8 x) mask) HB) = hb + x.
Proof.
  intros pp hb m H x Hx. cbv zeta.
  assert (Hb : x < 256) by (decompose [or] H; match goal with E : (_, _, _) = _ |- _ => injection E as -> -> -> end; lia).
  set (f := fun y => if y <? m then
      u8 (N.lor (N.land (u8 y) (Z.to_N (Z.land (Z.shiftr (Z.lnot (Z.of_N (u8 (N.shiftl 0xFF (8 - (pp + 1)))))) 1) 0xFF)))
          (u8 (N.shiftl 0xFF (8 - (pp + 1))))) =? hb + y else true).
  assert (G : forall y, y < 256 -> f y = true).
  { subst f. decompose [or] H; match goal with E : (_, _, _) = _ |- _ => injection E as -> -> -> end;
    refine (sweep256 _ _); vm_compute; reflexivity. }
  specialize (G x Hb). unfold f in G. destruct (N.ltb_spec x m); lia.
Qed.

Lemma utf8_print_spec : forall c, c < 2 ^ 31 -> utf8_print c = spec_utf8 c.
Proof.
  intros c Hc. unfold utf8_print, spec_utf8.
  change (2 ^ 7) with 128. change (2 ^ 11) with 2048. change (2 ^ 16) with 65536.
  change (2 ^ 21) with 2097152. change (2 ^ 26) with 67108864.
  destruct (N.leb_spec c 127) as [H|H]; destruct (N.ltb_spec c 128) as [H2|H2]; try lia; [reflexivity|].
  unfold utf8_pp.
  change (N.shiftl 64 5) with 2048. change (N.shiftl 64 10) with 65536.
  change (N.shiftl 64 15) with 2097152. change (N.shiftl 64 20) with 67108864.
  destruct (N.ltb_spec c 2048) as [H3|H3].
  { change (N.to_nat 1) with 1%nat; cbn [utf8_cont]; cbv zeta; rewrite !cont_byte, !N.shiftr_div_pow2.
    rewrite (first_byte 1 192 32); [|tauto|change (2 ^ (1 * 6)) with 64; lia]. reflexivity. }
  destruct (N.ltb_spec c 65536) as [H4|H4].
  { change (N.to_nat 2) with 2%nat; cbn [utf8_cont]; cbv zeta; rewrite !cont_byte, !N.shiftr_div_pow2.
    rewrite (first_byte 2 224 16); [|tauto|change (2 ^ (2 * 6)) with 4096; lia]. reflexivity. }
  destruct (N.ltb_spec c 2097152) as [H5|H5].
  { change (N.to_nat 3) with 3%nat; cbn [utf8_cont]; cbv zeta; rewrite !cont_byte, !N.shiftr_div_pow2.
    rewrite (first_byte 3 240 8); [|tauto|change (2 ^ (3 * 6)) with 262144; lia]. reflexivity. }
  destruct (N.ltb_spec c 67108864) as [H6|H6].
  { change (N.to_nat 4) with 4%nat; cbn [utf8_cont]; cbv zeta; rewrite !cont_byte, !N.shiftr_div_pow2.
    rewrite (first_byte 4 248 4); [|tauto|change (2 ^ (4 * 6)) with 16777216; lia]. reflexivity. }
  change (N.to_nat 5) with 5%nat; cbn [utf8_cont]; cbv zeta; rewrite !cont_byte, !N.shiftr_div_pow2.
  rewrite (first_byte 5 252 2); [|tauto|change (2 ^ (5 * 6)) with 1073741824; change (2^31) with 2147483648 in Hc; lia].
  reflexivity.
Qed.

(** ** decoding of UTF-8 *)
Lemma utf8_loop_cont : forall xs res,
  Forall (fun x => x < 64) xs ->
  fold_left (fun a x => a * 64 + x) xs res < 2 ^ 32 ->
  utf8_loop res (map (fun x => 128 + x) xs) = fold_left (fun a x => a * 64 + x) xs res.
Proof.
  induction xs as [|x xs IH]; intros res Hx Hr; cbn [map utf8_loop fold_left] in *; [reflexivity|].
  inversion Hx as [|x' xs' Hx1 Hxs]; subst.
  assert (Hbound : res * 64 + x <= fold_left (fun a x => a * 64 + x) xs (res * 64 + x)).
  { clear. generalize (res * 64 + x). induction xs as [|y ys IHy]; intros r; cbn [fold_left]; [lia|].
    specialize (IHy (r * 64 + y)). lia. }
  assert (E1 : N.land (128 + x) 0xC0 =? 0x80 = true).
  { pose proof (sweep256 (fun y => if y <? 64 then N.land (128 + y) 0xC0 =? 0x80 else true)
                ltac:(vm_compute; reflexivity) x ltac:(lia)) as H.
    cbn beta in H. destruct (N.ltb_spec x 64); [exact H|lia]. }
  rewrite E1.
  assert (E2 : N.lor (u32 (N.shiftl res 6)) (N.land (128 + x) 0x3F) = res * 64 + x).
  { rewrite land_63, N.shiftl_mul_pow2. change (2 ^ 6) with 64.
    replace (u32 (res * 64)) with (res * 64) by (unfold u32; lia).
    replace ((128 + x) mod 64) with x by lia.
    change 64 with (2 ^ 6) at 1 2. rewrite lor_add by lia. reflexivity. }
  rewrite E2. apply IH; auto.
Qed.

(** lead byte of a sequence of n bytes *)
Lemma lead_byte : forall n hb m, (n, hb, m) = (2%nat, 192, 32) \/ (n, hb, m) = (3%nat, 224, 16)
    \/ (n, hb, m) = (4%nat, 240, 8) \/ (n, hb, m) = (5%nat, 248, 4) \/ (n, hb, m) = (6%nat, 252, 2) ->
  forall x, x < m ->
  hb + x < 256 /\
  nth (N.to_nat (hb + x)) utf8LengthTab 0 = N.of_nat n /\
  N.land (hb + x) (N.shiftr 0x1F (N.of_nat (n - 2))) = x.
Proof.
  intros n hb m H x Hx.
  assert (Hb : x < 256) by (decompose [or] H; match goal with E : (_, _, _) = _ |- _ => injection E as -> -> -> end; lia).
  set (f := fun y => if y <? m then (hb + y <? 256) && (nth (N.to_nat (hb + y)) utf8LengthTab 0 =? N.of_nat n) &&
      (N.land (hb + y) (N.shiftr 0x1F (N.of_nat (n - 2))) =? y) else true).
  assert (G : forall y, y < 256 -> f y = true).
  { subst f. decompose [or] H; match goal with E : (_, _, _) = _ |- _ => injection E as -> -> -> end;
    refine (sweep256 _ _); vm_compute; reflexivity. }
  specialize (G x Hb). unfold f in G. destruct (N.ltb_spec x m); lia.
Qed.

Lemma pad_app : forall n a l, length a = n -> pad n (a ++ l) = a.
Proof.
  intros n a l H. unfold pad. rewrite <- app_assoc. subst n.
  rewrite firstn_app, Nat.sub_diag, firstn_all. cbn [firstn]. apply app_nil_r.
Qed.

Lemma skipn_app_exact : forall {A} n (a l : list A), length a = n -> skipn n (a ++ l) = l.
Proof. intros A n a l H. subst n. rewrite skipn_app, Nat.sub_diag, skipn_all. reflexivity. Qed.

(** what a reader sees at the start of the encoding of [c] *)
Definition uchr_of (cs : charset) (c : N) : uchr :=
  mkU (if c <? 128 then c else 255) c (cs_print cs c) (N.of_nat (length (cs_print cs c))).

Lemma dec_utf8_multi : forall n hb m x0 xs l,
  ((n, hb, m) = (2%nat, 192, 32) \/ (n, hb, m) = (3%nat, 224, 16)
    \/ (n, hb, m) = (4%nat, 240, 8) \/ (n, hb, m) = (5%nat, 248, 4) \/ (n, hb, m) = (6%nat, 252, 2)) ->
  x0 < m -> length xs = (n - 1)%nat -> Forall (fun x => x < 64) xs ->
  fold_left (fun a x => a * 64 + x) xs x0 < 2 ^ 32 ->
  dec UTF8 ((hb + x0 :: map (fun x => 128 + x) xs) ++ l) =
  mkU 255 (fold_left (fun a x => a * 64 + x) xs x0) (hb + x0 :: map (fun x => 128 + x) xs) (N.of_nat n).
Proof.
  intros n hb m x0 xs l Hn Hx0 Hlen Hxs Hv.
  destruct (lead_byte n hb m Hn x0 Hx0) as [Hb [Htab Hland]].
  assert (Hn2 : (2 <= n <= 6)%nat /\ 192 <= hb).
  { decompose [or] Hn; match goal with E : (_, _, _) = _ |- _ => injection E as -> -> -> end; lia. }
  assert (Hc : clen UTF8 ((hb + x0 :: map (fun x => 128 + x) xs) ++ l) = n).
  { cbn [clen nb nth app]. rewrite Htab. lia. }
  unfold dec. rewrite Hc. f_equal.
  - cbn [casc nb nth app]. destruct (N.ltb_spec 127 (hb + x0)); [reflexivity|lia].
  - unfold cval. rewrite Hc. unfold utf8_value_of.
    set (e := hb + x0 :: map (fun x => 128 + x) xs) in *.
    assert (Hel : length e = n) by (unfold e; cbn [length]; rewrite map_length; lia).
    rewrite (nth_pad 8 (e ++ l) 0) by lia. unfold nb. change (nth 0 (e ++ l) 0) with (hb + x0).
    destruct (N.ltb_spec 127 (hb + x0)); [|lia].
    destruct (Nat.ltb_spec n 2); [lia|].
    rewrite Hland.
    assert (Ht : firstn (n - 1) (tl (pad 8 (e ++ l))) = map (fun x => 128 + x) xs).
    { unfold pad. unfold e. cbn [app].
      match goal with |- context [tl (firstn 8 (?h :: ?t))] => change (tl (firstn 8 (h :: t))) with (firstn 7 t) end.
      rewrite firstn_firstn. replace (Nat.min (n - 1) 7) with (n - 1)%nat by lia.
      rewrite <- app_assoc, firstn_app, map_length.
      replace (n - 1 - length xs)%nat with 0%nat by lia. cbn [firstn]. rewrite app_nil_r.
      apply firstn_all2. rewrite map_length. lia. }
    rewrite Ht. apply utf8_loop_cont; auto.
  - apply pad_app. cbn [length]. rewrite map_length. lia.
Qed.

Lemma dec_utf8 : forall c l, c < 2 ^ 31 -> dec UTF8 (utf8_print c ++ l) = uchr_of UTF8 c.
Proof.
  intros c l Hc. unfold uchr_of. cbn [cs_print]. rewrite utf8_print_spec by auto.
  change (2 ^ 31) with 2147483648 in Hc. unfold spec_utf8.
  change (2 ^ 7) with 128. change (2 ^ 11) with 2048. change (2 ^ 16) with 65536.
  change (2 ^ 21) with 2097152. change (2 ^ 26) with 67108864.
  change (64 ^ 0) with 1. change (64 ^ 1) with 64. change (64 ^ 2) with 4096.
  change (64 ^ 3) with 262144. change (64 ^ 4) with 16777216. change (64 ^ 5) with 1073741824.
  destruct (N.ltb_spec c 128) as [H1|H1].
  { unfold dec, uchr_of. cbn [clen casc cval nb nth app length].
    assert (Ht : nth (N.to_nat c) utf8LengthTab 0 = 1).
    { pose proof (sweep256 (fun y => if y <? 128 then nth (N.to_nat y) utf8LengthTab 0 =? 1 else true)
                ltac:(vm_compute; reflexivity) c ltac:(lia)) as H.
      cbn beta in H. destruct (N.ltb_spec c 128); lia. }
    rewrite Ht. change (Nat.max 1 (N.to_nat 1)) with 1%nat. f_equal.
    - destruct (N.ltb_spec 127 c); [lia|reflexivity].
    - unfold utf8_value_of. rewrite (nth_pad 8 (c :: l) 0) by lia. unfold nb. cbn [nth].
      destruct (N.ltb_spec 127 c); [lia|reflexivity]. }
  destruct (N.ltb_spec c 2048) as [H2|H2].
  { pose proof (dec_utf8_multi 2 192 32 (c / 64) [c / 1 mod 64] l ltac:(tauto)) as H.
    cbn [map length fold_left] in H. rewrite H; [|lia|reflexivity|repeat constructor; lia|lia].
    f_equal. lia. }
  destruct (N.ltb_spec c 65536) as [H3|H3].
  { pose proof (dec_utf8_multi 3 224 16 (c / 4096) [c / 64 mod 64; c / 1 mod 64] l ltac:(tauto)) as H.
    cbn [map length fold_left] in H. rewrite H; [|lia|reflexivity|repeat constructor; lia|lia].
    f_equal. lia. }
  destruct (N.ltb_spec c 2097152) as [H4|H4].
  { pose proof (dec_utf8_multi 4 240 8 (c / 262144) [c / 4096 mod 64; c / 64 mod 64; c / 1 mod 64] l ltac:(tauto)) as H.
    cbn [map length fold_left] in H. rewrite H; [|lia|reflexivity|repeat constructor; lia|lia].
    f_equal. lia. }
  destruct (N.ltb_spec c 67108864) as [H5|H5].
  { pose proof (dec_utf8_multi 5 248 4 (c / 16777216) [c / 262144 mod 64; c / 4096 mod 64; c / 64 mod 64; c / 1 mod 64] l ltac:(tauto)) as H.
    cbn [map length fold_left] in H. rewrite H; [|lia|reflexivity|repeat constructor; lia|lia].
    f_equal. lia. }
  pose proof (dec_utf8_multi 6 252 2 (c / 1073741824) [c / 16777216 mod 64; c / 262144 mod 64; c / 4096 mod 64; c / 64 mod 64; c / 1 mod 64] l ltac:(tauto)) as H.
  cbn [map length fold_left] in H. rewrite H; [|lia|reflexivity|repeat constructor; lia|lia].
  f_equal. lia.
Qed.

(** ** 16 and 32 bit units *)
Lemma u8_small : forall x, u8 x < 256.
Proof. intros x. unfold u8. change (2 ^ 8) with 256. lia. Qed.

Lemma u8_mod : forall x, u8 x = x mod 256.
Proof. reflexivity. Qed.

Lemma print16_spec : forall be u, u < 65536 -> print16 be u = spec_unit16 be u.
Proof.
  intros be u H. unfold print16, spec_unit16.
  destruct be; cbv zeta; rewrite !N.shiftr_div_pow2, !u8_mod; change (2 ^ 8) with 256;
    change (2 ^ 0) with 1; repeat (f_equal; try lia).
Qed.

Lemma unit16_bytes : forall be u l k, u < 65536 ->
  nb (spec_unit16 be u ++ l) (msb be) = u / 256 /\
  nb (spec_unit16 be u ++ l) (lsb be) = u mod 256 /\
  nb (spec_unit16 be u ++ l) (2 + k) = nb l k /\
  length (spec_unit16 be u) = 2%nat.
Proof. intros [|] u l k H; repeat split. Qed.

Lemma sub32_ge : forall x y, y <= x < 2 ^ 32 -> sub32 x y = x - y.
Proof.
  intros x y H. unfold sub32, u32. change (2 ^ 32) with 4294967296 in *.
  rewrite (N.mod_small y) by lia. lia.
Qed.
Lemma sub32_lt : forall x y, x < y < 2 ^ 32 -> sub32 x y = 2 ^ 32 + x - y.
Proof.
  intros x y H. unfold sub32, u32. change (2 ^ 32) with 4294967296 in *.
  rewrite (N.mod_small y) by lia. rewrite N.mod_small; lia.
Qed.

Lemma utf16_size_2 : forall m, m < 256 -> ~ (0xD8 <= m < 0xDC) -> utf16_size_of m = 2%nat.
Proof.
  intros m Hm H. unfold utf16_size_of.
  destruct (N.ltb_spec 3 (sub32 m 0xD8)) as [E|E]; [reflexivity|].
  destruct (N.lt_ge_cases m 0xD8).
  - rewrite sub32_lt in E by lia. change (2 ^ 32) with 4294967296 in *. lia.
  - rewrite sub32_ge in E by lia. lia.
Qed.
Lemma utf16_size_4 : forall m, 0xD8 <= m < 0xDC -> utf16_size_of m = 4%nat.
Proof.
  intros m H. unfold utf16_size_of.
  destruct (N.ltb_spec 3 (sub32 m 0xD8)) as [E|E]; [|reflexivity].
  rewrite sub32_ge in E by lia. lia.
Qed.

Lemma ascii_of_ifc : forall c, ascii_of c = if c <? 128 then c else 255.
Proof. intros c. unfold ascii_of. destruct (N.ltb_spec 127 c), (N.ltb_spec c 128); lia. Qed.

Lemma bmp_value : forall be u l, u < 65536 ->
  u32 (N.shiftl (nth (msb be) (pad 8 (spec_unit16 be u ++ l)) 0) 8 +
       nth (lsb be) (pad 8 (spec_unit16 be u ++ l)) 0) = u.
Proof.
  intros be u l H. rewrite !nth_pad by (destruct be; cbn; lia).
  destruct (unit16_bytes be u l 0 H) as [E1 [E2 _]]. rewrite E1, E2.
  rewrite N.shiftl_mul_pow2. unfold u32. change (2 ^ 8) with 256. change (2 ^ 32) with 4294967296. lia.
Qed.

Lemma dec_utf16 : forall be c l, representable (UTF16 be) c ->
  cs_print (UTF16 be) c = spec_utf16 be c /\ dec (UTF16 be) (spec_utf16 be c ++ l) = uchr_of (UTF16 be) c.
Proof.
  intros be c l [Hc Hs].
  assert (Hp : cs_print (UTF16 be) c = spec_utf16 be c).
  { cbn [cs_print]. unfold utf16_print, spec_utf16.
    destruct (N.leb_spec c 0xFFFF) as [H|H]; destruct (N.ltb_spec c 0x10000) as [H2|H2]; try lia.
    - destruct (N.ltb_spec (sub32 c 0xD800) 0x400) as [E|E]; [exfalso|apply print16_spec; lia].
      destruct (N.lt_ge_cases c 0xD800).
      + rewrite sub32_lt in E by lia. change (2 ^ 32) with 4294967296 in *. lia.
      + rewrite sub32_ge in E by lia. lia.
    - destruct (N.leb_spec c 0x10FFFF); [|lia]. cbv zeta. unfold u16. change (2 ^ 16) with 65536.
      rewrite !print16_spec by lia. f_equal; f_equal; lia. }
  split; [exact Hp|]. unfold uchr_of. rewrite Hp. unfold spec_utf16.
  destruct (N.ltb_spec c 0x10000) as [H|H].
  - destruct (unit16_bytes be c l 0 ltac:(lia)) as [E1 [E2 [_ E3]]].
    assert (Hz : utf16_size_of (c / 256) = 2%nat) by (apply utf16_size_2; lia).
    assert (Hv : cval (UTF16 be) (spec_unit16 be c ++ l) = c).
    { cbn [cval clen]. rewrite E1, Hz. unfold utf16_value_of. cbn [Nat.eqb]. apply bmp_value. lia. }
    unfold dec. cbn [casc clen]. rewrite Hv, E1, Hz, ascii_of_ifc, E3. f_equal.
    apply pad_app. exact E3.
  - set (hi := 0xD800 + (c - 0x10000) / 1024). set (lo := 0xDC00 + (c - 0x10000) mod 1024).
    assert (Hhi : 0xD800 <= hi < 0xDC00) by (subst hi; lia).
    assert (Hlo : 0xDC00 <= lo < 0xE000) by (subst lo; lia).
    rewrite <- app_assoc.
    destruct (unit16_bytes be hi (spec_unit16 be lo ++ l) 0 ltac:(lia)) as [E1 [E2 [_ E3]]].
    destruct (unit16_bytes be lo l 0 ltac:(lia)) as [F1 [F2 [_ F3]]].
    assert (Hz : utf16_size_of (hi / 256) = 4%nat) by (apply utf16_size_4; lia).
    assert (Hv : cval (UTF16 be) (spec_unit16 be hi ++ spec_unit16 be lo ++ l) = c).
    { cbn [cval clen]. rewrite E1, Hz. unfold utf16_value_of. cbn [Nat.eqb].
      rewrite bmp_value by lia. rewrite !nth_pad by (destruct be; cbn; lia).
      destruct (unit16_bytes be hi (spec_unit16 be lo ++ l) (msb be) ltac:(lia)) as [_ [_ [G1 _]]].
      destruct (unit16_bytes be hi (spec_unit16 be lo ++ l) (lsb be) ltac:(lia)) as [_ [_ [G2 _]]].
      rewrite G1, G2, F1, F2.
      destruct (Z.ltb_spec 3 (Z.of_N (lo / 256) - 0xDC)); [lia|].
      rewrite N.shiftl_mul_pow2. unfold u16. change (2 ^ 8) with 256. change (2 ^ 16) with 65536.
      rewrite (sub32_ge hi) by (change (2 ^ 32) with 4294967296; lia).
      unfold u32 at 2. change (2 ^ 32) with 4294967296.
      rewrite (N.mod_small ((hi - 55296) * 1024)) by lia.
      replace ((lo / 256 * 256) mod 65536 + lo mod 256) with lo by lia.
      rewrite (N.mod_small lo) by lia.
      rewrite sub32_ge by (change (2 ^ 32) with 4294967296; lia).
      unfold u32. change (2 ^ 32) with 4294967296. subst hi lo. lia. }
    unfold dec. cbn [casc clen]. rewrite Hv, E1, Hz, ascii_of_ifc, app_length, E3, F3. f_equal.
    rewrite app_assoc. apply pad_app. rewrite app_length, E3, F3. reflexivity.
Qed.

Lemma dec_ucs2 : forall be c l, c < 2 ^ 16 ->
  cs_print (UCS2 be) c = spec_ucs2 be c /\ dec (UCS2 be) (spec_ucs2 be c ++ l) = uchr_of (UCS2 be) c.
Proof.
  intros be c l Hc. change (2 ^ 16) with 65536 in Hc. unfold spec_ucs2.
  assert (Hp : cs_print (UCS2 be) c = spec_unit16 be c).
  { cbn [cs_print]. unfold ucs2_print. destruct (N.ltb_spec 0xFFFF c); [lia|]. apply print16_spec. lia. }
  split; [exact Hp|]. unfold uchr_of. rewrite Hp.
  destruct (unit16_bytes be c l 0 ltac:(lia)) as [E1 [E2 [_ E3]]].
  assert (Hv : cval (UCS2 be) (spec_unit16 be c ++ l) = c).
  { cbn [cval]. unfold ucs2_value_of. apply bmp_value. lia. }
  unfold dec. cbn [casc clen]. rewrite Hv, ascii_of_ifc, E3. f_equal. apply pad_app. exact E3.
Qed.

Lemma dec_ucs4 : forall be c l, c < 2 ^ 32 ->
  cs_print (UCS4 be) c = spec_ucs4 be c /\ dec (UCS4 be) (spec_ucs4 be c ++ l) = uchr_of (UCS4 be) c.
Proof.
  intros be c l Hc. change (2 ^ 32) with 4294967296 in Hc.
  assert (Hp : cs_print (UCS4 be) c = spec_ucs4 be c).
  { cbn [cs_print]. unfold ucs4_print, spec_ucs4. destruct be; cbn [map rev app];
      rewrite !N.shiftr_div_pow2, !u8_mod; change (2 ^ 24) with 16777216; change (2 ^ 16) with 65536;
      change (2 ^ 8) with 256; change (2 ^ 0) with 1; change (256 ^ 3) with 16777216;
      change (256 ^ 2) with 65536; repeat (f_equal; try lia). }
  split; [exact Hp|]. unfold uchr_of. rewrite Hp.
  assert (E3 : length (spec_ucs4 be c) = 4%nat) by (destruct be; reflexivity).
  assert (Hv : cval (UCS4 be) (spec_ucs4 be c ++ l) = c).
  { cbn [cval]. unfold ucs4_value_of. rewrite !nth_pad by (destruct be; cbn; lia).
    assert (B : forall k, nb (spec_ucs4 be c ++ l) (ucs4_b be k) =
      match k with 0%nat => c mod 256 | 1%nat => c / 256 mod 256 | 2%nat => c / 256 ^ 2 mod 256
      | 3%nat => c / 256 ^ 3 | _ => nb (spec_ucs4 be c ++ l) (ucs4_b be k) end).
    { intros [|[|[|[|k]]]]; destruct be; reflexivity. }
    rewrite !B. rewrite !N.shiftl_mul_pow2. unfold u32. change (2 ^ 8) with 256.
    change (2 ^ 32) with 4294967296. change (256 ^ 3) with 16777216. change (256 ^ 2) with 65536.
    assert (Hd : c = c / 16777216 * 16777216 + c / 65536 mod 256 * 65536 + c / 256 mod 256 * 256 + c mod 256
                 /\ c / 16777216 < 256) by lia.
    assert (Hs : c mod 256 < 256 /\ c / 256 mod 256 < 256 /\ c / 65536 mod 256 < 256) by lia.
    destruct Hd as [Hd Hd3]. destruct Hs as [Hs0 [Hs1 Hs2]].
    set (d0 := c mod 256) in *. set (d1 := c / 256 mod 256) in *. set (d2 := c / 65536 mod 256) in *.
    set (d3 := c / 16777216) in *. clearbody d0 d1 d2 d3.
    rewrite (N.mod_small (d3 * 256)) by lia. rewrite (N.mod_small (d3 * 256 + d2)) by lia.
    rewrite (N.mod_small ((d3 * 256 + d2) * 256)) by lia. rewrite (N.mod_small ((d3 * 256 + d2) * 256 + d1)) by lia.
    rewrite (N.mod_small (((d3 * 256 + d2) * 256 + d1) * 256)) by lia. rewrite N.mod_small by lia. lia. }
  unfold dec. cbn [casc clen]. rewrite Hv, ascii_of_ifc, E3. f_equal. apply pad_app. exact E3.
Qed.

Lemma iso_print_low : forall p c, 1 <= p <= 9 -> representable (IsoLatin p) c ->
  exists b, iso_print p c = [b] /\ spec_encode (IsoLatin p) c = [b] /\ ucharcode p b = Some c /\ b < 256 /\ (b <? 128) = (c <? 128).
Proof.
  intros p c Hp Hc. cbn [representable spec_encode] in *.
  assert (H : forallb (fun q => forallb (fun c =>
     implb ((0 <? c) && (c <? 128) || ((128 <=? c) && match iso8859_byte q c with Some b => iso8859_right q b | None => false end))
     match iso_print q c, (if c <? 128 then [c] else match iso8859_byte q c with Some b => [b] | None => [] end) with
     | [b], [b'] => (b =? b') && (b <? 256) && Bool.eqb (b <? 128) (c <? 128) && match ucharcode q b with Some d => (d =? c) | _ => false end
     | _, _ => false end)
     bytes256) [1;2;3;4;5;6;7;8;9] = true) by (vm_compute; reflexivity).
  rewrite forallb_forall in H.
  assert (Hin : In p [1;2;3;4;5;6;7;8;9]) by (cbn [In]; lia).
  assert (Hlt : c < 256) by (destruct Hc as [Hc|[Hc _]]; lia).
  pose proof (sweep256 _ (H p Hin) c Hlt) as G. cbn beta in G. clear H.
  assert (E : ((0 <? c) && (c <? 128) || ((128 <=? c) && match iso8859_byte p c with Some b => iso8859_right p b | None => false end)) = true).
  { destruct Hc as [Hc|[Hc [b [-> ->]]]]; lia. }
  rewrite E in G. cbn [implb] in G.
  destruct (iso_print p c) as [|d [|]]; try discriminate G.
  destruct (if c <? 128 then [c] else match iso8859_byte p c with Some b => [b] | None => [] end) as [|d' [|]]; try discriminate G.
  exists d. split; [reflexivity|]. split; [f_equal; lia|]. split; [|split; [lia|]].
  - destruct (ucharcode p d); [f_equal; lia|lia].
  - destruct (d <? 128), (c <? 128); cbn [Bool.eqb] in G; try reflexivity; lia.
Qed.

Lemma dec_iso : forall p c l, 1 <= p <= 9 -> representable (IsoLatin p) c ->
  cs_print (IsoLatin p) c = spec_encode (IsoLatin p) c /\ dec (IsoLatin p) (cs_print (IsoLatin p) c ++ l) = uchr_of (IsoLatin p) c.
Proof.
  intros p c l Hp Hc.
  destruct (iso_print_low p c Hp Hc) as [b [E1 [E2 [E3 [E4 E5]]]]]. cbn [cs_print]. split; [congruence|].
  unfold uchr_of, dec. cbn [cs_print casc cval clen]. rewrite E1. cbn [app]. unfold nb. cbn [nth]. rewrite E3. f_equal.
  assert (b < 128 -> b = c). { intros Hb. unfold ucharcode in E3. destruct (N.ltb_spec b 128); [|lia]. congruence. }
  destruct (N.ltb_spec 127 b), (N.ltb_spec c 128); lia.
Qed.

(** ** all character sets *)
Lemma print_spec : forall cs c, cs_constructible cs = true -> representable cs c ->
  cs_print cs c = spec_encode cs c.
Proof.
  intros cs c Hcs Hr. destruct cs as [|be|be|be|p]; cbn [spec_encode].
  - apply utf8_print_spec. exact Hr.
  - apply (dec_utf16 be c [] Hr).
  - apply (dec_ucs2 be c [] Hr).
  - apply (dec_ucs4 be c [] Hr).
  - cbn [cs_constructible] in Hcs. apply (dec_iso p c []); [lia|exact Hr].
Qed.

Lemma dec_print : forall cs c l, cs_constructible cs = true -> representable cs c ->
  dec cs (cs_print cs c ++ l) = uchr_of cs c.
Proof.
  intros cs c l Hcs Hr. destruct cs as [|be|be|be|p].
  - apply dec_utf8. exact Hr.
  - destruct (dec_utf16 be c l Hr) as [E1 E2]. rewrite E1. exact E2.
  - destruct (dec_ucs2 be c l Hr) as [E1 E2]. rewrite E1. exact E2.
  - destruct (dec_ucs4 be c l Hr) as [E1 E2]. rewrite E1. exact E2.
  - cbn [cs_constructible] in Hcs. apply (dec_iso p c l ltac:(lia) Hr).
Qed.

Lemma clen_print : forall cs c l, cs_constructible cs = true -> representable cs c ->
  clen cs (cs_print cs c ++ l) = length (cs_print cs c).
Proof.
  intros cs c l Hcs Hr. pose proof (f_equal u_len (dec_print cs c l Hcs Hr)) as H.
  cbn [u_len dec uchr_of] in H. lia.
Qed.

Lemma print_nonempty : forall cs c, cs_constructible cs = true -> representable cs c -> cs_print cs c <> [].
Proof.
  intros cs c Hcs Hr E. pose proof (clen_print cs c [0;0;0;0;0;0;0;0] Hcs Hr) as H. rewrite E in H.
  pose proof (clen_bounds cs ([] ++ [0;0;0;0;0;0;0;0])) as B. cbn [length] in H. lia.
Qed.

(** the characters of a text written with print() *)
Lemma units_print : forall cs cl, cs_constructible cs = true -> Forall (representable cs) cl ->
  units cs (flat_map (cs_print cs) cl) = map (uchr_of cs) cl.
Proof.
  intros cs cl Hcs Hr. induction Hr as [|c cl Hc Hr IH]; [reflexivity|].
  cbn [flat_map map]. rewrite <- IH.
  pose proof (print_nonempty cs c Hcs Hc) as Hne.
  pose proof (clen_print cs c (flat_map (cs_print cs) cl) Hcs Hc) as Hl.
  pose proof (dec_print cs c (flat_map (cs_print cs) cl) Hcs Hc) as Hd.
  assert (Hn2 : cs_print cs c ++ flat_map (cs_print cs) cl <> []).
  { intros E. apply app_eq_nil in E. tauto. }
  destruct (cs_print cs c ++ flat_map (cs_print cs) cl) as [|b l'] eqn:E; [congruence|].
  rewrite units_cons. rewrite Hd, Hl, <- E. f_equal.
  rewrite skipn_app_exact by reflexivity. reflexivity.
Qed.
