(** Reading of arbitrary bytes (proofs). *)
From Verif Require Import Base Iter CharMap CodePages Charset TextScanner Ideal ReaderSim ScannerSim IterSim
  CharsetSpec CharsetProofs CharsetMore ReadSpec ReadProofs XmlScanner ScanSpec ScanProofs CharReader BytesSpec.

Lemma unit_ok : forall be l i, unit_at be l i = 256 * nb l (i + msb be) + nb l (i + lsb be).
Proof. intros [|] l i; unfold unit_at, byte_at, nb; cbn [msb lsb]; rewrite ?Nat.add_0_r, ?Nat.add_1_r; lia. Qed.

Lemma iso_read_ok : forall p b, 1 <= p <= 9 -> b < 256 -> match ucharcode p b with Some v => v | None => 0 end = iso_read p b.
Proof.
  intros p b Hp Hb.
  assert (Hsw : forallb (fun q => forallb (fun b => match ucharcode q b with Some c => c | None => 0 end =? iso_read q b) bytes256) [1;2;3;4;5;6;7;8;9] = true) by (vm_compute; reflexivity).
  rewrite forallb_forall in Hsw. specialize (Hsw p (pages_in p ltac:(lia))). pose proof (sweep256 _ Hsw b Hb) as G. cbn beta in G. apply N.eqb_eq. exact G.
Qed.

(** the character at the start of a text *)
Lemma char_at_ok : forall cs l, cs_constructible cs = true -> Forall isByte l -> cval cs l = fst (char_at cs l) /\ clen cs l = snd (char_at cs l).
Proof.
  intros cs l Hcs Hl. destruct cs as [|be|be|be|p].
  - apply utf8_read_spec. exact Hl.
  - cbn [cval clen char_at]. unfold utf16_value_of. rewrite !nth_pad by (destruct be; cbn; lia). rewrite (unit_ok be l 0), (unit_ok be l 2). cbn [Nat.add].
    pose proof (nb_byte l (msb be) Hl) as B1. pose proof (nb_byte l (lsb be) Hl) as B2. pose proof (nb_byte l (2 + msb be) Hl) as B3. pose proof (nb_byte l (2 + lsb be) Hl) as B4.
    cbn [Nat.add] in B3, B4. generalize dependent (nb l (S (S (msb be)))). generalize dependent (nb l (S (S (lsb be)))). generalize dependent (nb l (msb be)). generalize dependent (nb l (lsb be)).
    intros b2 H2 b1 H1 b4 H4 b3 H3. clear Hl l be Hcs. rewrite N.shiftl_mul_pow2. change (2 ^ 8) with 256.
    destruct (N.leb_spec 0xD800 (256 * b1 + b2)) as [A1|A1]; cbn [andb]; [destruct (N.ltb_spec (256 * b1 + b2) 0xDC00) as [A2|A2]|].
    + rewrite utf16_size_4 by lia. cbn [fst snd Nat.eqb]. split; [|reflexivity].
      assert (E1 : u32 (b1 * 256 + b2) = 256 * b1 + b2) by (unfold u32; rewrite N.mod_small by (change (2^32) with 4294967296; lia); lia). rewrite E1.
      rewrite (sub32_ge (256 * b1 + b2)) by (change (2 ^ 32) with 4294967296; lia).
      destruct (Z.ltb_spec 3 (Z.of_N b3 - 0xDC)); destruct (N.leb_spec 0xE000 (256 * b3 + b4)); try lia.
      rewrite N.shiftl_mul_pow2. unfold u16. change (2 ^ 8) with 256. change (2 ^ 16) with 65536.
      rewrite (N.mod_small (b3 * 256)) by lia. rewrite (N.mod_small (b3 * 256 + b4)) by lia.
      unfold u32 at 2. rewrite N.mod_small by (change (2 ^ 32) with 4294967296; lia).
      unfold sub32, u32. change (2 ^ 32) with 4294967296. rewrite (N.mod_small 0xDC00) by lia. rewrite N.add_mod_idemp_l by discriminate.
      replace ((256 * b1 + b2 - 55296) * 1024 + (b3 * 256 + b4) + (4294967296 - 56320) + 65536) with ((256 * b1 + b2 - 55296) * 1024 + (256 * b3 + b4) + 65536 - 56320 + 1 * 4294967296) by lia.
      rewrite N.mod_add by discriminate. apply N.mod_small. lia.
    + rewrite utf16_size_2 by lia. cbn [fst snd Nat.eqb]. split; [|reflexivity]. unfold u32. rewrite N.mod_small by (change (2^32) with 4294967296; lia). lia.
    + rewrite utf16_size_2 by lia. cbn [fst snd Nat.eqb]. split; [|reflexivity]. unfold u32. rewrite N.mod_small by (change (2^32) with 4294967296; lia). lia.
  - cbn [cval clen char_at fst snd]. split; [|reflexivity]. unfold ucs2_value_of. rewrite !nth_pad by (destruct be; cbn; lia). rewrite (unit_ok be l 0). cbn [Nat.add].
    pose proof (nb_byte l (msb be) Hl). pose proof (nb_byte l (lsb be) Hl). rewrite N.shiftl_mul_pow2. change (2 ^ 8) with 256.
    unfold u32. rewrite N.mod_small by (change (2^32) with 4294967296; lia). lia.
  - cbn [cval clen char_at fst snd]. split; [|reflexivity]. unfold ucs4_value_of. rewrite !nth_pad by (destruct be; cbn; lia). rewrite (unit_ok be l 0), (unit_ok be l 2).
    pose proof (nb_byte l 0 Hl). pose proof (nb_byte l 1 Hl). pose proof (nb_byte l 2 Hl). pose proof (nb_byte l 3 Hl).
    destruct be; cbn [ucs4_b msb lsb Nat.add Nat.sub]; rewrite !N.shiftl_mul_pow2; change (2 ^ 8) with 256; unfold u32; change (2 ^ 32) with 4294967296;
      repeat (rewrite N.mod_small by lia); lia.
  - cbn [cval clen char_at fst snd]. split; [|reflexivity]. apply iso_read_ok; [cbn [cs_constructible] in Hcs; lia|]. apply nb_byte. exact Hl.
Qed.
Lemma vals_ok : forall cs n l, cs_constructible cs = true -> Forall isByte l -> vals cs n l = chars_at cs n l /\ lens cs n l = size_at cs n l.
Proof.
  intros cs. induction n as [|n IH]; intros l Hcs Hl; cbn [vals chars_at lens size_at]; [auto|].
  destruct (char_at_ok cs l Hcs Hl) as [E1 E2]. rewrite E1, E2.
  destruct (IH (skipn (snd (char_at cs l)) l)) as [E3 E4]; [exact Hcs|apply skipn_bytes; auto|].
  rewrite E3, E4. auto.
Qed.

(** all characters *)
Definition of_unit (u : uchr) : list N * N := (u_raw u, u_val u).
Lemma characters_ok : forall cs l, cs_constructible cs = true -> Forall isByte l -> characters cs l = map of_unit (units cs l).
Proof.
  intros cs l Hcs. unfold characters, units. generalize (length l) as n. intros n. revert l.
  induction n as [|n IH]; intros l Hl; [reflexivity|]. destruct l as [|b l]; [reflexivity|]. cbn [characters_n units_n map].
  destruct (char_at_ok cs (b :: l) Hcs Hl) as [E1 E2]. rewrite <- E1, <- E2. f_equal. apply IH. apply skipn_bytes. exact Hl.
Qed.

Lemma ascii_ok : forall cs l, cs_constructible cs = true -> Forall isByte l -> l <> [] ->
  casc cs l = (if is_ascii cs (of_unit (dec cs l)) then cval cs l else 255) /\ (is_ascii cs (of_unit (dec cs l)) = true -> cval cs l < 128 /\ (cval cs l <> 0 -> cs_print cs (cval cs l) = pad (clen cs l) l)).
Proof.
  intros cs l Hcs Hl Hne. destruct cs as [|be|be|be|p]; unfold of_unit, dec; cbn [u_raw u_val is_ascii fst snd].
  - destruct l as [|b l]; [congruence|]. cbn [clen cval casc]. unfold nb. cbn [nth].
    assert (Hh : hd 0 (pad (Nat.max 1 (N.to_nat (nth (N.to_nat b) utf8LengthTab 0))) (b :: l)) = b).
    { destruct (Nat.max 1 (N.to_nat (nth (N.to_nat b) utf8LengthTab 0))) eqn:E; [lia|]. reflexivity. }
    rewrite Hh. inversion Hl as [|? ? Hb ?]; subst. unfold isByte in Hb. destruct (N.ltb_spec b 128) as [A|A].
    + replace (127 <? b) with false by lia. rewrite low_len by lia.
      assert (V : utf8_value_of (pad 8 (b :: l)) 1 = b).
      { unfold utf8_value_of. rewrite nth_pad by lia. unfold nb. cbn [nth]. replace (127 <? b) with false by lia. reflexivity. }
      rewrite V. split; [reflexivity|]. intros _. split; [exact A|]. intros _. rewrite (print_spec UTF8 b eq_refl) by (cbn [representable]; change (2^31) with 2147483648; lia).
      cbn [spec_encode]. unfold spec_utf8. change (2 ^ 7) with 128. replace (b <? 128) with true by lia. reflexivity.
    + replace (127 <? b) with true by lia. split; [reflexivity|discriminate].
  - cbn [casc]. rewrite ascii_of_ifc. destruct (char_at_ok (UTF16 be) l Hcs Hl) as [E1 E2]. split; [reflexivity|]. intros A. apply N.ltb_lt in A. split; [exact A|]. intros _.
    rewrite (print_spec (UTF16 be)) by (cbn [representable]; auto; lia). rewrite E1 in A |- *. rewrite E2. cbn [char_at] in A |- *. rewrite (unit_ok be l 0), (unit_ok be l 2) in *. cbn [Nat.add] in *.
    destruct ((0xD800 <=? 256 * nb l (msb be) + nb l (lsb be)) && (256 * nb l (msb be) + nb l (lsb be) <? 0xDC00)) eqn:E; cbn [fst snd] in *.
    + exfalso. destruct (0xE000 <=? _) in A; [lia|]. apply andb_prop in E. lia.
    + cbn [spec_encode]. unfold spec_utf16. replace (256 * nb l (msb be) + nb l (lsb be) <? 0x10000) with true by lia.
      assert (B1 : nb l (msb be) = 0) by lia. rewrite B1 in *. pose proof (nb_byte l (lsb be) Hl). unfold spec_unit16.
      destruct l as [|x l]; [congruence|]. destruct l as [|y l]; unfold pad, nb in *; destruct be; cbn [msb lsb nth firstn app repeat] in *; subst; repeat (f_equal; try lia).
  - cbn [casc]. rewrite ascii_of_ifc. destruct (char_at_ok (UCS2 be) l Hcs Hl) as [E1 E2]. split; [reflexivity|]. intros A. apply N.ltb_lt in A. split; [exact A|]. intros _.
    rewrite (print_spec (UCS2 be)) by (cbn [representable]; auto; change (2^16) with 65536; lia). rewrite E1 in A |- *. rewrite E2. cbn [char_at fst snd] in A |- *. rewrite (unit_ok be l 0) in *. cbn [Nat.add] in *.
    cbn [spec_encode]. unfold spec_ucs2.
    assert (B1 : nb l (msb be) = 0) by lia. rewrite B1 in *. pose proof (nb_byte l (lsb be) Hl). unfold spec_unit16.
    destruct l as [|x l]; [congruence|]. destruct l as [|y l]; unfold pad, nb in *; destruct be; cbn [msb lsb nth firstn app repeat] in *; subst; repeat (f_equal; try lia).
  - cbn [casc]. rewrite ascii_of_ifc. destruct (char_at_ok (UCS4 be) l Hcs Hl) as [E1 E2]. split; [reflexivity|]. intros A. apply N.ltb_lt in A. split; [exact A|]. intros _.
    rewrite (print_spec (UCS4 be)) by (cbn [representable]; auto; change (2^32) with 4294967296; lia). rewrite E1 in A |- *. rewrite E2. cbn [char_at fst snd] in A |- *.
    cbn [spec_encode]. unfold spec_ucs4, unit_at, byte_at in *.
    pose proof (nb_byte l 0 Hl) as B0. pose proof (nb_byte l 1 Hl) as B1. pose proof (nb_byte l 2 Hl) as B2. pose proof (nb_byte l 3 Hl) as B3. unfold nb in *.
    assert (P : pad 4 l = [nth 0 l 0; nth 1 l 0; nth 2 l 0; nth 3 l 0]) by (destruct l as [|? [|? [|? [|? ?]]]]; reflexivity). rewrite P.
    generalize dependent (nth 0 l 0). generalize dependent (nth 1 l 0). generalize dependent (nth 2 l 0). generalize dependent (nth 3 l 0). intros b3 H3 b2 H2 b1 H1 b0 H0 A.
    change (256 ^ 3) with 16777216. change (256 ^ 2) with 65536. intros _. destruct be.
    + assert (b0 = 0 /\ b1 = 0 /\ b2 = 0) as [-> [-> ->]] by lia. repeat (f_equal; try lia).
    + assert (b3 = 0 /\ b2 = 0 /\ b1 = 0) as [-> [-> ->]] by lia. cbn [rev app]. repeat (f_equal; try lia).
  - destruct l as [|b l]; [congruence|]. cbn [clen cval casc]. unfold nb. cbn [nth]. change (hd 0 (pad 1 (b :: l))) with b. change (pad 1 (b :: l)) with [b].
    destruct (N.ltb_spec b 128) as [A|A].
    + replace (127 <? b) with false by lia. unfold ucharcode. replace (b <? 128) with true by lia. split; [reflexivity|]. intros _. split; [exact A|]. intros Hb0.
      cbn [cs_constructible] in Hcs.
      assert (Hsw : forallb (fun q => forallb (fun b => implb ((b <? 128) && negb (b =? 0)) (if list_eq_dec N.eq_dec (cs_print (IsoLatin q) b) [b] then true else false)) bytes256) [1;2;3;4;5;6;7;8;9] = true) by (vm_compute; reflexivity).
      rewrite forallb_forall in Hsw. specialize (Hsw p (pages_in p ltac:(lia))). pose proof (sweep256 _ Hsw b ltac:(lia)) as G. cbn beta in G.
      replace ((b <? 128) && negb (b =? 0)) with true in G by lia. cbn [implb] in G. destruct (list_eq_dec N.eq_dec (cs_print (IsoLatin p) b) [b]); [assumption|discriminate].
    + replace (127 <? b) with true by lia. split; [reflexivity|discriminate].
Qed.

(** ** Texts of bytes as texts of characters *)
Lemma units_dec : forall cs l, Forall isByte l -> Forall (fun u => exists l', u = dec cs l' /\ Forall isByte l' /\ l' <> []) (units cs l).
Proof.
  intros cs l. unfold units. generalize (length l) as n. intros n. revert l. induction n as [|n IH]; intros l Hl; [constructor|].
  destruct l as [|b l]; [constructor|]. cbn [units_n]. constructor; [exists (b :: l); repeat split; auto; discriminate|]. apply IH. apply skipn_bytes. exact Hl.
Qed.
Lemma same_eqb : forall a b, cs_same_class a b && cs_is_equal a b = charset_eqb a b.
Proof.
  intros [|x|x|x|x] [|y|y|y|y]; cbn [cs_same_class cs_is_equal andb charset_eqb]; try reflexivity; destruct x, y; reflexivity.
Qed.
Definition letter_out (incs outcs : charset) (text : list N) : kout :=
  mkKo outcs (fun i => match nth_error (characters incs text) (N.to_nat i) with
                       | Some p => if charset_eqb incs outcs then fst p else cs_print outcs (snd p)
                       | None => []
                       end).
Lemma letters_code : forall incs outcs text, cs_constructible incs = true -> Forall isByte text ->
  Forall2 (ucode incs (letter_out incs outcs text)) (units incs text) (letters incs text).
Proof.
  intros incs outcs text Hcs Hb. unfold letters. pose proof (characters_ok incs text Hcs Hb) as E.
  assert (G : forall us2 us1, units incs text = us1 ++ us2 -> Forall2 (ucode incs (letter_out incs outcs text)) us2 (numbered incs (N.of_nat (length us1)) (map of_unit us2))).
  { induction us2 as [|u us2 IH]; intros us1 Eu; cbn [map numbered]; constructor.
    - pose proof (units_dec incs text Hb) as D. rewrite Eu in D. apply Forall_app in D. destruct D as [_ D]. inversion D as [|? ? [l [-> [Hl Hne]]] _]; subst.
      destruct (ascii_ok incs l Hcs Hl Hne) as [A1 A2]. change (snd (of_unit (dec incs l))) with (cval incs l).
      split; [change (u_asc (dec incs l)) with (casc incs l); rewrite A1|intros Hc0].
      + destruct (is_ascii incs (of_unit (dec incs l))); unfold kasc.
        * replace (cval incs l <? 128) with true by (destruct (A2 eq_refl); lia). reflexivity.
        * replace (2 ^ 32 + _ <? 128) with false by (change (2 ^ 32) with 4294967296; lia). reflexivity.
      + unfold copied. cbn [letter_out ko_cs]. rewrite same_eqb. destruct (is_ascii incs (of_unit (dec incs l))) eqn:Ea.
        * destruct (A2 eq_refl) as [A3 A4]. rewrite kpr_low by (change (2 ^ 32) with 4294967296; lia). cbn [letter_out ko_cs].
          destruct (charset_eqb incs outcs) eqn:Ec; [|reflexivity]. rewrite <- same_eqb in Ec. apply same_config in Ec. subst outcs. symmetry. apply A4. exact Hc0.
        * unfold kpr. replace (2 ^ 32 + N.of_nat (length us1) <? 2 ^ 32) with false by (change (2 ^ 32) with 4294967296; lia). cbn [letter_out ko_ext].
          replace (2 ^ 32 + N.of_nat (length us1) - 2 ^ 32) with (N.of_nat (length us1)) by lia. rewrite Nat2N.id, E, Eu, map_app.
          rewrite nth_error_app2 by (rewrite map_length; lia). rewrite map_length, Nat.sub_diag. reflexivity.
    - specialize (IH (us1 ++ [u])). rewrite app_length in IH. cbn [length] in IH. replace (N.of_nat (length us1) + 1) with (N.of_nat (length us1 + 1)) by lia.
      apply IH. rewrite <- app_assoc. exact Eu. }
  rewrite E. exact (G (units incs text) [] eq_refl).
Qed.
Lemma written_out : forall incs outcs text c, kpr (letter_out incs outcs text) c = written incs outcs text c.
Proof. reflexivity. Qed.
