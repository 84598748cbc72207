(** Properties of character sets, text scanner and iterators: C01-C12. *)
From Verif Require Import Base Iter CharMap CodePages Charset TextScanner Ideal ReaderSim ScannerSim IterSim
  CharsetSpec CharsetProofs CharsetMore ReadSpec ReadProofs ChunkRead IterProofs.

Ltac Zify.zify_post_hook ::= Z.div_mod_to_equations.

(** Texts printed by a character set and read with a text scanner over a SrcIterator, over a char* with at least this text in
    memory and over an IStreamIterator. *)
Definition roundtrip (cs : charset) (cl rest : list N) : Prop :=
  let text := flat_map (cs_print cs) cl in
  text = flat_map (spec_encode cs) cl /\
  (forall eom, exists t, readChars src_ops cs (length cl) (ts_make (src_make (text ++ rest) eom)) = Ret t cl /\
     ts_position src_ops t = N.of_nat (length text) mod 2 ^ 64) /\
  (exists t, readChars cptr_ops cs (length cl) (ts_make (mkCptr (text ++ rest) 0)) = Ret t cl /\
     ts_position cptr_ops t = N.of_nat (length text) mod 2 ^ 64) /\
  (forall reads bufsize,
     Forall (fun r => rd_err r = false /\ rd_data r <> [] /\ N.of_nat (length (rd_data r)) <= bufsize) reads ->
     flat_map rd_data reads = text ++ rest ->
     exists i t, istrm_make reads bufsize = Ret i tt /\
       readChars istrm_ops cs (length cl) (ts_make i) = Ret t cl).

Lemma roundtrip_all : forall cs cl rest, cs_constructible cs = true -> Forall (representable cs) cl ->
  Forall isByte rest -> roundtrip cs cl rest.
Proof.
  intros cs cl rest Hcs Hr Hrest. unfold roundtrip. cbv zeta.
  assert (Hb : Forall isByte (flat_map (cs_print cs) cl ++ rest)).
  { apply Forall_app. split; auto. apply print_bytes; auto. }
  split; [|split; [|split]].
  - clear -Hcs Hr. induction Hr as [|c cl Hc Hr IH]; [reflexivity|]. cbn [flat_map]. rewrite IH, print_spec by auto. reflexivity.
  - intros eom. destruct (readChars_print _ _ _ _ _ _ (src_rsim cs Hcs) cl rest _ _ _ Hcs Hr (src_make_rel cs _ eom Hb)) as [t [E H]].
    exists t. split; [exact E|].
    pose proof (rs_pos _ _ _ _ _ _ (src_rsim cs Hcs) _ _ H) as Hp. exact Hp.
  - destruct (readChars_print _ _ _ _ _ _ (cptr_rsim cs Hcs) cl rest _ _ _ Hcs Hr (cptr_make_rel cs _ Hb)) as [t [E H]].
    exists t. split; [exact E|].
    pose proof (rs_pos _ _ _ _ _ _ (cptr_rsim cs Hcs) _ _ H) as Hp. exact Hp.
  - intros reads bufsize Hg Ht. 
    destruct (istrm_make_rel cs reads bufsize Hg) as [i [Ei Hi]]; [rewrite Ht; exact Hb|].
    rewrite Ht in Hi.
    destruct (readChars_print _ _ _ _ _ _ (istrm_rsim cs Hcs) cl rest _ _ _ Hcs Hr Hi) as [t [E H]].
    exists i, t. auto.
Qed.

(** C01: UTF-8 *)
Theorem C01_utf8_roundtrip : forall cl rest,
  Forall (fun c => c <= 0x7FFFFFFF) cl -> Forall isByte rest -> roundtrip UTF8 cl rest.
Proof.
  intros cl rest Hc Hr. apply roundtrip_all; auto.
  eapply Forall_impl; [|exact Hc]. intros c H. cbn beta in H. cbn [representable]. change (2 ^ 31) with 2147483648. lia.
Qed.
Print Assumptions C01_utf8_roundtrip.
Example C01_case : Forall (fun c => c <= 0x7FFFFFFF) [97; 0xE4; 0x20AC; 0x1F600; 0x7FFFFFFF; 0]
  /\ flat_map (cs_print UTF8) [97; 0xE4; 0x20AC; 0x1F600] =
     [97; 0xC3; 0xA4; 0xE2; 0x82; 0xAC; 0xF0; 0x9F; 0x98; 0x80].
Proof. split; [repeat constructor; lia|vm_compute; reflexivity]. Qed.

(** C02: UTF-16 *)
Theorem C02_utf16_roundtrip : forall be cl rest,
  Forall (fun c => c <= 0x10FFFF /\ ~ (0xD800 <= c < 0xDC00)) cl -> Forall isByte rest -> roundtrip (UTF16 be) cl rest.
Proof. intros be cl rest Hc Hr. apply roundtrip_all; auto. Qed.
Print Assumptions C02_utf16_roundtrip.
Example C02_case : Forall (fun c => c <= 0x10FFFF /\ ~ (0xD800 <= c < 0xDC00)) [97; 0x20AC; 0x1F600; 0x10FFFF; 0xDC00]
  /\ flat_map (cs_print (UTF16 true)) [97; 0x1F600] = [0; 97; 0xD8; 0x3D; 0xDE; 0x00].
Proof. split; [repeat constructor; lia|vm_compute; reflexivity]. Qed.

(** C03: UCS-2, UCS-4 *)
Theorem C03_ucs2_roundtrip : forall be cl rest,
  Forall (fun c => c <= 0xFFFF) cl -> Forall isByte rest -> roundtrip (UCS2 be) cl rest.
Proof.
  intros be cl rest Hc Hr. apply roundtrip_all; auto.
  eapply Forall_impl; [|exact Hc]. intros c H. cbn beta in H. cbn [representable]. change (2 ^ 16) with 65536. lia.
Qed.
Theorem C03_ucs4_roundtrip : forall be cl rest,
  Forall (fun c => c <= 0xFFFFFFFF) cl -> Forall isByte rest -> roundtrip (UCS4 be) cl rest.
Proof.
  intros be cl rest Hc Hr. apply roundtrip_all; auto.
  eapply Forall_impl; [|exact Hc]. intros c H. cbn beta in H. cbn [representable]. change (2 ^ 32) with 4294967296. lia.
Qed.
Print Assumptions C03_ucs2_roundtrip.
Print Assumptions C03_ucs4_roundtrip.
Example C03_case : Forall (fun c => c <= 0xFFFF) [97; 0xD800; 0xFFFF] /\ Forall (fun c => c <= 0xFFFFFFFF) [97; 0xFFFFFFFF]
  /\ flat_map (cs_print (UCS2 false)) [97; 0x20AC] = [97; 0; 0xAC; 0x20]
  /\ flat_map (cs_print (UCS4 true)) [0x1F600] = [0; 1; 0xF6; 0].
Proof. repeat split; repeat constructor; try lia. Qed.

(** C04: ISO-8859 code pages *)
(** the character read for a byte is the one of the standard, except for page 3 *)
Theorem C04_isolatin_tables : forall p l eom, 1 <= p <= 9 -> p <> 3 -> Forall isByte l ->
  exists t, readChars src_ops (IsoLatin p) (length l) (ts_make (src_make l eom)) = Ret t (map (iso8859_char p) l).
Proof.
  intros p l eom Hp H3 Hl.
  assert (Hcs : cs_constructible (IsoLatin p) = true) by (cbn [cs_constructible]; lia).
  assert (G : forall l m q t, Forall isByte l -> srcr (IsoLatin p) t (mkIr l m q) ->
     exists t', readChars src_ops (IsoLatin p) (length l) t = Ret t' (map (iso8859_char p) l)).
  { clear l eom Hl. induction l as [|b l IH]; intros m q t Hl Ht; cbn [length readChars map]; [eauto|].
    inversion Hl as [|b' l' Hb Hl']; subst.
    assert (Hready : ready m (clen (IsoLatin p) (b :: l)) (b :: l) = true).
    { apply ready_spec. right. cbn [clen length]. lia. }
    destruct (chr_ir _ _ _ _ _ _ (src_rsim _ Hcs) t _ Ht Hready) as [t1 [E1 H1]]. rewrite E1. cbn [bind].
    destruct (skip_ir _ _ _ _ _ _ (src_rsim _ Hcs) t1 _ H1 Hready) as [t2 [E2 H2]]. rewrite E2. cbn [bind].
    unfold ir_skipto in H2. cbn [ir_l ir_m ir_p clen skipn] in H2.
    destruct (IH _ _ _ Hl' H2) as [t3 E3]. rewrite E3. cbn [bind]. exists t3. f_equal. f_equal.
    cbn [cval ir_l]. unfold nb. cbn [nth]. rewrite iso_tables; auto. }
  eapply G; [exact Hl|apply src_make_rel; exact Hl].
Qed.
Theorem C04_isolatin3_table_refuted : exists l t v,
  Forall isByte l /\ readChars src_ops (IsoLatin 3) (length l) (ts_make (src_make l false)) = Ret t v /\
  v <> map (iso8859_char 3) l /\ Forall (fun c => c <> 0xFFFD) (map (iso8859_char 3) l).
Proof.
  exists [0xA6]. eexists. eexists. split; [repeat constructor|]. split; [vm_compute; reflexivity|].
  split; [vm_compute; discriminate|vm_compute; repeat constructor; discriminate].
Qed.
(** text read and printed again: a byte comes back as itself if its character is below 256, and as a reference otherwise *)
Theorem C04_isolatin_readback : forall p b c, 1 <= p <= 9 -> b < 256 -> c <> 0 ->
  (exists t, ts_chr src_ops (IsoLatin p) (ts_make (src_make [b] false)) = Ret t c) ->
  (c < 256 -> cs_print (IsoLatin p) c = [b]) /\
  (256 <= c -> is_reference (cs_print (IsoLatin p) c) c).
Proof.
  intros p b c Hp Hb Hz [t E].
  assert (Hcs : cs_constructible (IsoLatin p) = true) by (cbn [cs_constructible]; lia).
  assert (Hl : Forall isByte [b]) by (repeat constructor; exact Hb).
  destruct (chr_ir _ _ _ _ _ _ (src_rsim _ Hcs) _ _ (src_make_rel (IsoLatin p) [b] false Hl)) as [t1 [E1 _]].
  { apply ready_spec. auto. }
  rewrite E1 in E. injection E as <- E. cbn [cval ir_l] in E. unfold nb in E. cbn [nth] in E.
  destruct (ucharcode p b) as [v|] eqn:Ev; [|congruence]. subst v.
  destruct (iso_readback p b c Hp Hb Ev Hz) as [H1 H2]. cbn [cs_print]. split; [exact H1|].
  intros H. rewrite (H2 H). apply encode_reference.
  assert (Hm : forallb (fun q => forallb (fun b => match ucharcode q b with Some c => c <? 2 ^ 32 | None => true end) bytes256)
      [1;2;3;4;5;6;7;8;9] = true) by (vm_compute; reflexivity).
  rewrite forallb_forall in Hm. specialize (Hm p (pages_in p ltac:(lia))).
  pose proof (sweep256 _ Hm b Hb) as G. cbn beta in G. rewrite Ev in G.
  change (2 ^ 32) with 4294967296 in *. lia.
Qed.
(** ISO-8859-1: all texts without null characters *)
Theorem C04_latin1_roundtrip : forall l eom, Forall (fun b => 0 < b < 256) l ->
  exists t cl, readChars src_ops (IsoLatin 1) (length l) (ts_make (src_make l eom)) = Ret t cl /\
    flat_map (cs_print (IsoLatin 1)) cl = l.
Proof.
  intros l eom Hl.
  assert (Hb : Forall isByte l) by (eapply Forall_impl; [|exact Hl]; intros b H; unfold isByte; cbn beta in H; lia).
  destruct (C04_isolatin_tables 1 l eom ltac:(lia) ltac:(lia) Hb) as [t E]. exists t. eexists. split; [exact E|].
  clear E. induction Hl as [|b l Hb1 Hl IH]; [reflexivity|]. inversion Hb; subst. cbn [map flat_map].
  rewrite IH by assumption. rewrite <- (app_nil_l (b :: l)) at 1. cbn [cs_print].
  assert (Hc : iso8859_char 1 b = b).
  { pose proof (sweep256 (fun b => iso8859_char 1 b =? b) ltac:(vm_compute; reflexivity) b ltac:(lia)) as G. cbn beta in G. lia. }
  rewrite Hc.
  pose proof (sweep256 (fun b => (b =? 0) || match iso_print 1 b with [d] => d =? b | _ => false end) ltac:(vm_compute; reflexivity) b ltac:(lia)) as G.
  cbn beta in G. destruct (N.eqb_spec b 0); [lia|]. destruct (iso_print 1 b) as [|d [|]]; try discriminate. cbn [app]. f_equal. cbn [orb] in G. lia.
Qed.
(** characters below 256 that a page contains: printed as the byte of the standard and read back *)
Theorem C04_isolatin_below256_partial : forall p cl rest, 1 <= p <= 9 ->
  Forall (fun c => 0 < c < 128 \/ (128 <= c < 256 /\ exists b, iso8859_byte p c = Some b /\ iso8859_right p b = true)) cl ->
  Forall isByte rest -> roundtrip (IsoLatin p) cl rest.
Proof. intros p cl rest Hp Hc Hr. apply roundtrip_all; [cbn [cs_constructible]; lia|exact Hc|exact Hr]. Qed.
Theorem C04_isolatin_roundtrip_refuted : exists p l t cl, 1 <= p <= 9 /\ Forall (fun b => 0 < b < 256) l /\
  readChars src_ops (IsoLatin p) (length l) (ts_make (src_make l false)) = Ret t cl /\
  flat_map (cs_print (IsoLatin p)) cl <> l.
Proof.
  exists 2, [0xA1]. eexists. eexists. split; [lia|]. split; [repeat constructor|]. split; [vm_compute; reflexivity|].
  vm_compute. discriminate.
Qed.
Print Assumptions C04_isolatin_tables.
Print Assumptions C04_isolatin3_table_refuted.
Print Assumptions C04_isolatin_readback.
Print Assumptions C04_latin1_roundtrip.
Print Assumptions C04_isolatin_below256_partial.
Print Assumptions C04_isolatin_roundtrip_refuted.
Example C04_case : (exists t, ts_chr src_ops (IsoLatin 2) (ts_make (src_make [0xA1] false)) = Ret t 0x104)
  /\ cs_print (IsoLatin 2) 0x104 = str "&#x104;"
  /\ iso8859_byte 7 0xD8 = Some 0xA8 /\ cs_print (IsoLatin 7) 0xD8 = [0xA8].
Proof. split; [|repeat split; vm_compute; reflexivity]. eexists; vm_compute; reflexivity. Qed.

(** C05: characters that are not in the character set *)
Theorem C05_reference : forall cs c, cs_constructible cs = true -> cs <> UTF8 -> 0 < c < 2 ^ 32 ->
  (representable cs c /\ cs_print cs c = spec_encode cs c) \/
  (* bytes of the page 3 that are not the ones of the standard (C04) *)
  (exists b, cs = IsoLatin 3 /\ cs_print cs c = [b] /\
     exists t, ts_chr src_ops cs (ts_make (src_make [b] false)) = Ret t c) \/
  exists text, is_reference text c /\ cs_print cs c = flat_map (spec_encode cs) text.
Proof.
  intros cs c Hcs Hne Hc. destruct (print_reference cs c Hcs Hne Hc) as [[b [-> [E1 E2]]]|[H|H]];
    [right; left|left; split; [exact H|apply print_spec; auto]|right; right; destruct H as [text [_ H]]; exists text; exact H].
  set (p := 3) in *. exists b. split; [reflexivity|]. split; [exact E1|].
  assert (Hb : b < 256).
  { destruct (N.lt_ge_cases b 256) as [|Hge]; [assumption|]. unfold ucharcode in E2.
    destruct (N.ltb_spec b 128); [lia|]. pose proof (codePage_length p Hcs) as [cd [Hcd Hlen]]. rewrite Hcd in E2.
    assert (Hn : nth_error cd (N.to_nat (b - 128)) <> None) by congruence. apply nth_error_Some in Hn. lia. }
  assert (Hl : Forall isByte [b]) by (repeat constructor; exact Hb).
  destruct (chr_ir _ _ _ _ _ _ (src_rsim _ Hcs) _ _ (src_make_rel (IsoLatin p) [b] false Hl)) as [t1 [E3 _]].
  { apply ready_spec. auto. }
  exists t1. rewrite E3. f_equal. cbn [cval ir_l]. unfold nb. cbn [nth]. rewrite E2. reflexivity.
Qed.
(** UTF-8 has no representation for characters from 2^31 on and prints something else *)
Theorem C05_utf8_refuted : exists c text, 0 < c < 2 ^ 32 /\ ~ representable UTF8 c /\
  cs_print UTF8 c = text /\ (forall r, is_reference r c -> text <> flat_map (spec_encode UTF8) r) /\
  exists t, ts_chr src_ops UTF8 (ts_make (src_make text false)) = Ret t 0.
Proof.
  exists (2 ^ 31), [252; 128; 128; 128; 128; 128]. split; [vm_compute; split; reflexivity|].
  split; [cbn [representable]; lia|]. split; [vm_compute; reflexivity|]. split.
  - intros r [d [_ [-> _]]] E. cbn in E. discriminate.
  - eexists. vm_compute. reflexivity.
Qed.
Print Assumptions C05_reference.
Print Assumptions C05_utf8_refuted.
Example C05_case : ~ representable (UCS2 true) 0x1F600 /\
  cs_print (UCS2 true) 0x1F600 = flat_map (spec_encode (UCS2 true)) (str "&#x1f600;") /\
  is_reference (str "&#x1f600;") 0x1F600.
Proof.
  split; [cbn [representable]; change (2^16) with 65536; lia|]. split; [vm_compute; reflexivity|].
  exists (str "1f600"). split; [discriminate|]. split; vm_compute; reflexivity.
Qed.

(** C06: any bytes read as UTF-8: no undefined behaviour, the characters of [spec_utf8_read] *)
Theorem C06_utf8_malformed : forall n l, Forall isByte l ->
  exists t, readChars src_ops UTF8 n (ts_make (src_make l false)) = Ret t (spec_utf8_chars n l) /\
    ts_position src_ops t = N.of_nat (spec_utf8_size n l) mod 2 ^ 64 /\ (n <= spec_utf8_size n l <= 8 * n)%nat.
Proof.
  intros n l Hl. assert (Hcs : cs_constructible UTF8 = true) by reflexivity.
  destruct (readChars_any _ _ _ _ _ _ (src_rsim UTF8 Hcs) n l _ _ (src_make_rel UTF8 l false Hl)) as [t [E H]].
  destruct (vals_utf8 n l Hl) as [E1 E2]. rewrite E1 in E. exists t. split; [exact E|]. split.
  - pose proof (rs_pos _ _ _ _ _ _ (src_rsim UTF8 Hcs) _ _ H) as Hp. cbn [ir_ops ts_ops r_pos ir_p] in Hp.
    rewrite Hp, E2. reflexivity.
  - rewrite <- E2. clear. revert l. induction n as [|n IH]; intros l; cbn [lens]; [lia|].
    pose proof (clen_bounds UTF8 l). specialize (IH (skipn (clen UTF8 l) l)). lia.
Qed.
Print Assumptions C06_utf8_malformed.
(** the two kinds of malformed units of the property *)
Example C06_case : spec_utf8_chars 3 [0x80; 0xE2; 0x82; 60; 97] = [0x7FFFFFFF; 0x7FFFFFFF; 97]
  /\ spec_utf8_chars 2 [0xE2; 0x82; 0xAC; 0xC3] = [0x20AC; 0x7FFFFFFF].
Proof. split; vm_compute; reflexivity. Qed.

(** C07: a high surrogate that is not followed by a low surrogate *)
Theorem C07_surrogate_refuted : exists be hi lo t v,
  0xD800 <= hi < 0xDC00 /\ lo < 0x10000 /\ ~ (0xDC00 <= lo < 0xE000) /\
  ts_chr src_ops (UTF16 be) (ts_make (src_make (spec_unit16 be hi ++ spec_unit16 be lo) false)) = Ret t v /\ v <> 0xFFFF.
Proof.
  exists true, 0xD800, 0x41. eexists. eexists. split; [lia|]. split; [lia|]. split; [lia|].
  split; [vm_compute; reflexivity|]. discriminate.
Qed.
(** what is delivered: 0xFFFF for units from 0xE000 on, the character of a pair, another character for units below 0xDC00 *)
Theorem C07_surrogate_exact_partial : forall be hi lo rest, 0xD800 <= hi < 0xDC00 -> lo < 0x10000 -> Forall isByte rest ->
  exists t, ts_chr src_ops (UTF16 be)
      (ts_make (src_make (spec_unit16 be hi ++ spec_unit16 be lo ++ rest) false)) =
    Ret t (if 0xE000 <=? lo then 0xFFFF
           else ((hi - 0xD800) * 0x400 + lo + 2 ^ 32 - 0xDC00 + 0x10000) mod 2 ^ 32).
Proof.
  intros be hi lo rest Hhi Hlo Hrest. assert (Hcs : cs_constructible (UTF16 be) = true) by reflexivity.
  set (l := spec_unit16 be hi ++ spec_unit16 be lo ++ rest).
  assert (Hl : Forall isByte l).
  { unfold l, spec_unit16, isByte. destruct be; cbn [app]; repeat (constructor; [lia|]); exact Hrest. }
  destruct (chr_ir _ _ _ _ _ _ (src_rsim _ Hcs) _ _ (src_make_rel (UTF16 be) l false Hl)) as [t1 [E3 _]].
  { apply ready_spec. auto. }
  exists t1. rewrite E3. f_equal. cbn [ir_l]. apply utf16_pair; auto.
Qed.
Print Assumptions C07_surrogate_refuted.
Print Assumptions C07_surrogate_exact_partial.
Example C07_case : exists t, ts_chr src_ops (UTF16 true) (ts_make (src_make ([0xD8; 0x3D; 0xE0; 0x00]) false)) = Ret t 0xFFFF.
Proof. eexists. vm_compute. reflexivity. Qed.

(** C08: the answers of control(), ascii() and chr() depend on the number of the character only, and not on the other calls *)
Theorem C08_observers : forall cs l oss, cs_constructible cs = true -> Forall isByte l ->
  exists (f : nat -> observer -> answer),
    (* [f k o]: the answer of a single call of [o] after [k] times skip() *)
    (forall k o, exists t, session src_ops cs (repeat [] k ++ [[o]]) (ts_make (src_make l false)) =
        Ret t (repeat [] k ++ [[f k o]])) /\
    exists t, session src_ops cs oss (ts_make (src_make l false)) =
      Ret t (map (fun p => map (f (fst p)) (snd p)) (combine (seq 0 (length oss)) oss)).
Proof.
  intros cs l oss Hcs Hl.
  exists (fun k o => answer_of cs o (after cs k l)). split.
  - intros k o.
    destruct (session_ir _ _ _ _ _ _ (src_rsim cs Hcs) (fun t l p => src_skip0 cs t l p Hcs) (repeat [] k ++ [[o]]) _ _ _
       (src_make_rel cs l false Hl)) as [t [E _]].
    exists t. rewrite E. f_equal. clear. revert l. induction k as [|k IH]; intros l; cbn [repeat app answers map after]; [reflexivity|].
    f_equal. apply IH.
  - destruct (session_ir _ _ _ _ _ _ (src_rsim cs Hcs) (fun t l p => src_skip0 cs t l p Hcs) oss _ _ _
       (src_make_rel cs l false Hl)) as [t [E _]].
    exists t. rewrite E. f_equal. clear.
    assert (G : forall oss l n k, answers cs oss (after cs n l) =
       map (fun p => map (fun o => answer_of cs o (after cs (fst p - k + n) l)) (snd p)) (combine (seq k (length oss)) oss)).
    { clear. induction oss as [|os oss IH]; intros l n k; cbn [answers length seq combine map fst snd]; [reflexivity|]. f_equal.
      - replace (k - k + n)%nat with n by lia. reflexivity.
      - assert (Ha : skipn (clen cs (after cs n l)) (after cs n l) = after cs (S n) l).
        { clear. revert l. induction n as [|n IH]; intros l; [reflexivity|]. cbn [after] in *. apply IH. }
        rewrite Ha, (IH l (S n) (S k)). apply map_ext_in. intros p Hp. apply map_ext. intros o.
        assert (fst p >= S k)%nat.
        { destruct p as [a b]. apply in_combine_l in Hp. apply in_seq in Hp. cbn [fst]. lia. }
        do 2 f_equal. lia. }
    change l with (after cs 0 l) at 1. rewrite (G oss l 0%nat 0%nat). apply map_ext. intros p. apply map_ext. intros o. do 2 f_equal. lia.
Qed.
(** copychar() is different: for UTF-16 it copies half of a character outside the BMP if nothing was asked before *)
Theorem C08_copychar_refuted : exists l t1 t2 t3 a b,
  ts_copychar src_ops (UTF16 true) (UTF16 true) (ts_make (src_make l false)) = Ret t1 a /\
  ts_control src_ops (UTF16 true) (ts_make (src_make l false)) = Ret t2 CUndef /\
  ts_copychar src_ops (UTF16 true) (UTF16 true) t2 = Ret t3 b /\ a <> b.
Proof.
  exists [0xD8; 0x3D; 0xDE; 0x00]. do 5 eexists.
  split; [vm_compute; reflexivity|]. split; [vm_compute; reflexivity|]. split; [vm_compute; reflexivity|].
  vm_compute. discriminate.
Qed.
Print Assumptions C08_observers.
Print Assumptions C08_copychar_refuted.
Example C08_case : exists t, session src_ops UTF8 [[ObsChr; ObsControl; ObsChr]; []; [ObsAscii; ObsAscii; ObsChr]]
    (ts_make (src_make [0xE2; 0x82; 0xAC; 97; 60] false)) =
  Ret t [[AnsCode 0x20AC; AnsControl CUndef; AnsCode 0x20AC]; []; [AnsCode 60; AnsCode 60; AnsCode 60]].
Proof. eexists. vm_compute. reflexivity. Qed.

(** C09: CStringIterator, strings and iterations below 2^32 *)
Theorem C09_cstring_partial : forall l n, N.of_nat (length l) < 2 ^ 32 -> N.of_nat n < 2 ^ 32 ->
  exists i, increments cstr_ops n (cstr_make l) = Ret i tt /\ deref cstr_ops i = Ret i (nth n l 0) /\
    ipos cstr_ops i = N.of_nat n.
Proof.
  intros l n Hl Hn. rewrite cstr_increments. eexists. split; [reflexivity|].
  assert (Hu : forall x, x < 2 ^ 32 -> u32 x = x) by (intros x Hx; apply N.mod_small; exact Hx).
  cbn [deref ipos cstr_ops]. rewrite cstr_deref_at. cbn [cs_pos]. rewrite (Hu (N.of_nat n)), (Hu (N.of_nat (length l))) by assumption.
  split; [|reflexivity]. f_equal. rewrite !Nat2N.id, firstn_all. reflexivity.
Qed.
(** for all strings and numbers of increments: sizes and positions are taken modulo 2^32 *)
Theorem C09_cstring_exact : forall l n,
  exists i, increments cstr_ops n (cstr_make l) = Ret i tt /\
    deref cstr_ops i = Ret i (nth (N.to_nat (N.of_nat n mod 2 ^ 32)) (firstn (N.to_nat (N.of_nat (length l) mod 2 ^ 32)) l) 0) /\
    ipos cstr_ops i = N.of_nat n mod 2 ^ 32.
Proof.
  intros l n. rewrite cstr_increments. eexists. split; [reflexivity|].
  cbn [deref ipos cstr_ops]. rewrite cstr_deref_at. cbn [cs_pos]. split; reflexivity.
Qed.
(** so the text is delivered a second time after 2^32 increments *)
Theorem C09_cstring_refuted : exists l n i, increments cstr_ops n (cstr_make l) = Ret i tt /\
  (length l <= n)%nat /\ deref cstr_ops i = Ret i 97.
Proof.
  assert (Hn : exists n, N.of_nat n = 2 ^ 32) by (exists (N.to_nat (2 ^ 32)); apply N2Nat.id).
  destruct Hn as [n Hn]. exists [97], n. destruct (C09_cstring_exact [97] n) as [i [E1 [E2 _]]].
  exists i. split; [exact E1|]. split; [|rewrite E2, Hn; reflexivity].
  cbn [length]. change (2 ^ 32) with 4294967296 in Hn. lia.
Qed.
Print Assumptions C09_cstring_partial.
Print Assumptions C09_cstring_exact.
Print Assumptions C09_cstring_refuted.
Example C09_case : exists i, increments cstr_ops 4 (cstr_make (str "abc")) = Ret i tt /\ deref cstr_ops i = Ret i 0.
Proof. eexists. split; vm_compute; reflexivity. Qed.

(** C10: IStreamIterator *)
Definition good_reads (bufsize : N) (reads : list rdres) : Prop :=
  Forall (fun r => rd_err r = false /\ rd_data r <> [] /\ N.of_nat (length (rd_data r)) <= bufsize) reads.
Theorem C10_istream_schedule : forall reads bufsize n, good_reads bufsize reads ->
  let data := flat_map rd_data reads in
  exists i0 i, istrm_make reads bufsize = Ret i0 tt /\ increments istrm_ops n i0 = Ret i tt /\
    deref istrm_ops i = Ret i (nth n data 0) /\
    ipos istrm_ops i = N.of_nat (Nat.min n (length data)) mod 2 ^ 64.
Proof.
  intros reads bufsize n Hg data. destruct (ist_make reads bufsize Hg) as [i0 [E0 H0]].
  destruct (ist_increments _ n i0 H0) as [i [E H]]. exists i0, i. split; [exact E0|]. split; [exact E|].
  split; [apply (ist_deref _ _ _ H)|apply (ist_position _ _ _ H)].
Qed.
(** a read error is reported as exception when the iterator arrives at it, not as end of input *)
Theorem C10_istream_error : forall goods bad more bufsize, good_reads bufsize goods -> rd_err bad = true ->
  N.of_nat (length (rd_data bad)) <= bufsize ->
  let data := flat_map rd_data goods in
  (goods = [] /\ exists i, istrm_make (goods ++ bad :: more) bufsize = Throw i) \/
  exists i0, istrm_make (goods ++ bad :: more) bufsize = Ret i0 tt /\
    (forall n, (n < length data)%nat -> exists i, increments istrm_ops n i0 = Ret i tt /\ deref istrm_ops i = Ret i (nth n data 0)) /\
    (forall n, (length data <= n)%nat -> exists i, increments istrm_ops n i0 = Throw i).
Proof.
  intros goods bad more bufsize Hg He Hb data. destruct goods as [|g gs]; cbn [app].
  - left. split; [reflexivity|]. unfold istrm_make, istrm_fillbuf. cbn [is_input is_bufsize].
    destruct (N.ltb_spec bufsize (N.of_nat (length (rd_data bad)))); [lia|]. rewrite He. eauto.
  - right. inversion Hg as [|g' gs' Hg1 Hgs]; subst. destruct Hg1 as [Hg1 [Hg2 Hg3]].
    unfold istrm_make, istrm_fillbuf. cbn [is_input is_bufsize is_abs is_buf length].
    destruct (N.ltb_spec bufsize (N.of_nat (length (rd_data g)))); [lia|]. rewrite Hg1.
    eexists. split; [reflexivity|].
    destruct (ist_error_step (length data) gs bad more
       (mkIs (gs ++ bad :: more) (rd_data g) bufsize 0 (u64 (0 + N.of_nat 0))) He) as [[i Ha] Hd];
       cbn [is_bufsize is_input is_readpos is_buf]; auto.
    { destruct (rd_data g); [congruence|cbn [length]; lia]. }
    split; [exact Hd|].
    intros n Hn. exists i. replace n with (length data + (n - length data))%nat by lia.
    generalize (n - length data)%nat as m. clear Hn. revert Ha. generalize (length data) as k. intros k Ha m. revert Ha.
    generalize (mkIs (gs ++ bad :: more) (rd_data g) bufsize 0 (u64 (0 + N.of_nat 0))) as j.
    induction k as [|k IH]; intros j Ha; [discriminate|]. cbn [increments Nat.add] in *.
    destruct (incr istrm_ops j); cbn [bind] in *; try discriminate; [apply IH; exact Ha|exact Ha].
Qed.
Print Assumptions C10_istream_schedule.
Print Assumptions C10_istream_error.
Example C10_case : good_reads 4 [mkRd [1;2;3] false; mkRd [4] false; mkRd [5;6;7;8] false].
Proof. repeat constructor; try discriminate; cbn; lia. Qed.

(** C11: positions of a SrcIterator fed with putInput *)
Theorem C11_position_absolute : forall c0 e0 steps n, (n <= length (fst (last_chunk c0 e0 steps)))%nat ->
  exists i, (let! (i1, u) := src_consume steps (src_make c0 e0) in increments src_ops n i1) = Ret i tt /\
    src_position i = N.of_nat (length (concat (earlier c0 steps)) + n) mod 2 ^ 64 /\
    ((n < length (fst (last_chunk c0 e0 steps)))%nat ->
       src_deref i = Ret i (nth n (fst (last_chunk c0 e0 steps)) 0)).
Proof. exact src_pos_spec. Qed.
Print Assumptions C11_position_absolute.
Example C11_case : last_chunk [1;2;3] true [(3%nat,[4;5],true); (2%nat,[6;7;8],false)] = ([6;7;8], false) /\
  earlier [1;2;3] [(3%nat,[4;5],true); (2%nat,[6;7;8],false)] = [[1;2;3];[4;5]].
Proof. split; reflexivity. Qed.

(** C12: characters of a text in chunks *)
Theorem C12_resume : forall cs c0 chunks n, cs_constructible cs = true -> Forall isByte (c0 ++ concat chunks) ->
  exists st t v, readChunked cs n (ts_make (src_make c0 (more chunks)), chunks) = Ret st v /\
    readChars src_ops cs n (ts_make (src_make (c0 ++ concat chunks) false)) = Ret t v.
Proof.
  intros cs c0 chunks n Hcs Hb.
  destruct (readChunked_vals cs n (ts_make (src_make c0 (more chunks))) chunks (c0 ++ concat chunks) Hcs) as [st E].
  { exists c0, 0. split; [|split; [reflexivity|exact Hb]].
    apply src_make_rel. apply Forall_app in Hb. apply Hb. }
  destruct (readChars_any _ _ _ _ _ _ (src_rsim cs Hcs) n _ _ _ (src_make_rel cs _ false Hb)) as [t [E2 _]].
  exists st, t, (vals cs n (c0 ++ concat chunks)). auto.
Qed.
Print Assumptions C12_resume.
Example C12_case : exists st, readChunked UTF8 3 (ts_make (src_make [97; 0xE2] true), [[0x82]; []; [0xAC; 98]]) =
  Ret st [97; 0x20AC; 98].
Proof. eexists. vm_compute. reflexivity. Qed.
