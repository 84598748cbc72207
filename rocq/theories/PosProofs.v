(** Token positions (proofs). *)
From Verif Require Import Base Iter CharMap CodePages Charset TextScanner Ideal ReaderSim ScannerSim IterSim
  CharsetSpec CharsetProofs CharsetMore ReadSpec ReadProofs XmlScanner ScanSpec ScanProofs Safety Term TokenSpec.

Definition post {S A} (Q : S -> A -> Prop) (x : out S A) : Prop := match x with Ret s a => Q s a | _ => True end.
Lemma post_bind : forall {S A B} (Q : S -> A -> Prop) (Q2 : S -> B -> Prop) (x : out S A) f,
  post Q x -> (forall s a, Q s a -> post Q2 (f s a)) -> post Q2 (bind x f).
Proof. intros S A B Q Q2 x f H Hf. destruct x; cbn [bind post] in *; auto. Qed.

Lemma pad_split : forall a b l, pad (a + b) l = pad a l ++ pad b (skipn a l).
Proof.
  intros a b l. apply nth_ext with (d := 0) (d' := 0).
  - rewrite app_length, !pad_length. reflexivity.
  - rewrite pad_length. intros i Hi. rewrite nth_pad by exact Hi. destruct (Nat.lt_ge_cases i a) as [H|H].
    + rewrite app_nth1 by (rewrite pad_length; exact H). rewrite nth_pad by exact H. reflexivity.
    + rewrite app_nth2 by (rewrite pad_length; exact H). rewrite pad_length, nth_pad by lia. unfold nb. rewrite nth_skipn. f_equal. lia.
Qed.

(** the least number of bytes of a character *)
Definition width (cs : charset) : nat := match cs with UTF8 | IsoLatin _ => 1 | UTF16 _ | UCS2 _ => 2 | UCS4 _ => 4 end%nat.
Lemma clen_width : forall cs l, (width cs <= clen cs l)%nat.
Proof. intros cs l. destruct cs; cbn [width clen]; try lia. unfold utf16_size_of. destruct (_ <? _); lia. Qed.
Definition wide (cs : charset) (x : list N) : Prop := x = [] \/ (width cs <= length x)%nat.
Lemma wide_app : forall cs x y, wide cs x -> wide cs y -> wide cs (x ++ y).
Proof. intros cs x y [->|H] Hy; [exact Hy|]. right. rewrite app_length. lia. Qed.
Lemma print_wide : forall cs c, wide cs (cs_print cs c).
Proof.
  intros cs c. unfold wide. destruct cs as [|be|be|be|p]; cbn [cs_print width].
  - right. unfold utf8_print. destruct (c <=? 127); cbn [length]; lia.
  - right. unfold utf16_print. destruct (c <=? 0xFFFF); [destruct (_ <? _)|destruct (c <=? 0x10FFFF)]; cbn [encode app flat_map print16 length]; lia.
  - right. unfold ucs2_print. destruct (0xFFFF <? c); cbn [encode app flat_map print16 length]; lia.
  - right. unfold ucs4_print. destruct be; cbn [map length]; lia.
  - unfold iso_print. destruct (invcode p c) as [b|]; [|left; reflexivity]. right. destruct (b =? 0); cbn [encode app length]; lia.
Qed.

(** ** What a character looks like does not depend on the bytes behind it *)
Lemma nb_pad : forall k l i, (i < k)%nat -> nb (pad k l) i = nb l i.
Proof. intros k l i H. unfold nb at 1. apply nth_pad. exact H. Qed.
Lemma clen_pad : forall cs k l, (clen cs l <= k)%nat -> clen cs (pad k l) = clen cs l.
Proof.
  intros cs k l H. pose proof (clen_width cs l). destruct cs as [|be|be|be|p]; cbn [width clen] in *; try reflexivity.
  - rewrite nb_pad by lia. reflexivity.
  - rewrite nb_pad; [reflexivity|]. destruct be; cbn [msb]; lia.
Qed.
Lemma casc_pad : forall cs k l, (clen cs l <= k)%nat -> casc cs (pad k l) = casc cs l.
Proof.
  intros cs k l H. pose proof (clen_bounds cs l) as Hb. pose proof (clen_pad cs k l H) as Hc. pose proof (clen_width cs l) as Hw.
  assert (P : forall i, (i < 8)%nat -> (i < k)%nat -> nth i (pad 8 (pad k l)) 0 = nth i (pad 8 l) 0).
  { intros i H1 H2. rewrite !nth_pad by assumption. apply nb_pad. exact H2. }
  destruct cs as [|be|be|be|p]; cbn [casc width] in *.
  - rewrite nb_pad by lia. reflexivity.
  - f_equal. unfold cval. rewrite Hc. cbn [clen] in *. unfold utf16_value_of.
    unfold utf16_size_of in *. destruct (3 <? sub32 (nb l (msb be)) 216) eqn:E; cbv zeta; unfold msb, lsb; destruct be; cbn [Nat.eqb Nat.add]; rewrite ?P by lia; reflexivity.
  - f_equal. cbn [cval clen] in *. unfold ucs2_value_of, msb, lsb. destruct be; rewrite ?P by lia; reflexivity.
  - f_equal. cbn [cval clen] in *. unfold ucs4_value_of, ucs4_b. cbv zeta. destruct be; cbn [Nat.sub]; rewrite ?P by lia; reflexivity.
  - rewrite nb_pad by (cbn [clen] in *; lia). reflexivity.
Qed.

Lemma ctl_amp : forall a, ctl_of a = CAmp -> a = 38.
Proof.
  intros a H. destruct (N.lt_ge_cases a 256) as [Ha|Ha].
  - assert (S : forallb (fun a => match ctl_of a with CAmp => a =? 38 | _ => true end) (map N.of_nat (seq 0 256)) = true) by (vm_compute; reflexivity).
    rewrite forallb_forall in S. specialize (S a). rewrite H in S. apply N.eqb_eq. apply S. apply in_map_iff. exists (N.to_nat a). split; [lia|]. apply in_seq. lia.
  - unfold ctl_of in H. rewrite nth_overflow in H; [discriminate|]. replace (length controlCharMap) with 256%nat by reflexivity. lia.
Qed.

Definition special (a : N) : Prop := a = 38 \/ a = 13 \/ a = 10.
(** the first [j] bytes are characters without ampersand and end of line, and the text is not at its end *)
Inductive plain (cs : charset) : list N -> nat -> Prop :=
| plain_0 : forall l, plain cs l 0
| plain_S : forall l j, ~ special (casc cs l) -> casc cs l <> 0 -> plain cs (skipn (clen cs l) l) j -> plain cs l (clen cs l + j).

Lemma plain_more : forall cs l j, plain cs l j -> ~ special (casc cs (skipn j l)) -> casc cs (skipn j l) <> 0 -> plain cs l (j + clen cs (skipn j l)).
Proof.
  intros cs l j H. induction H as [l|l j H1 H2 H IH]; intros S1 S2.
  - cbn [skipn Nat.add] in *. replace (clen cs l) with (clen cs l + 0)%nat by lia. constructor; auto. constructor.
  - rewrite skipn_skipn, Nat.add_comm in IH. rewrite <- Nat.add_assoc. constructor; auto.
Qed.

Lemma plain_special : forall cs l j, plain cs l j -> special (casc cs (skipn j l)) -> forall k, (j + clen cs (skipn j l) <= k)%nat ->
  ~ Forall ordinary (units cs (pad k l)).
Proof.
  intros cs l j H. induction H as [l|l j H1 H2 H IH]; intros Hs k Hk F.
  - cbn [skipn Nat.add] in *. pose proof (clen_bounds cs l). destruct (pad k l) as [|b x] eqn:E; [apply (f_equal (@length N)) in E; rewrite pad_length in E; cbn in E; lia|].
    rewrite units_cons, <- E in F. inversion F as [|? ? [F1 [F2 F3]] _]; subst. unfold dec in F1, F2, F3. cbn [u_asc] in F1, F2, F3. rewrite casc_pad in F1, F2, F3 by exact Hk. unfold special in Hs. lia.
  - pose proof (clen_bounds cs l). replace (skipn (clen cs l + j) l) with (skipn j (skipn (clen cs l) l)) in Hs, Hk by (rewrite skipn_skipn; f_equal; lia).
    destruct (pad k l) as [|b x] eqn:E; [apply (f_equal (@length N)) in E; rewrite pad_length in E; cbn in E; lia|].
    rewrite units_cons, <- E in F. inversion F as [|? ? _ F1]; subst. rewrite clen_pad in F1 by lia.
    replace k with (clen cs l + (k - clen cs l))%nat in F1 by lia. rewrite pad_split in F1. rewrite skipn_app, skipn_all2 in F1 by (rewrite pad_length; lia).
    rewrite pad_length, Nat.sub_diag in F1. cbn [skipn app] in F1. eapply (IH Hs (k - clen cs l)%nat); [lia|exact F1].
Qed.

Lemma nb_byte : forall l i, Forall isByte l -> nb l i < 256.
Proof. intros l i H. unfold nb. destruct (nth_in_or_default i l 0) as [G|G]; [|rewrite G; lia]. rewrite Forall_forall in H. specialize (H _ G). unfold isByte in H. exact H. Qed.
Lemma special_clen : forall cs l, Forall isByte l -> special (casc cs l) -> clen cs l = width cs.
Proof.
  intros cs l Hb H. destruct cs as [|be|be|be|pg]; cbn [clen width casc] in *; try reflexivity.
  - destruct (127 <? nb l 0) eqn:E; [unfold special in H; lia|]. destruct H as [->|[->| ->]]; vm_compute; reflexivity.
  - unfold utf16_size_of. destruct (3 <? sub32 (nb l (msb be)) 0xD8) eqn:E; [reflexivity|]. exfalso. revert H. cbn [cval clen]. unfold utf16_size_of. rewrite E. unfold utf16_value_of.
    cbn [Nat.eqb]. cbv zeta. rewrite !nth_pad by (destruct be; cbn; lia).
    assert (B : forall i, nb l i < 256) by (intros i; apply nb_byte; exact Hb).
    pose proof (B (msb be)) as B1. pose proof (B (lsb be)) as B2. pose proof (B (2 + msb be)%nat) as B3. pose proof (B (2 + lsb be)%nat) as B4.
    generalize dependent (nb l (msb be)). generalize dependent (nb l (lsb be)). generalize dependent (nb l (2 + msb be)). generalize dependent (nb l (2 + lsb be)). clear.
    intros d Hd c Hc b Hbb a Ha E.
    assert (Ea : 0xD8 <= a <= 0xDB).
    { unfold sub32, u32 in Ha. change (0xD8 mod 2^32) with 0xD8 in Ha. apply N.ltb_ge in Ha. change (2^32 - 0xD8) with 4294967080 in Ha. change (2^32) with 4294967296 in Ha. lia. }
    rewrite !N.shiftl_mul_pow2. change (2^8) with 256.
    destruct (0x03 <? Z.of_N c - 0xDC)%Z; [vm_compute; intuition discriminate|].
    unfold sub32, u32, u16. change (0xD800 mod 2^32) with 0xD800. change (0xDC00 mod 2^32) with 0xDC00. change (2^32 - 0xD800) with 4294912000. change (2^32 - 0xDC00) with 4294910976.
    change (2^32) with 4294967296. change (2^16) with 65536. unfold special, ascii_of. destruct (127 <? _) eqn:Ex; [lia|]. apply N.ltb_ge in Ex. lia.
Qed.

Lemma same_raw : forall cs, cs_same_class cs cs && cs_is_equal cs cs = true.
Proof. destruct cs as [|[]|[]|[]|p]; try reflexivity. cbn. rewrite ?N.eqb_refl. reflexivity. Qed.

Section Pos.
Context (cs : charset) (text : list N) (m : option (list (N * N))) (addr : N).
Hypothesis Hcs : cs_constructible cs = true.
Let cfg := mkCfg cs true m addr.
Notation ops := (ir_ops cs).
Notation scn := (scanner ird).
Definition at_pos (p : N) : list N := skipn (N.to_nat p) text.
Definition rok (r : ird) : Prop := ir_m r = EndZero /\ ir_l r = at_pos (ir_p r).

Lemma i_control : forall s : scn, rok (sc_src s) -> sc_control ops s = Ret s (ctl_of (casc cs (ir_l (sc_src s)))).
Proof.
  intros [st er [l mm p] ob tp tk] [Hm _]. cbn in Hm. subst mm. unfold sc_control, on_src. cbn [sc_src ir_ops r_control]. unfold need. cbn [ir_l ir_m].
  destruct (Nat.leb _ _); reflexivity.
Qed.
Lemma i_ascii : forall s : scn, rok (sc_src s) -> sc_ascii ops s = Ret s (asc_of (casc cs (ir_l (sc_src s)))).
Proof.
  intros [st er [l mm p] ob tp tk] [Hm _]. cbn in Hm. subst mm. unfold sc_ascii, on_src. cbn [sc_src ir_ops r_ascii]. unfold need. cbn [ir_l ir_m].
  destruct (Nat.leb _ _); reflexivity.
Qed.
Definition inext (r : ird) : ird := ir_skipto (clen cs (ir_l r)) r.
Lemma i_skip : forall s : scn, rok (sc_src s) -> sc_skip ops s = Ret (set_src s (inext (sc_src s))) tt.
Proof.
  intros [st er [l mm p] ob tp tk] [Hm _]. cbn in Hm. subst mm. unfold sc_skip, on_src. cbn [sc_src ir_ops r_skip]. unfold need. cbn [ir_l ir_m].
  destruct (Nat.leb _ _); reflexivity.
Qed.
Lemma rok_next : forall r, rok r -> rok (inext r).
Proof.
  intros [l mm p] [H1 H2]. cbn [ir_m ir_l ir_p] in *. subst. unfold rok, inext, ir_skipto, at_pos. cbn [ir_m ir_l ir_p]. split; [reflexivity|].
  rewrite skipn_skipn. f_equal. lia.
Qed.
Lemma i_copychar : forall s : scn, rok (sc_src s) -> copychar ops cfg s = Ret (set_obuf (sc_obuf s ++ pad (clen cs (ir_l (sc_src s))) (ir_l (sc_src s))) s) tt.
Proof.
  intros [st er [l mm p] ob tp tk] [Hm _]. cbn in Hm. subst mm. unfold copychar, cfg, sc_raw, on_src. cbn [cf_raw sc_src ir_ops r_raw]. unfold need. cbn [ir_l ir_m].
  destruct (Nat.leb _ _); reflexivity.
Qed.

(** [s] comes from [s0] by output of characters and by reading *)
Definition ext (s0 s : scn) : Prop := rok (sc_src s) /\ (sc_tokpos s = sc_tokpos s0 /\ sc_state s = sc_state s0) /\ exists x, sc_obuf s = sc_obuf s0 ++ x /\ wide cs x.
Lemma ext_refl : forall s, rok (sc_src s) -> ext s s.
Proof. intros s H. split; [exact H|]. split; [auto|]. exists []. rewrite app_nil_r. split; [reflexivity|left; reflexivity]. Qed.
Lemma ext_same : forall s0 s s', ext s0 s -> rok (sc_src s') -> sc_tokpos s' = sc_tokpos s /\ sc_state s' = sc_state s -> sc_obuf s' = sc_obuf s -> ext s0 s'.
Proof. intros s0 s s' [H1 [[H2 H2'] H3]] E1 [E2 E2'] E3. split; [assumption|]. split; [split; congruence|]. rewrite E3. exact H3. Qed.
Lemma ext_tok : forall s0 s t, ext s0 s -> ext s0 (set_tok t s).
Proof. intros s0 s t H. eapply ext_same; [exact H|apply H|auto|reflexivity]. Qed.
Lemma ext_upd : forall s0 s f, ext s0 s -> ext s0 (upd_tok f s).
Proof. intros s0 s f H. apply ext_tok. exact H. Qed.
Lemma ext_out : forall s0 s x, ext s0 s -> wide cs x -> ext s0 (set_obuf (sc_obuf s ++ x) s).
Proof.
  intros s0 s x [H1 [H2 [y [H3 H4]]]] Hx. split; [exact H1|]. split; [exact H2|]. exists (y ++ x). cbn [set_obuf sc_obuf]. rewrite H3, app_assoc. split; [reflexivity|].
  apply wide_app; assumption.
Qed.
Lemma ext_push : forall s0 s c, ext s0 s -> ext s0 (push cfg c s).
Proof. intros s0 s c H. apply ext_out; [exact H|]. apply print_wide. Qed.
Lemma ext_pushes : forall l s0 s, ext s0 s -> ext s0 (pushes cfg l s).
Proof. induction l as [|c l IH]; intros s0 s H; cbn [pushes]; auto. apply IH. apply ext_push. exact H. Qed.
Lemma ext_next : forall s0 s, ext s0 s -> ext s0 (set_src s (inext (sc_src s))).
Proof. intros s0 s H. eapply ext_same; [exact H|apply rok_next; apply H|auto|reflexivity]. Qed.
Lemma ext_fallback : forall s0 s, ext s0 s -> ext s0 (fallbackEntity cfg s).
Proof. intros s0 s H. unfold fallbackEntity. destruct (tk_id (sc_tok s)); try exact H; repeat first [apply ext_pushes|apply ext_push]; exact H. Qed.

Notation pext s0 x := (post (fun s' _ => ext s0 s') x).
Lemma e_skip : forall s0 s, ext s0 s -> pext s0 (sc_skip ops s).
Proof. intros s0 s H. rewrite i_skip by apply H. apply ext_next. exact H. Qed.
Lemma e_ascii : forall s0 s, ext s0 s -> pext s0 (sc_ascii ops s).
Proof. intros s0 s H. rewrite i_ascii by apply H. exact H. Qed.
Lemma e_control : forall s0 s, ext s0 s -> pext s0 (sc_control ops s).
Proof. intros s0 s H. rewrite i_control by apply H. exact H. Qed.

Lemma e_numBaseLoop : forall k s0 s, ext s0 s -> pext s0 (numBaseLoop ops cfg k s).
Proof.
  induction k as [|k IH]; intros s0 s H; cbn [numBaseLoop]; [apply ext_fallback; exact H|].
  eapply (post_bind (fun s' _ => ext s0 s')); [apply e_ascii; exact H|]. intros s1 c H1. destruct (c =? 59).
  - destruct (0xFFFFFFFF <? _).
    + destruct (tok_put c (sc_tok s1)); [|exact I]. apply ext_fallback. apply ext_tok. exact H1.
    + eapply (post_bind (fun s' _ => ext s0 s')); [apply e_skip; apply ext_upd; apply ext_push; exact H1|]. intros s2 u H2. exact H2.
  - destruct (HEX c) as [h|]; [|exact I]. destruct (_ <=? h); [apply ext_fallback; exact H1|]. destruct (tok_put c (sc_tok s1)) as [t|]; [|exact I].
    eapply (post_bind (fun s' _ => ext s0 s')); [apply e_skip; apply ext_tok; exact H1|]. intros s2 u H2. apply IH. exact H2.
Qed.
Lemma e_numeric : forall s0 s, ext s0 s -> pext s0 (parseNumericEntity ops cfg s).
Proof.
  intros s0 s H. unfold parseNumericEntity, parseNumericBaseEntity. eapply (post_bind (fun s' _ => ext s0 s')); [apply e_ascii; apply ext_upd; exact H|]. intros s1 c H1. destruct (c =? 120).
  - eapply (post_bind (fun s' _ => ext s0 s')); [apply e_skip; apply ext_upd; exact H1|]. intros s2 u H2. apply e_numBaseLoop. apply ext_upd. exact H2.
  - apply e_numBaseLoop. do 2 apply ext_upd. exact H1.
Qed.
Lemma e_namedLoop : forall k s0 s c, ext s0 s -> pext s0 (namedLoop ops k s c).
Proof.
  induction k as [|k IH]; intros s0 s c H; cbn [namedLoop]; [exact H|]. destruct (c =? 59); [exact H|].
  eapply (post_bind (fun s' _ => ext s0 s')); [apply e_control; exact H|]. intros s1 cc H1. destruct (ctl_eqb cc CAny); [|exact H1].
  destruct (tok_put c (sc_tok s1)) as [t|]; [|exact I]. eapply (post_bind (fun s' _ => ext s0 s')); [apply e_skip; apply ext_tok; exact H1|]. intros s2 u H2.
  eapply (post_bind (fun s' _ => ext s0 s')); [apply e_ascii; apply ext_upd; exact H2|]. intros s3 c3 H3. apply IH. exact H3.
Qed.
Lemma e_entity : forall s0 s, ext s0 s -> pext s0 (parseEntity ops cfg s).
Proof.
  intros s0 s H. unfold parseEntity. eapply (post_bind (fun s' _ => ext s0 s')); [apply e_ascii; apply ext_upd; exact H|]. intros s1 c H1. destruct (c =? 35).
  - eapply (post_bind (fun s' _ => ext s0 s')); [apply e_skip; exact H1|]. intros s2 u H2. apply e_numeric. exact H2.
  - unfold parseNamedEntity. eapply (post_bind (fun s' _ => ext s0 s')); [apply e_ascii; apply ext_upd; exact H1|]. intros s2 c2 H2.
    eapply (post_bind (fun s' _ => ext s0 s')); [apply e_namedLoop; exact H2|]. intros s3 c3 H3. destruct (c3 =? 59); [|apply ext_fallback; exact H3].
    destruct (tok_put 0 (sc_tok s3)) as [t|]; [|exact I]. apply (ext_tok _ _ t) in H3.
    assert (G : ext s0 (fst (pushEntity cfg (set_tok t s3)))).
    { unfold pushEntity. assert (Ge : ext s0 (set_err ErrUndefinedCharacterEntity (set_tok t s3))) by (eapply ext_same; [exact H3|apply H3|auto|reflexivity]).
      destruct (predefined _); [apply ext_push; exact H3|]. destruct (cf_map cfg) as [mm|]; [|exact Ge]. destruct (map_find mm _); [apply ext_push; exact H3|exact Ge]. }
    destruct (pushEntity cfg (set_tok t s3)) as [s4 ok]. cbn [fst] in G. destruct ok; [|exact G].
    eapply (post_bind (fun s' _ => ext s0 s')); [apply e_skip; apply ext_upd; exact G|]. intros s5 u H5. exact H5.
Qed.

(** the token that began at position [p] *)
Definition tokInv (p : N) (s : scn) : Prop := rok (sc_src s) /\ sc_tokpos s = u64 p /\ exists j x, plain cs (at_pos p) j /\ sc_obuf s = pad j (at_pos p) ++ x /\
  ((x = [] /\ ir_p (sc_src s) = p + N.of_nat j) \/ (special (casc cs (skipn j (at_pos p))) /\ wide cs x)).
(** behind an ampersand or an end of line *)
Definition tokSpec (p : N) (s : scn) : Prop := rok (sc_src s) /\ sc_tokpos s = u64 p /\ exists j x, plain cs (at_pos p) j /\ sc_obuf s = pad j (at_pos p) ++ x /\
  special (casc cs (skipn j (at_pos p))) /\ wide cs x.
Lemma spec_inv : forall p s, tokSpec p s -> tokInv p s.
Proof. intros p s [H1 [H2 [j [x [H3 [H4 H5]]]]]]. split; [exact H1|]. split; [exact H2|]. exists j, x. auto. Qed.
Lemma spec_ext : forall p s s', tokSpec p s -> ext s s' -> tokSpec p s'.
Proof.
  intros p s s' [H1 [H2 [j [x [H3 [H4 [H5 H6]]]]]]] [E1 [[E2 _] [y [E3 E4]]]]. split; [exact E1|]. split; [congruence|]. exists j, (x ++ y).
  split; [exact H3|]. rewrite E3, H4, app_assoc. split; [reflexivity|]. split; [exact H5|]. apply wide_app; assumption.
Qed.
Lemma at_next : forall p j, skipn j (at_pos p) = at_pos (p + N.of_nat j).
Proof. intros p j. unfold at_pos. rewrite skipn_skipn. f_equal. lia. Qed.
(** at a special character of the source *)
Lemma inv_special : forall p s, tokInv p s -> special (casc cs (ir_l (sc_src s))) -> tokSpec p s.
Proof.
  intros p s [H1 [H2 [j [x [H3 [H4 H5]]]]]] Hs. split; [exact H1|]. split; [exact H2|]. exists j, x. split; [exact H3|]. split; [exact H4|].
  destruct H5 as [[-> H5]|H5]; [|exact H5]. split; [|left; reflexivity]. rewrite at_next, <- H5. destruct H1 as [_ H1]. rewrite <- H1. exact Hs.
Qed.
Lemma inv_ordinary : forall p s, tokInv p s -> ~ special (casc cs (ir_l (sc_src s))) -> casc cs (ir_l (sc_src s)) <> 0 ->
  tokInv p (set_src (set_obuf (sc_obuf s ++ pad (clen cs (ir_l (sc_src s))) (ir_l (sc_src s))) s) (inext (sc_src s))).
Proof.
  intros p s [H1 [H2 [j [x [H3 [H4 H5]]]]]] Hs Hz. split; [apply rok_next; exact H1|]. split; [exact H2|]. cbn [set_src set_obuf sc_obuf sc_src].
  destruct H5 as [[-> H5]|[H5 H6]].
  - assert (E : ir_l (sc_src s) = skipn j (at_pos p)) by (rewrite at_next, <- H5; apply H1). rewrite E in *.
    exists (j + clen cs (skipn j (at_pos p)))%nat, []. split; [apply plain_more; assumption|]. rewrite H4, !app_nil_r, pad_split. split; [reflexivity|]. left. split; [reflexivity|].
    unfold inext, ir_skipto. cbn [ir_p]. rewrite H5, E. lia.
  - exists j, (x ++ pad (clen cs (ir_l (sc_src s))) (ir_l (sc_src s))). split; [exact H3|]. rewrite H4, app_assoc. split; [reflexivity|]. right. split; [exact H5|].
    apply wide_app; [exact H6|]. right. rewrite pad_length. apply clen_width.
Qed.
Lemma inv_tok : forall p s t, tokInv p s -> tokInv p (set_tok t s).
Proof. intros p s t H. exact H. Qed.

Lemma p_tokenChar : forall p s, tokInv p s -> casc cs (ir_l (sc_src s)) <> 0 -> casc cs (ir_l (sc_src s)) <> 38 ->
  post (fun s' _ => tokInv p s') (let! (s2, u) := tokenChar ops cfg s in sc_skip ops s2).
Proof.
  intros p s H Hz Ha. unfold tokenChar. rewrite i_ascii by apply H. cbn [bind].
  assert (Ea : asc_of (casc cs (ir_l (sc_src s))) = 13 \/ asc_of (casc cs (ir_l (sc_src s))) = 10 -> special (casc cs (ir_l (sc_src s)))).
  { unfold asc_of, special. destruct (_ <? 128); lia. }
  assert (Eb : special (casc cs (ir_l (sc_src s))) -> asc_of (casc cs (ir_l (sc_src s))) = 13 \/ asc_of (casc cs (ir_l (sc_src s))) = 10).
  { unfold asc_of, special. intros [E|[E|E]]; [contradiction|left|right]; rewrite E; reflexivity. }
  destruct (N.eqb_spec (asc_of (casc cs (ir_l (sc_src s)))) 13) as [E|E]; [|destruct (N.eqb_spec (asc_of (casc cs (ir_l (sc_src s)))) 10) as [E2|E2]].
  - cbn [bind]. pose proof (inv_special p s H (Ea (or_introl E))) as G. assert (G2 : ext s (upd_tok (tok_cr true) (push cfg 10 s))) by (apply ext_upd, ext_push, ext_refl; apply H).
    rewrite i_skip by apply G2. cbn [post]. apply spec_inv. eapply spec_ext; [exact G|]. apply ext_next. exact G2.
  - cbn [bind]. pose proof (inv_special p s H (Ea (or_intror E2))) as G.
    assert (G2 : ext s (upd_tok (tok_cr false) (if tk_cr (sc_tok s) then s else push cfg 10 s))) by (apply ext_upd; destruct (tk_cr (sc_tok s)); [|apply ext_push]; apply ext_refl; apply H).
    rewrite i_skip by apply G2. cbn [post]. apply spec_inv. eapply spec_ext; [exact G|]. apply ext_next. exact G2.
  - rewrite i_copychar by apply H. cbn [bind]. rewrite i_skip by apply H. cbn [post]. 
    assert (Hs : ~ special (casc cs (ir_l (sc_src s)))) by (intros Hs; destruct (Eb Hs); contradiction). exact (inv_ordinary p s H Hs Hz).
Qed.

Lemma p_tokenLoop : forall f it p s, isTokAt it CEndOfText = Some false -> isTokAt it CAmp = Some false -> tokInv p s ->
  post (fun s' ok => ok = true -> tokInv p s') (parseTokenLoop ops cfg f it s).
Proof.
  induction f as [|f IH]; intros it p s H0 H1 H; cbn [parseTokenLoop]; [exact I|]. rewrite i_control by apply H. cbn [bind].
  destruct (isTokAt it (ctl_of (casc cs (ir_l (sc_src s))))) as [[|]|] eqn:E; [| |exact I].
  - pose proof (p_tokenChar p s H) as G. destruct (tokenChar ops cfg s) as [s2 u| | | |]; cbn [bind] in *; try exact I.
    assert (Hz : casc cs (ir_l (sc_src s)) <> 0) by (intros Ez; rewrite Ez in E; change (ctl_of 0) with CEndOfText in E; congruence).
    assert (Ha : casc cs (ir_l (sc_src s)) <> 38) by (intros Ez; rewrite Ez in E; change (ctl_of 38) with CAmp in E; congruence).
    specialize (G Hz Ha). destruct (sc_skip ops s2) as [s3 u3| | | |]; cbn [bind post] in *; try exact I. apply IH; assumption.
  - destruct (ctl_eqb (ctl_of (casc cs (ir_l (sc_src s)))) CAmp) eqn:Ec; [|cbn [post]; intros _; exact H].
    assert (Ha : ctl_of (casc cs (ir_l (sc_src s))) = CAmp) by (destruct (ctl_of (casc cs (ir_l (sc_src s)))); try discriminate; reflexivity).
    apply ctl_amp in Ha. pose proof (inv_special p s H (or_introl Ha)) as G. rewrite i_skip by apply H. cbn [bind].
    assert (G2 : ext s (set_src s (inext (sc_src s)))) by (apply ext_next, ext_refl; apply H).
    eapply (post_bind (fun s' _ => ext s s')); [apply e_entity; exact G2|]. intros s3 ok H3. destruct ok; [|cbn [post]; discriminate].
    apply IH; auto. apply spec_inv. eapply spec_ext; [exact G|]. apply ext_upd. exact H3.
Qed.
Lemma def_tok : forall a it, tokenDef a = Some it -> isTokAt it CEndOfText = Some false /\ isTokAt it CAmp = Some false.
Proof. intros a it H. destruct a; inversion H; subst; split; reflexivity. Qed.

Lemma e_tokenLoop : forall f it s0 s, ext s0 s -> post (fun s' ok => ext s0 s' /\ (ok = false -> tk_id (sc_tok s') = TStart)) (parseTokenLoop ops cfg f it s).
Proof.
  induction f as [|f IH]; intros it s0 s H; cbn [parseTokenLoop]; [exact I|]. eapply (post_bind (fun s' _ => ext s0 s')); [apply e_control; exact H|]. intros s1 c H1.
  destruct (isTokAt it c) as [[|]|]; [| |exact I].
  - eapply (post_bind (fun s' _ => ext s0 s')).
    + unfold tokenChar. eapply (post_bind (fun s' _ => ext s0 s')); [apply e_ascii; exact H1|]. intros s2 a H2. destruct (a =? 13); [apply ext_upd, ext_push; exact H2|].
      destruct (a =? 10); [apply ext_upd; destruct (tk_cr (sc_tok s2)); [|apply ext_push]; exact H2|]. rewrite i_copychar by apply H2. cbn [bind post]. apply ext_upd. apply ext_out; [exact H2|].
      right. rewrite pad_length. apply clen_width.
    + intros s2 u H2. eapply (post_bind (fun s' _ => ext s0 s')); [apply e_skip; exact H2|]. intros s3 u3 H3. apply IH. exact H3.
  - destruct (ctl_eqb c CAmp); [|cbn [post]; split; [apply ext_upd; exact H1|discriminate]].
    eapply (post_bind (fun s' _ => ext s0 s')); [apply e_skip; exact H1|]. intros s2 u H2. eapply (post_bind (fun s' _ => ext s0 s')); [apply e_entity; exact H2|]. intros s3 ok H3.
    destruct ok; [apply IH; apply ext_upd; exact H3|]. cbn [post]. split; [apply ext_upd; exact H3|reflexivity].
Qed.

(** what is to be shown for a token that has been read completely *)
Hypothesis Hlen : N.of_nat (length text) < 2 ^ 64.
Hypothesis Hb : Forall isByte text.
Lemma inv_token : forall p s, tokInv p s -> token_at cs text (sc_tokpos s) (sc_obuf s).
Proof.
  intros p s [H1 [H2 [j [x [H3 [H4 H5]]]]]]. unfold token_at, source. destruct (N.le_gt_cases p (N.of_nat (length text))) as [Hp|Hp].
  - rewrite H2. replace (u64 p) with p by (unfold u64; rewrite N.mod_small; [reflexivity|lia]). fold (at_pos p). rewrite H4. destruct H5 as [[-> H5]|[H5 [->|H6]]].
    + rewrite app_nil_r, pad_length. auto.
    + rewrite app_nil_r, pad_length. auto.
    + intros F. exfalso. eapply plain_special; [exact H3|exact H5| |exact F]. rewrite app_length, pad_length. apply Nat.add_le_mono_l.
      rewrite special_clen; [exact H6| |exact H5]. apply skipn_bytes. apply skipn_bytes. exact Hb.
  - assert (E : at_pos p = []) by (apply skipn_all2; lia). rewrite E in *. rewrite skipn_nil in H5. rewrite casc_nil in H5 by exact Hcs.
    assert (Ej : j = 0%nat). { inversion H3 as [|? ? ? C _]; [reflexivity|]. rewrite casc_nil in C by exact Hcs. contradiction. }
    subst j. destruct H5 as [[-> H5]|[H5 _]]; [|unfold special in H5; lia]. rewrite H4. cbn. reflexivity.
Qed.

Lemma p_skipToken : forall f it (s : scn), rok (sc_src s) -> post (fun s' _ => rok (sc_src s')) (skipTokenLoop ops f it s).
Proof.
  induction f as [|f IH]; intros it s H; cbn [skipTokenLoop]; [exact I|]. rewrite i_control by exact H. cbn [bind]. destruct (isTokAt it _) as [b|]; [|exact I].
  destruct (b || _).
  - rewrite i_skip by exact H. cbn [bind]. apply IH. apply rok_next. exact H.
  - rewrite i_control by exact H. cbn [bind]. destruct (ctl_eqb _ CAny); [apply IH; exact H|exact H].
Qed.
Lemma p_expect : forall l (s : scn), rok (sc_src s) -> post (fun s' ok => rok (sc_src s') /\ sc_state s' = sc_state s /\ tk_id (sc_tok s') = TParsingDone) (expectLoop ops l s).
Proof.
  induction l as [|x l IH]; intros s H; cbn [expectLoop]; [cbn; auto|]. rewrite i_ascii by exact H. cbn [bind]. destruct (_ =? x).
  - rewrite i_skip by exact H. cbn [bind]. specialize (IH (upd_tok tok_incpos (set_src s (inext (sc_src s)))) (rok_next _ H)). destruct (expectLoop ops l _); cbn [post] in *; auto.
  - rewrite i_control by exact H. cbn [bind post]. auto.
Qed.

Lemma skip_state : forall f it (s : scn), rok (sc_src s) -> post (fun s' _ => sc_state s' = sc_state s /\ sc_tok s' = sc_tok s) (skipTokenLoop ops f it s).
Proof.
  induction f as [|f IH]; intros it s H; cbn [skipTokenLoop]; [exact I|]. rewrite i_control by exact H. cbn [bind]. destruct (isTokAt it _) as [b|]; [|exact I].
  destruct (b || _).
  - rewrite i_skip by exact H. cbn [bind]. apply (IH it (set_src s (inext (sc_src s)))). apply rok_next. exact H.
  - rewrite i_control by exact H. cbn [bind]. destruct (ctl_eqb _ CAny); [apply IH; exact H|cbn; auto].
Qed.

(** between two calls *)
Definition between (s : scn) : Prop := rok (sc_src s) /\ (tk_id (sc_tok s) = TStart \/ (tk_id (sc_tok s) = TParsingDone /\
  exists e a arg k, stm_get (sc_state s) = Some e /\ el_action e = Some (a, arg) /\ tokenDef a = None /\ stringDef a = Some k)).
Lemma string_next : forall st el a arg k, stm_get st = Some el -> el_action el = Some (a, arg) -> stringDef a = Some k -> Nat.eqb (el_nofnext el) 0 = false.
Proof.
  intros st el a arg k H1 H2 H3. destruct st; vm_compute in H1; injection H1 as <-; try discriminate H2; cbn in H2; injection H2 as <- <-; try discriminate H3; reflexivity.
Qed.
Lemma tok_next : forall st el a arg it, stm_get st = Some el -> el_action el = Some (a, arg) -> tokenDef a = Some it -> Nat.eqb (el_nofnext el) 0 = false.
Proof.
  intros st el a arg it H1 H2 H3. destruct st; vm_compute in H1; injection H1 as <-; try discriminate H2; cbn in H2; injection H2 as <- <-; try discriminate H3; reflexivity.
Qed.
(** what a call delivers *)
Definition delivered (mask : N) (t : etype) (s : scn) : Prop :=
  is_token t -> N.testbit mask (etype_idx t) = true -> token_at cs text (sc_tokpos s) (sc_obuf s).
Lemma empty_token : forall p, token_at cs text p [].
Proof. intros p _. reflexivity. Qed.

Lemma p_doAction : forall f mask a arg (s : scn) e, between s -> stm_get (sc_state s) = Some e -> el_action e = Some (a, arg) ->
  post (fun s' r => rok (sc_src s') /\ sc_state s' = sc_state s /\
    match r with
    | inl rt => ((rt = ENone /\ stringDef a <> None) \/ delivered mask rt s') /\ (tokenDef a = None -> stringDef a = None -> tk_id (sc_tok s') = TStart)
    | inr _ => between s'
    end) (doAction ops cfg f mask a arg s).
Proof.
  intros f mask a arg s e [H1 H2] He Ha. unfold doAction. destruct (tokenDef a) as [it|] eqn:Ed.
  - assert (Et : tk_id (sc_tok s) = TStart).
    { destruct H2 as [H2|[_ [e' [a' [arg' [k [G1 [G2 [G3 G4]]]]]]]]]; [exact H2|]. rewrite He in G1. injection G1 as <-. rewrite Ha in G2. injection G2 as <- _. congruence. }
    rewrite Et. destruct (def_tok a it Ed) as [D1 D2]. destruct (N.testbit mask (etype_idx arg)) eqn:Eb.
    + unfold parseToken. rewrite Et. cbn [ir_ops r_pos].
      pose proof (p_tokenLoop f it (ir_p (sc_src s)) (set_obuf [] (upd_tok (tok_id TParsingToken) (set_tokpos (u64 (ir_p (sc_src s))) s))) D1 D2) as G.
      assert (Gi : tokInv (ir_p (sc_src s)) (set_obuf [] (upd_tok (tok_id TParsingToken) (set_tokpos (u64 (ir_p (sc_src s))) s)))).
      { split; [exact H1|]. split; [reflexivity|]. exists 0%nat, []. split; [constructor|]. split; [reflexivity|]. left. split; [reflexivity|]. cbn [set_obuf upd_tok set_tok set_tokpos sc_src]. lia. }
      specialize (G Gi). pose proof (e_tokenLoop f it _ _ (ext_refl (set_obuf [] (upd_tok (tok_id TParsingToken) (set_tokpos (u64 (ir_p (sc_src s))) s))) H1)) as G2.
      destruct (parseTokenLoop ops cfg f it _) as [s1 ok| | | |]; cbn [bind post] in *; try exact I. destruct G2 as [[G2 [[_ G3] _]] G4]. cbn [set_obuf upd_tok set_tok set_tokpos sc_state] in G3. destruct ok; cbn [post].
      * specialize (G eq_refl). split; [exact G2|]. split; [exact G3|]. split; [|discriminate]. right. intros _ _. eapply inv_token. exact G.
      * split; [exact G2|]. split; [exact G3|]. split; [exact G2|]. left. apply G4. reflexivity.
    + pose proof (p_skipToken f it s H1) as G. pose proof (skip_state f it s H1) as G2. destruct (skipTokenLoop ops f it s) as [s1 ok| | | |]; cbn [bind post] in *; try exact I.
      destruct ok; cbn [post]; (split; [exact G|]); (split; [apply G2|]).
      * split; [|discriminate]. right. intros _ T. congruence.
      * split; [exact G|]. left. destruct G2 as [_ G2]. rewrite G2. exact Et.
  - destruct (stringDef a) as [k|] eqn:Es.
    + assert (Hn : post (fun s' r => rok (sc_src s') /\ sc_state s' = sc_state s /\
          match r with
          | inl rt => ((rt = ENone /\ Some k <> None) \/ delivered mask rt s') /\ (@None (list bool) = None -> Some k = None -> tk_id (sc_tok s') = TStart)
          | inr _ => between s'
          end) (let! (s1, ok) := expectStr ops k s in if ok then match a with ExpectIdentifierXML => Ret (push cfg 108 (push cfg 109 (push cfg 120 (push cfg 63 s1)))) (inl EHeaderStart) | _ => Ret s1 (inl ENone) end else Ret s1 (inr tt))).
      { unfold expectStr. eapply post_bind; [destruct (Nat.leb _ _); [apply p_expect; exact H1|exact I]|]. intros s1 ok [G1 [G2 G3]]. cbn beta in G1, G2, G3. destruct ok.
        - assert (Gx : post (fun s' r => rok (sc_src s') /\ sc_state s' = sc_state s /\
            match r with inl rt => ((rt = ENone /\ Some k <> None) \/ delivered mask rt s') /\ (@None (list bool) = None -> Some k = None -> tk_id (sc_tok s') = TStart) | inr _ => between s' end)
              (Ret (push cfg 108 (push cfg 109 (push cfg 120 (push cfg 63 s1)))) (inl EHeaderStart) : out scn (etype + unit))).
          { cbn. split; [exact G1|]. split; [exact G2|]. split; [|discriminate]. right. intros [T _]. congruence. }
          destruct a; try exact Gx; cbn; (split; [exact G1|]); (split; [exact G2|]); (split; [left; split; [reflexivity|discriminate]|discriminate]).
        - cbn. split; [exact G1|]. split; [exact G2|]. split; [exact G1|]. right. split; [exact G3|]. exists e, a, arg, k. cbn in G2. rewrite G2. auto. }
      destruct (tk_id (sc_tok s)) eqn:Et; try exact Hn. cbn. split; [exact H1|]. split; [reflexivity|]. split; [|discriminate]. destruct a; first [left; split; [reflexivity|discriminate]|right; intros [T _]; congruence].
    + cbn [post]. split; [exact H1|]. split; [reflexivity|]. split; [right; intros _ _; apply empty_token|]. intros _ _. cbn.
      destruct H2 as [H2|[_ [e' [a' [arg' [k [G1 [G2 [G3 G4]]]]]]]]]; [exact H2|]. rewrite He in G1. injection G1 as <-. rewrite Ha in G2. injection G2 as <- _. congruence.
Qed.

Lemma p_nextItem : forall f mask (s : scn), between s -> post (fun s' t => between s' /\ delivered mask t s') (nextItem ops cfg f mask s).
Proof.
  induction f as [|f IH]; intros mask s H; cbn [nextItem]; [exact I|]. destruct (stm_get (sc_state s)) as [e|] eqn:He; [|exact I].
  assert (Htr : forall (s1 : scn) rt, rok (sc_src s1) -> (rt = ENone \/ delivered mask rt s1) -> post (fun s' t => between s' /\ delivered mask t s')
    (let! (s2, c) := sc_control ops s1 in let! (s3, ok) := transition ops e c (upd_tok (tok_id TStart) s2) in
     if ok then if isNone rt then nextItem ops cfg f mask s3 else Ret s3 rt else Ret s3 EErrorOccurred)).
  { intros s1 rt G1 G2. rewrite i_control by exact G1. cbn [bind]. unfold transition. destruct (nth_error (el_next e) _) as [[ns|]|]; [| |exact I].
    - rewrite i_skip by exact G1. cbn [bind]. destruct (isNone rt) eqn:En; [apply IH; split; [apply rok_next; exact G1|left; reflexivity]|].
      cbn [post]. split; [split; [apply rok_next; exact G1|left; reflexivity]|]. destruct G2 as [->|G2]; [discriminate|exact G2].
    - destruct (el_fallback e) as [fs|].
      + cbn [bind]. destruct (isNone rt) eqn:En; [apply IH; split; [exact G1|left; reflexivity]|]. cbn [post]. split; [split; [exact G1|left; reflexivity]|]. destruct G2 as [->|G2]; [discriminate|exact G2].
      + destruct (el_miss e); cbn [bind post]; (split; [split; [exact G1|left; reflexivity]|]); intros [_ T]; congruence. }
  destruct (el_action e) as [[a arg]|] eqn:Ea.
  - pose proof (p_doAction f mask a arg s e H He Ea) as G. destruct (doAction ops cfg f mask a arg s) as [s1 r| | | |]; cbn [bind post] in *; try exact I. destruct G as [G1 [G2 G3]].
    destruct r as [rt|]; cbn [bind snd fst].
    + destruct G3 as [G3 G4]. destruct (Nat.eqb (el_nofnext e) 0) eqn:E0; cbn [bind snd fst]; [|apply Htr; [exact G1|]; destruct G3 as [[G3 _]|G3]; auto].
      assert (T1 : tokenDef a = None) by (destruct (tokenDef a) eqn:Ed; [rewrite (tok_next _ _ _ _ _ He Ea Ed) in E0; discriminate|reflexivity]).
      assert (T2 : stringDef a = None) by (destruct (stringDef a) eqn:Ed; [rewrite (string_next _ _ _ _ _ He Ea Ed) in E0; discriminate|reflexivity]).
      specialize (G4 T1 T2). cbn [post]. split.
      * destruct (el_fallback e); (split; [exact G1|left; exact G4]).
      * destruct G3 as [[_ G3]|G3]; [contradiction|]. destruct (el_fallback e); exact G3.
    + split; [exact G3|]. intros [_ T]. congruence.
  - cbn [bind snd fst]. apply (Htr s ENone); [apply H|auto].
Qed.
Lemma p_scan : forall f masks (s : scn), between s -> post (fun _ evs => Forall2 (fun mask ev => is_token (ev_type ev) -> N.testbit mask (etype_idx (ev_type ev)) = true ->
  token_at cs text (ev_tokpos ev) (ev_item ev)) masks evs) (scan ops cfg f masks s).
Proof.
  intros f. induction masks as [|k masks IH]; intros s H; cbn [scan]; [constructor|].
  eapply post_bind; [apply p_nextItem; exact H|]. intros s1 t [H1 H2]. cbn beta in H1, H2. eapply post_bind; [apply IH; exact H1|]. intros s2 evs H3. cbn beta in H3. cbn [post].
  constructor; [exact H2|exact H3].
Qed.
End Pos.

Theorem token_positions : forall cs f masks text s evs, cs_constructible cs = true -> Forall isByte text -> N.of_nat (length text) < 2 ^ 64 ->
  xml_scan cs cs f masks text = Ret s evs ->
  Forall2 (fun mask ev => is_token (ev_type ev) -> N.testbit mask (etype_idx (ev_type ev)) = true -> token_at cs text (ev_tokpos ev) (ev_item ev)) masks evs.
Proof.
  intros cs f masks text s evs Hcs Hb Hl E.
  assert (Hini : srel eq (srcr cs) (sc_make (ts_make (src_make text false))) (sc_make (mkIr text EndZero 0))).
  { constructor; auto. apply (src_make_rel cs _ false Hb). }
  pose proof (sim_scan _ _ _ _ eq _ _ (sim_nextItem _ _ (xml_config cs cs None 0) _ _ _ _ (src_rsim cs Hcs))
     (rs_pos _ _ _ _ _ _ (src_rsim cs Hcs)) f masks _ _ Hini) as G. unfold xml_scan in E. rewrite E in G. inversion G as [? t ? evs' _ He Q1 Q2| | | |]; subst.
  apply evrel_eq in He. subst evs'.
  assert (Ec : xml_config cs cs None 0 = mkCfg cs true None 0) by (unfold xml_config; rewrite same_raw; reflexivity). rewrite Ec in Q2.
  pose proof (p_scan cs text None 0 Hcs Hl Hb f masks (sc_make (mkIr text EndZero 0))) as P. rewrite <- Q2 in P. apply P. split; [split; reflexivity|left; reflexivity].
Qed.
