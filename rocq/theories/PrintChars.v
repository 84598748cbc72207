(** What is printed for a character, and the tokens printed (proofs). *)
From Verif Require Import Base Iter CharMap CodePages Charset TextScanner Ideal ReaderSim ScannerSim IterSim
  CharsetSpec CharsetProofs ReadSpec ReadProofs CharsetMore CstrSim XmlPrinter XmlScanner DocSpec PrintSpec PrintProofs.
Ltac Zify.zify_post_hook ::= Z.div_mod_to_equations.

Definition reprb (cs : charset) (c : N) : bool :=
  match cs with
  | UTF8 => c <? 2 ^ 31
  | UTF16 _ => (c <=? 0x10FFFF) && negb ((0xD800 <=? c) && (c <? 0xDC00))
  | UCS2 _ => c <? 2 ^ 16
  | UCS4 _ => c <? 2 ^ 32
  | IsoLatin p => ((0 <? c) && (c <? 128)) || ((128 <=? c) && (c <? 256) && match iso8859_byte p c with Some b => iso8859_right p b | None => false end)
  end.
Lemma reprb_spec : forall cs c, reprb cs c = true <-> representable cs c.
Proof.
  intros [|be|be|be|p] c; cbn [reprb representable]; change (2 ^ 31) with 2147483648; change (2 ^ 16) with 65536; change (2 ^ 32) with 4294967296; try lia.
  destruct (iso8859_byte p c) as [b|]; [destruct (iso8859_right p b) eqn:E|]; split; intros H.
  - destruct (N.lt_ge_cases c 128); [left; lia|right; split; [lia|eauto]].
  - destruct H as [H|[H _]]; lia.
  - left. lia.
  - destruct H as [H|[H [b0 [E1 E2]]]]; [lia|]. injection E1 as <-. congruence.
  - left. lia.
  - destruct H as [H|[H [b0 [E1 E2]]]]; [lia|]. discriminate.
Qed.

(** the reference printed for a character not in the character set *)
Definition cref (c : N) : ref := RHex (rev (enc_digits 8 c)).
Lemma cref_src : forall c, ref_src (cref c) = encode c.
Proof. reflexivity. Qed.

Lemma hexval_digit : forall c d, hexval c = Some d -> hex_digit c /\ digit_value c = d.
Proof.
  intros c d H. unfold hexval in H. unfold hex_digit, digit_value.
  repeat match type of H with context [if ?b then _ else _] => destruct b eqn:?E end; try discriminate; injection H as <-.
  all: repeat match goal with |- context [if ?b then _ else _] => destruct b eqn:?E0 end; lia.
Qed.
Lemma hexnum_number : forall l acc v, hexnum acc l = Some v -> Forall hex_digit l /\ fold_left (fun v c => v * 16 + digit_value c) l acc = v.
Proof.
  induction l as [|c l IH]; intros acc v H; cbn [hexnum fold_left] in *; [injection H as <-; split; [constructor|reflexivity]|].
  destruct (hexval c) as [d|] eqn:E; [|discriminate]. destruct (hexval_digit c d E) as [H1 H2]. destruct (IH _ _ H) as [H3 H4].
  split; [constructor; assumption|]. rewrite H2. exact H4.
Qed.
Lemma enc_digits_length : forall n c, (length (enc_digits n c) <= n)%nat.
Proof. induction n as [|n IH]; intros c; cbn [enc_digits length]; [lia|]. destruct (c =? 0); cbn [length]; [lia|]. specialize (IH (c / 16)). lia. Qed.
Lemma cref_ok : forall c, 0 < c < 2 ^ 32 -> ref_ok (cref c) /\ ref_char (cref c) = c.
Proof.
  intros c Hc. pose proof (enc_digits_num 8 c) as H. change (16 ^ N.of_nat 8) with (2 ^ 32) in H. specialize (H (proj2 Hc)).
  destruct (hexnum_number _ _ _ H) as [H1 H2]. cbn [cref ref_ok ref_char]. unfold number. rewrite H2. split; [|reflexivity]. split; [exact H1|]. split; [|tauto].
  rewrite rev_length. pose proof (enc_digits_length 8 c). split; [|lia]. cbn [enc_digits]. destruct (N.eqb_spec c 0); [lia|]. cbn [length]. lia.
Qed.

Lemma ascii_repr : forall cs c, 0 < c < 128 -> representable cs c.
Proof. intros [|be|be|be|p] c H; cbn [representable]; change (2 ^ 31) with 2147483648; change (2 ^ 16) with 65536; change (2 ^ 32) with 4294967296; lia. Qed.

Lemma print_ref : forall cs c, cs_constructible cs = true -> 0 < c < 2 ^ 32 -> printable cs c -> reprb cs c = false ->
  cs_print cs c = flat_map (cs_print cs) (encode c).
Proof.
  intros cs c Hcs Hc Hp Hr. assert (Hnr : ~ representable cs c) by (intros H; apply reprb_spec in H; congruence).
  assert (Hne : cs <> UTF8) by (intros ->; apply Hnr; exact Hp).
  destruct (print_reference cs c Hcs Hne Hc) as [[b [-> [E1 E2]]]|[H|[text [-> [_ E]]]]].
  - exfalso. cbn [printable] in Hp. destruct Hp as [Hp|[Hp|Hp]]; [|
      |congruence].
    + apply Hnr. apply ascii_repr. lia.
    + assert (b < 256 \/ 256 <= b) as [Hb|Hb] by lia.
      * assert (Hs : forallb (fun b => match ucharcode 3 b with Some c => c <? 0x2DA | None => true end) bytes256 = true) by (vm_compute; reflexivity).
        assert (Hs2 : forallb (fun c => match iso_print 3 c with [b] => false | _ => true end) (map (fun x => 256 + N.of_nat x) (seq 0 1000)) = true) by (vm_compute; reflexivity).
        pose proof (sweep256 _ Hs b Hb) as G. cbn beta in G. rewrite E2 in G. rewrite forallb_forall in Hs2. specialize (Hs2 c).
        rewrite in_map_iff in Hs2. cbn [cs_print] in E1. rewrite E1 in Hs2. discriminate Hs2. exists (N.to_nat (c - 256)). split; [lia|]. apply in_seq. lia.
      * unfold ucharcode in E2. destruct (N.ltb_spec b 128); [lia|]. destruct (codePage 3) as [cd|] eqn:Ecd; [|discriminate].
        assert (nth_error cd (N.to_nat (b - 128)) <> None) by congruence. apply nth_error_Some in H0.
        assert (length cd = 128%nat) by (vm_compute in Ecd; injection Ecd as <-; reflexivity). lia.
  - tauto.
  - rewrite E. apply flat_map_ext_Forall with (P := fun x => 0 < x < 128).
    + pose proof (encode_ascii c) as Ha. apply Forall_forall. intros x Hx. rewrite Forall_forall in Ha. specialize (Ha x Hx). split; [|exact Ha].
      rewrite <- cref_src in Hx. destruct (cref_ok c Hc) as [[H _] _]. cbn [cref ref_src] in Hx. rewrite !in_app_iff in Hx.
      destruct Hx as [Hx|[Hx|Hx]]; [vm_compute in Hx; lia| |vm_compute in Hx; lia]. rewrite Forall_forall in H. specialize (H x Hx). unfold hex_digit in H. lia.
    + intros x Hx. symmetry. apply print_spec; [exact Hcs|apply ascii_repr; exact Hx].
Qed.

(** ** decoded characters fit in 32 bits *)
Lemma u32_bound : forall x, u32 x < 2 ^ 32.
Proof. intros x. unfold u32. apply N.mod_lt. discriminate. Qed.
Lemma cval_bound : forall cs l, cs_constructible cs = true -> Forall isByte l -> cval cs l < 2 ^ 32.
Proof.
  intros cs l Hcs Hl. destruct cs as [|be|be|be|p].
  - rewrite (proj1 (utf8_read_spec l Hl)). unfold spec_utf8_read. change (2 ^ 32) with 4294967296. destruct l as [|b t]; [cbn; lia|].
    destruct (N.ltb_spec b 128); [cbn [fst]; lia|]. destruct (continuation b); [cbn [fst]; lia|]. cbn [fst].
    destruct (forallb _ _); [|lia]. apply N.mod_lt. discriminate.
  - cbn [cval]. unfold utf16_value_of. destruct (Nat.eqb _ _); [|apply u32_bound]. destruct (_ <? _)%Z; [change (2 ^ 32) with 4294967296; lia|apply u32_bound].
  - apply u32_bound.
  - apply u32_bound.
  - cbn [cval]. unfold ucharcode. destruct (N.ltb_spec (nb l 0) 128); [change (2 ^ 32) with 4294967296; lia|].
    cbn [cs_constructible] in Hcs. pose proof (pages_in p Hcs) as Hin.
    assert (Hs : forallb (fun p => match codePage p with Some cd => forallb (fun v => v <? 2 ^ 32) cd | None => true end) [1;2;3;4;5;6;7;8;9] = true) by (vm_compute; reflexivity).
    rewrite forallb_forall in Hs. specialize (Hs p Hin). destruct (codePage p) as [cd|]; [|change (2 ^ 32) with 4294967296; lia].
    destruct (nth_error cd _) as [v|] eqn:E; [|change (2 ^ 32) with 4294967296; lia]. apply nth_error_In in E. rewrite forallb_forall in Hs. specialize (Hs v E). lia.
Qed.
Lemma units_bound : forall cs l, cs_constructible cs = true -> Forall isByte l -> Forall (fun u => u_val u < 2 ^ 32) (units cs l).
Proof.
  intros cs l Hcs. unfold units. generalize (length l) as n. intros n. revert l. induction n as [|n IH]; intros l Hl; [constructor|]. destruct l as [|b l]; [constructor|].
  cbn [units_n]. constructor; [apply cval_bound; assumption|]. apply IH. apply skipn_bytes. exact Hl.
Qed.
Lemma dec_text_range : forall acs src, cs_constructible acs = true -> Forall isByte src -> Forall (fun c => 0 < c < 2 ^ 32) (dec_text acs src).
Proof.
  intros acs src Hcs Hb. pose proof (dec_text_nonzero acs src) as H1. pose proof (units_bound (default_cs acs) src (default_constructible acs Hcs) Hb) as H2.
  unfold dec_text, text_chars in *. induction H2 as [|u l Hu H2 IH]; [constructor|]. cbn [map until_null] in *. destruct (N.eqb_spec (u_val u) 0); [constructor|].
  inversion H1; subst. constructor; [lia|]. apply IH. assumption.
Qed.

(** ** Tokens: [f] tells what characters are written as references *)
Section Tokens.
Context (f : N -> option ref).
Fixpoint tok_of (l : list N) : token :=
  match l with
  | [] => mkToken [] []
  | c :: l' => let t := tok_of l' in
               match f c with
               | None => mkToken (c :: t_raw t) (t_refs t)
               | Some r => mkToken [] ((Ref r, t_raw t) :: t_refs t)
               end
  end.
Definition piece (c : N) : list N := match f c with None => [c] | Some r => ref_src r end.
Lemma tok_of_src : forall l, tok_src (tok_of l) = flat_map piece l.
Proof.
  induction l as [|c l IH]; [reflexivity|]. cbn [tok_of flat_map]. rewrite <- IH. unfold tok_src, piece. destruct (f c); cbn [t_raw t_refs flat_map app fst snd]; [|reflexivity].
  rewrite <- app_assoc. reflexivity.
Qed.
Lemma eol_id : forall l, Forall (fun c => c <> 13) l -> eol l = l.
Proof. intros l H. induction H as [|c l Hc H IH]; [reflexivity|]. cbn [eol]. destruct (N.eqb_spec c 13); [congruence|]. rewrite IH. reflexivity. Qed.
Lemma tok_of_raw : forall (P : N -> Prop) l, Forall (fun c => f c = None -> P c) l ->
  Forall P (t_raw (tok_of l)) /\ Forall (fun p => Forall P (snd p)) (t_refs (tok_of l)).
Proof.
  intros P l H. induction H as [|c l Hc H [IH1 IH2]]; [split; constructor|]. cbn [tok_of]. destruct (f c) eqn:E; cbn [t_raw t_refs].
  - split; [constructor|]. constructor; assumption.
  - split; [constructor; auto|assumption].
Qed.
Lemma tok_of_chars : forall l, Forall (fun c => match f c with None => c <> 13 | Some r => ref_char r = c end) l -> tok_chars (tok_of l) = l.
Proof.
  intros l H. assert (H13 : Forall (fun c => f c = None -> c <> 13) l) by (eapply Forall_impl; [|exact H]; cbn beta; intros a Ha E; rewrite E in Ha; exact Ha).
  destruct (tok_of_raw _ l H13) as [R1 R2]. unfold tok_chars. rewrite (eol_id _ R1).
  assert (E : flat_map (fun p : amp * list N => amp_chars (fst p) ++ eol (snd p)) (t_refs (tok_of l)) = flat_map (fun p => amp_chars (fst p) ++ snd p) (t_refs (tok_of l))).
  { eapply flat_map_ext_Forall; [exact R2|]. cbn beta. intros x Hx. rewrite (eol_id _ Hx). reflexivity. }
  rewrite E. clear E R1 R2 H13. induction H as [|c l Hc H IH]; [reflexivity|]. cbn [tok_of]. destruct (f c); cbn [t_raw t_refs flat_map amp_chars app fst snd]; rewrite IH, ?Hc; reflexivity.
Qed.
Lemma tok_of_eol : f 10 = None -> f 13 = None -> forall l, Forall (fun c => match f c with None => True | Some r => ref_char r = c end) l -> tok_chars (tok_of l) = eol l.
Proof.
  intros H10 H13 l. remember (length l) as n eqn:En. assert (Hn : (length l <= n)%nat) by lia. clear En. revert l Hn.
  induction n as [|n IH]; intros l Hn H; [destruct l; [reflexivity|cbn in Hn; lia]|]. destruct l as [|c l]; [reflexivity|]. inversion H as [|? ? Hc H']; subst. cbn [length] in Hn.
  assert (IHl : tok_chars (tok_of l) = eol l) by (apply IH; [lia|exact H']). cbn [tok_of]. destruct (N.eqb_spec c 13) as [->|Hc13].
  - rewrite H13. destruct l as [|d l]; [reflexivity|]. destruct (N.eqb_spec d 10) as [->|Hd].
    + cbn [tok_of]. rewrite H10. unfold tok_chars. cbn [t_raw t_refs eol]. change (13 =? 13) with true. change (10 =? 10) with true. cbn iota. cbn [app]. f_equal.
      inversion H' as [|? ? _ H'']; subst. apply IH; [cbn [length] in Hn; lia|exact H''].
    + assert (Er : eol (13 :: d :: l) = 10 :: eol (d :: l)) by (cbn [eol]; change (13 =? 13) with true; cbn iota; destruct (N.eqb_spec d 10); [congruence|reflexivity]).
      rewrite Er, <- IHl. unfold tok_chars. cbn [t_raw t_refs]. cbn [tok_of]. destruct (f d) as [r|]; cbn [t_raw t_refs]; [reflexivity|].
      cbn [eol]. change (13 =? 13) with true. cbn iota. destruct (N.eqb_spec d 10); [congruence|reflexivity].
  - assert (Er : eol (c :: l) = c :: eol l) by (cbn [eol]; destruct (N.eqb_spec c 13); [congruence|reflexivity]). rewrite Er, <- IHl. unfold tok_chars.
    destruct (f c) as [r|]; cbn [t_raw t_refs flat_map fst snd amp_chars eol app].
    + rewrite Hc. reflexivity.
    + destruct (N.eqb_spec c 13); [congruence|reflexivity].
Qed.
Lemma tok_of_ok : forall (P : N -> Prop) l, Forall (fun c => match f c with None => P c | Some r => ref_ok r end) l -> tok_ok P (tok_of l).
Proof.
  intros P l H. assert (HP : Forall (fun c => f c = None -> P c) l) by (eapply Forall_impl; [|exact H]; cbn beta; intros a Ha E; rewrite E in Ha; exact Ha).
  destruct (tok_of_raw _ l HP) as [R1 R2]. split; [exact R1|]. clear R1 HP. induction H as [|c l Hc H IH]; [constructor|]. cbn [tok_of] in *. destruct (f c); cbn [t_refs] in *; [|auto].
  inversion R2; subst. constructor; [cbn [fst snd] in *; split; assumption|auto].
Qed.
(** dropping blank characters *)
Fixpoint drop_raw (l : list N) : list N :=
  match l with
  | [] => []
  | c :: l' => match f c with None => if blank c then drop_raw l' else l | Some _ => l end
  end.
Lemma tok_of_strip : forall l, tok_strip (tok_of l) = tok_of (drop_raw l).
Proof.
  induction l as [|c l IH]; [reflexivity|]. cbn [tok_of drop_raw]. destruct (f c) eqn:E; [unfold tok_strip; cbn [t_raw t_refs strip tok_of]; rewrite E; reflexivity|].
  unfold tok_strip. cbn [t_raw t_refs strip]. destruct (blank c); [exact IH|]. cbn [tok_of]. rewrite E. reflexivity.
Qed.
End Tokens.

(** ** The references of the printer *)
Section Refs.
Context (ocs : charset).
Hypothesis Hocs : cs_constructible ocs = true.
Definition raw_ref (c : N) : option ref := if reprb ocs c then None else Some (cref c).
Definition content_ref (c : N) : option ref :=
  if c =? 60 then Some RLt else if c =? 62 then Some RGt else if c =? 38 then Some RAmp else if c =? 8 then Some (RDec (str "8")) else raw_ref c.
Definition attr_ref (c : N) : option ref :=
  if c =? 60 then Some RLt else if c =? 62 then Some RGt else if c =? 39 then Some RApos else if c =? 34 then Some RQuot else
  if c =? 38 then Some RAmp else if c =? 8 then Some (RDec (str "8")) else if c =? 9 then Some (RDec (str "9")) else
  if c =? 10 then Some (RDec (str "10")) else if c =? 13 then Some (RDec (str "13")) else raw_ref c.
Definition in_range (c : N) : Prop := 0 < c < 2 ^ 32 /\ printable ocs c.

Lemma ref_ascii : forall r, ref_ok r -> Forall (fun x => 0 < x < 128) (ref_src r).
Proof.
  intros r Hr. destruct r as [ds|ds| | | | |]; try (repeat constructor; lia); cbn [ref_src ref_ok] in *; destruct Hr as [Hd _];
  apply Forall_app; (split; [repeat constructor; lia|]); apply Forall_app; (split; [|repeat constructor; lia]);
  (eapply Forall_impl; [|exact Hd]); intros x Hx; cbn beta; unfold dec_digit, hex_digit in Hx; lia.
Qed.

(** a function that selects a correct reference or nothing *)
Definition refs_right (f : N -> option ref) : Prop :=
  forall c, in_range c -> match f c with None => representable ocs c | Some r => ref_ok r /\ ref_char r = c end.
Lemma raw_right : refs_right raw_ref.
Proof.
  intros c [Hc _]. unfold raw_ref. destruct (reprb ocs c) eqn:E; [apply reprb_spec; exact E|]. apply cref_ok. exact Hc.
Qed.
Lemma dec_ref_ok : forall s, forallb (fun c => (48 <=? c) && (c <=? 57)) s && (1 <=? length s)%nat && (length s <=? 3)%nat && (number 10 s <? 1000) = true -> ref_ok (RDec s).
Proof.
  intros s H. cbn [ref_ok]. split; [|change (2 ^ 32) with 4294967296; lia]. apply Forall_forall. intros x Hx.
  repeat (apply andb_prop in H; destruct H as [H ?]). rewrite forallb_forall in H. specialize (H x Hx). unfold dec_digit. lia.
Qed.
Lemma content_right : refs_right content_ref.
Proof.
  intros c Hc. unfold content_ref.
  repeat (match goal with |- context [N.eqb c ?k] => destruct (N.eqb_spec c k) as [->|]; [split; [first [exact I|apply dec_ref_ok; vm_compute; reflexivity]|reflexivity]|] end).
  apply raw_right. exact Hc.
Qed.
Lemma attr_right : refs_right attr_ref.
Proof.
  intros c Hc. unfold attr_ref.
  repeat (match goal with |- context [N.eqb c ?k] => destruct (N.eqb_spec c k) as [->|]; [split; [first [exact I|apply dec_ref_ok; vm_compute; reflexivity]|reflexivity]|] end).
  apply raw_right. exact Hc.
Qed.

Lemma pieces_repr : forall f l, refs_right f -> Forall in_range l -> Forall (representable ocs) (flat_map (piece f) l).
Proof.
  intros f l Hf H. induction H as [|c l Hc H IH]; [constructor|]. cbn [flat_map]. apply Forall_app. split; [|exact IH].
  specialize (Hf c Hc). unfold piece. destruct (f c) as [r|]; [|constructor; [exact Hf|constructor]].
  eapply Forall_impl; [|exact (ref_ascii r (proj1 Hf))]. intros x Hx. apply ascii_repr. exact Hx.
Qed.
Lemma enc_pieces : forall f g l, (forall c, in_range c -> enc ocs (g c) = enc ocs (piece f c)) -> Forall in_range l ->
  enc ocs (flat_map g l) = enc ocs (flat_map (piece f) l).
Proof.
  intros f g l Hf H. induction H as [|c l Hc H IH]; [reflexivity|]. cbn [flat_map]. rewrite !enc_app, IH, (Hf c Hc). reflexivity.
Qed.
Lemma raw_piece : forall c, in_range c -> enc ocs [c] = enc ocs (piece raw_ref c).
Proof.
  intros c [Hc Hp]. unfold piece, raw_ref. destruct (reprb ocs c) eqn:E; [reflexivity|]. rewrite <- enc1, cref_src. apply print_ref; assumption.
Qed.
Lemma content_piece : forall c, in_range c -> enc ocs (esc_of content_escapes c) = enc ocs (piece content_ref c).
Proof.
  intros c Hc. unfold esc_of, content_escapes, piece, content_ref. cbn [find fst snd]. rewrite !(N.eqb_sym _ c).
  repeat (match goal with |- context [N.eqb c ?k] => destruct (N.eqb_spec c k) as [->|]; [reflexivity|] end). exact (raw_piece c Hc).
Qed.
Lemma attr_piece : forall c, in_range c -> enc ocs (esc_of attr_escapes c) = enc ocs (piece attr_ref c).
Proof.
  intros c Hc. unfold esc_of, attr_escapes, piece, attr_ref. cbn [find fst snd]. rewrite !(N.eqb_sym _ c).
  repeat (match goal with |- context [N.eqb c ?k] => destruct (N.eqb_spec c k) as [->|]; [reflexivity|] end). exact (raw_piece c Hc).
Qed.
Lemma raw_pieces : forall l, Forall in_range l -> enc ocs l = enc ocs (flat_map (piece raw_ref) l).
Proof.
  intros l H. rewrite <- (enc_pieces raw_ref (fun c => [c])) by (first [exact raw_piece|exact H]). f_equal.
  clear H. induction l as [|c l IH]; [reflexivity|]. cbn [flat_map app]. f_equal. exact IH.
Qed.

Lemma pieces_escaped : forall bad f l, refs_right f -> (forall c, In c bad -> f c <> None) -> Forall in_range l -> escaped bad (flat_map (piece f) l) l.
Proof.
  intros bad f l Hf Hb H. induction H as [|c l Hc H IH]; [constructor|]. cbn [flat_map]. specialize (Hf c Hc). unfold piece. destruct (f c) as [r|] eqn:E.
  - destruct Hf as [Hr Hch]. rewrite <- Hch. apply esc_ref; assumption.
  - apply esc_char; [|exact IH]. intros Hin. apply (Hb c Hin). exact E.
Qed.
Lemma enc_spec : forall l, Forall (representable ocs) l -> enc ocs l = flat_map (spec_encode ocs) l.
Proof. intros l H. unfold enc. eapply flat_map_ext_Forall; [exact H|]. intros c Hc. apply print_spec; assumption. Qed.
End Refs.
