(** The parser of path expressions on arbitrary bytes (proofs). *)
From Coq Require Import Lia ZifyBool ZifyNat.
From Verif Require Import Base Iter CharMap CodePages Charset TextScanner XmlPrinter Ideal ReaderSim ScannerSim IterSim
  CharsetSpec CharsetProofs ReadSpec ReadProofs CstrSim XmlScanner ScanSpec ScanProofs CharReader CharsetMore ParseRead PathAtm PathSpec PathProg PathExtra PathParse PathNames PosProofs InspectSpec InspectSafe.

(** ** names *)
(** the name is made of complete characters *)
Inductive whole (cs : charset) : list N -> Prop :=
| whole_nil : whole cs []
| whole_app : forall c n, c <> [] -> Forall isByte c -> (forall l, clen cs (c ++ l) = length c) -> whole cs n -> whole cs (c ++ n).

Lemma whole_cat cs n m : whole cs n -> whole cs m -> whole cs (n ++ m).
Proof. intros H. induction H; intros Hm; [exact Hm|]. rewrite <- app_assoc. constructor; auto. Qed.
Lemma whole_bytes cs n : whole cs n -> Forall isByte n.
Proof. intros H. induction H; [constructor|]. apply Forall_app. auto. Qed.

Lemma whole_read cs f n : bytewise cs = true -> whole cs n -> forall buf p t, (2 * length n < f)%nat ->
  cptrr cs t (mkIr (n ++ [0]) EndUndef p) -> exists t' k, parseStaticToken (ts_ops cptr_ops cs) f isTagChar cs buf t = Ret t' k.
Proof.
  intros Hb Hw. assert (Hcs : cs_constructible cs = true) by (destruct cs; try discriminate Hb; exact Hb). revert f.
  induction Hw as [|c n Hc Hby Hl Hw IH]; intros f buf p t Hf Ht; (destruct f as [|f]; [lia|]); cbn [parseStaticToken].
  - destruct (control_ir cs Hcs t _ Ht) as (t1 & E1 & _); [destruct cs; try discriminate Hb; reflexivity|]. cbn [ir_l app] in E1.
    assert (Hz : casc cs [0] = 0) by (destruct cs; try discriminate Hb; reflexivity). rewrite E1, Hz. cbn [bind].
    change (isTokAt isTagChar (ctl_of 0)) with (Some false). change (ctl_eqb (ctl_of 0) CAmp) with false. cbv iota. eauto.
  - rewrite <- app_assoc in Ht. set (l := c ++ n ++ [0]) in *.
    assert (Hlen : clen cs l = length c) by apply Hl.
    assert (Hready : ready EndUndef (clen cs l) l = true) by (apply ready_spec; right; rewrite Hlen; unfold l; rewrite app_length; lia).
    assert (Hready' : ready EndUndef (alen cs l) l = true) by (eapply ready_le; [exact Hready|apply alen_le_clen]).
    assert (Hc1 : (1 <= length c)%nat) by (destruct c; [contradiction|cbn; lia]). rewrite app_length in Hf.
    destruct (control_ir cs Hcs t _ Ht Hready') as (t0 & E0 & H0). cbn [ir_l] in E0. rewrite E0. cbn [bind].
    assert (Hsk : skipn (clen cs l) l = n ++ [0]) by (rewrite Hlen; unfold l; apply skipn_app_exact; reflexivity).
    destruct (isTokAt isTagChar (ctl_of (casc cs l))) as [[]|] eqn:Et.
    + destruct (chr_ir cptr_ops cs _ _ _ _ (cptr_rsim cs Hcs) t0 _ H0 Hready) as [t1 [E1 H1]]. cbn [ts_ops r_chr r_skip]. rewrite E1. cbn [bind].
      destruct (skip_ir cptr_ops cs _ _ _ _ (cptr_rsim cs Hcs) t1 _ H1 Hready) as [t2 [E2 H2]]. rewrite E2. cbn [bind].
      unfold ir_skipto in H2; cbn [ir_l ir_m ir_p] in H2. rewrite Hsk in H2. eapply IH; [lia|exact H2].
    + destruct (ctl_eqb (ctl_of (casc cs l)) CAmp) eqn:Ea; [|eauto].
      assert (Ha : casc cs l = 38) by (apply ctl_amp; destruct (ctl_of (casc cs l)); try discriminate Ea; reflexivity).
      pose proof (rs_ascii _ _ _ _ _ _ (cptr_rsim cs Hcs) t0 _ H0) as Hs. cbn [ir_ops r_ascii ir_l] in Hs. unfold need in Hs. unfold ready in Hready'. cbn [ir_l ir_m] in Hs.
      destruct (Nat.leb (alen cs l) (length l)); [|discriminate Hready']. rewrite Ha in Hs. inversion Hs as [t1 ? ? H1 E1| | | |]; subst. clear Hs.
      unfold parseStaticNumericEntityValue. cbn [ts_ops r_ascii r_skip] in E1 |- *. rewrite <- E1. cbn [bind]. change (negb (asc_of 38 =? 35)) with true. cbv iota. cbn [bind].
      destruct (skip_ir cptr_ops cs _ _ _ _ (cptr_rsim cs Hcs) t1 _ H1 Hready) as [t2 [E2 H2]]. cbn [ts_ops r_skip]. rewrite E2. cbn [bind].
      unfold ir_skipto in H2; cbn [ir_l ir_m ir_p] in H2. rewrite Hsk in H2. eapply IH; [lia|exact H2].
    + destruct (ctl_of (casc cs l)); discriminate Et.
Qed.
Lemma whole_key cs n : bytewise cs = true -> whole cs n -> name_read cs n.
Proof.
  intros Hb Hw. unfold name_read, static_key.
  destruct (whole_read cs (2 * length n + 3) n Hb Hw [] 0 (ts_make (mkCptr (n ++ [0]) 0))) as (t & k & E); [lia| |rewrite E; eauto].
  apply cptr_make_rel. apply Forall_app. split; [apply (whole_bytes cs); exact Hw|]. repeat constructor.
Qed.

Lemma below256 (P : N -> bool) : forallb P (map N.of_nat (seq 0 256)) = true -> forall x, P (u8 x) = true.
Proof.
  intros H x. rewrite forallb_forall in H. apply H. apply in_map_iff. exists (N.to_nat (u8 x)). split; [apply N2Nat.id|].
  apply in_seq. unfold u8. pose proof (N.mod_lt x 256 ltac:(lia)). change (2 ^ 8) with 256. lia.
Qed.
Definition lead_ok (pp : N) (x : N) : bool :=
  let HB := u8 (N.shiftl 0xFF (8 - (pp + 1))) in
  let mask := Z.to_N (Z.land (Z.shiftr (Z.lnot (Z.of_N HB)) 1) 0xFF) in
  Nat.eqb (Nat.max 1 (N.to_nat (nth (N.to_nat (u8 (N.lor (N.land x mask) HB))) utf8LengthTab 0%N))) (S (N.to_nat pp)).
Lemma cont_len : forall n c, length (utf8_cont n c) = n.
Proof. induction n as [|n IH]; intros c; cbn [utf8_cont]; [reflexivity|]. cbn [length]. rewrite IH. reflexivity. Qed.
Lemma u8_byte x : isByte (u8 x).
Proof. unfold isByte, u8. pose proof (N.mod_lt x 256 ltac:(lia)). change (2 ^ 8) with 256. lia. Qed.
Lemma cont_bytes : forall n c, Forall isByte (utf8_cont n c).
Proof. induction n as [|n IH]; intros c; cbn [utf8_cont]; constructor; auto using u8_byte. Qed.
Lemma utf8_whole v : v <> 0 -> whole UTF8 (utf8_print v).
Proof.
  intros Hv. rewrite <- (app_nil_r (utf8_print v)). unfold utf8_print. destruct (N.leb_spec v 127) as [H|H].
  - constructor; [discriminate|repeat constructor; unfold isByte; lia| |constructor]. intros l. cbn [clen app nb nth length].
    assert (T : forallb (fun x => Nat.eqb (Nat.max 1 (N.to_nat (nth (N.to_nat x) utf8LengthTab 0%N))) 1) (map N.of_nat (seq 0 128)) = true) by (vm_compute; reflexivity).
    rewrite forallb_forall in T. apply Nat.eqb_eq. apply T. apply in_map_iff. exists (N.to_nat v). split; [apply N2Nat.id|]. apply in_seq. lia.
  - cbv zeta. constructor; [discriminate|constructor; [apply u8_byte|apply cont_bytes]| |constructor]. intros l. cbn [clen app]. cbn [length]. rewrite cont_len.
    assert (T : forall pp, In pp [1; 2; 3; 4; 5] -> forall x, lead_ok pp (u8 x) = true).
    { intros pp Hp. apply below256. repeat (destruct Hp as [<-|Hp]; [vm_compute; reflexivity|]). contradiction. }
    assert (P : In (utf8_pp v) [1; 2; 3; 4; 5]) by (unfold utf8_pp; repeat match goal with |- context [if ?b then _ else _] => destruct b end; cbn; auto 10).
    unfold nb. cbn [nth]. apply Nat.eqb_eq. exact (T _ P (N.shiftr v (utf8_pp v * 6))).
Qed.
Lemma iso_bytes p n : Forall isByte n -> whole (IsoLatin p) n.
Proof.
  induction n as [|b n IH]; intros H; [constructor|]. inversion H; subst. change (b :: n) with ([b] ++ n). constructor; auto; try discriminate. 
Qed.
Lemma iso_print_bytes p v : cs_constructible (IsoLatin p) = true -> v <> 0 -> Forall isByte (iso_print p v).
Proof.
  intros Hp Hv. assert (En : Forall isByte (encode v)) by (eapply Forall_impl; [|apply encode_ascii]; intros x Hx; cbv beta in Hx; unfold isByte; lia).
  unfold iso_print, invcode. destruct (invcodePage p) as [inv|]; [|constructor]. destruct (ovlPage p) as [ovl|]; [|constructor].
  destruct (N.leb_spec v 128) as [H|H].
  - destruct (v =? 0); [exact En|]. repeat constructor. unfold isByte. lia.
  - cbv zeta. match goal with |- context [if ?b =? 0 then _ else _] => destruct (b =? 0) eqn:E end.
    + change (N.shiftl 1 2) with 4. replace (4 <=? v) with true by (symmetry; apply N.leb_le; lia). cbn [N.eqb]. exact En.
    + rewrite E. repeat constructor. destruct (v <=? 255); [apply u8_byte|discriminate E].
Qed.
Lemma print_whole cs v : bytewise cs = true -> v <> 0 -> whole cs (cs_print cs v).
Proof.
  intros Hb Hv. destruct cs; try discriminate Hb; cbn [cs_print]; [apply utf8_whole; exact Hv|]. apply iso_bytes. apply iso_print_bytes; assumption.
Qed.

(** ** the calls *)
Lemma pos_mono a a' p : pos_up a p -> atm_up (nrm a') -> (length (nrm a) <= length (nrm a'))%nat -> pos_up a' p.
Proof. intros [W H] W' L. split; [exact W'|lia]. Qed.
Lemma for_each_up cs o : (forall n, In n (op_names o) -> name_read cs n) -> op_fits o -> forall ps a, atm_up (nrm a) -> Forall (pos_up a) ps ->
  exists a' ps', for_each cs o ps a = Ret a' ps' /\ atm_up (nrm a') /\ Forall (pos_up a') ps' /\ (length (nrm a) <= length (nrm a'))%nat.
Proof.
  intros Hn Hf. induction ps as [|p ps IH]; intros a W H; cbn [for_each]; [eauto 6|]. inversion H as [|? ? Hp Hps]; subst.
  destruct (op_up cs o p a Hp Hn Hf) as [a1 [p1 [-> [P1 L1]]]]. cbn [bind].
  destruct (IH a1 (proj1 P1)) as [a2 [ps' [-> [W2 [P2 L2]]]]].
  { eapply Forall_impl; [|exact Hps]. intros q Hq. eapply pos_mono; [exact Hq|exact (proj1 P1)|exact L1]. }
  cbn [bind]. eexists. eexists. split; [reflexivity|]. split; [exact W2|]. split; [|lia]. constructor; [|exact P2]. eapply pos_mono; eauto.
Qed.
Lemma for_alts_up cs : forall os ps a, (forall n, In n (flat_map op_names os) -> name_read cs n) -> Forall op_fits os -> atm_up (nrm a) -> Forall (pos_up a) ps ->
  exists a' ps', for_alts cs os ps a = Ret a' ps' /\ atm_up (nrm a') /\ Forall (pos_up a') ps' /\ (length (nrm a) <= length (nrm a'))%nat.
Proof.
  induction os as [|o os IH]; intros ps a Hn Hf W H; cbn [for_alts]; [eauto 6|]. inversion Hf; subst. cbn [flat_map] in Hn.
  destruct (for_each_up cs o) with (ps := ps) (a := a) as [a1 [qs [-> [W1 [P1 L1]]]]]; auto using in_or_app. cbn [bind].
  destruct (IH ps a1) as [a2 [rs [-> [W2 [P2 L2]]]]]; auto using in_or_app.
  { eapply Forall_impl; [|exact H]. intros q Hq. eapply pos_mono; [exact Hq|exact W1|exact L1]. }
  cbn [bind]. eexists. eexists. split; [reflexivity|]. split; [exact W2|]. split; [|lia]. apply Forall_app. split; [|exact P2].
  eapply Forall_impl; [|exact P1]. intros q Hq. eapply pos_mono; eauto.
Qed.

(** ** the parser *)
Section Parser.
Context {R : Type} (rops : readerops R) (acs : charset) (vof : list N -> N) (cof : list N -> ctl) (rd rdp : R -> list N -> Prop) (bound : N).
Hypothesis Hacs : bytewise acs = true.
Hypothesis Hweak : forall r l, rdp r l -> rd r l.
Hypothesis Hchr : forall r l, rd r l -> exists r', r_chr rops r = Ret r' (vof l) /\ rdp r' l.
Hypothesis Hctl : forall r l, rd r l -> exists r', r_control rops r = Ret r' (cof l) /\ rdp r' l.
Hypothesis Hskip : forall r l, rdp r l -> l <> [] -> exists r' l', r_skip rops r = Ret r' tt /\ rd r' l' /\ (length l' < length l)%nat.
Hypothesis Hvnil : vof [] = 0.
Hypothesis Hcnil : cof [] <> CSpace.
Hypothesis Hpos : forall r l, rd r l -> r_pos rops r <= bound.

Lemma v_ne l : vof l <> 0 -> l <> [].
Proof. intros H ->. exact (H Hvnil). Qed.
Lemma skipSpaces_ok : forall f r l, rd r l -> (length l < f)%nat -> exists r' l', skipSpaces rops f r = Ret r' tt /\ rd r' l' /\ (length l' <= length l)%nat.
Proof.
  induction f as [|f IH]; intros r l H Hf; [lia|]. cbn [skipSpaces]. destruct (Hctl r l H) as (r1 & -> & H1). cbn [bind].
  destruct (ctl_eqb (cof l) CSpace) eqn:E; [|exists r1, l; auto]. assert (Hl : l <> []) by (intros ->; apply Hcnil; destruct (cof []); try discriminate E; reflexivity).
  destruct (Hskip r1 l H1 Hl) as (r2 & l2 & -> & H2 & L). cbn [bind]. destruct (IH r2 l2 H2 ltac:(lia)) as (r3 & l3 & -> & H3 & L3). eexists. eexists. split; [reflexivity|]. split; [exact H3|lia].
Qed.
Definition bof (l : list N) : bool := if ctl_eqb (cof l) CUndef || ctl_eqb (cof l) CAny then negb (strchr_op (vof l)) else false.
Lemma bof_ne l : bof l = true -> vof l <> 0.
Proof. unfold bof. destruct (_ || _); [|discriminate]. intros H E. rewrite E in H. discriminate H. Qed.
Lemma isId_ok : forall r l, rd r l -> exists r', isIdentifierChar rops r = Ret r' (bof l) /\ rdp r' l.
Proof.
  intros r l H. unfold isIdentifierChar, bof. destruct (Hctl r l H) as (r1 & -> & H1). cbn [bind]. destruct (_ || _); [|eauto].
  destruct (Hchr r1 l (Hweak _ _ H1)) as (r2 & -> & H2). cbn [bind]. eauto.
Qed.
Lemma parseIdentifier_ok : forall f buf r l, rd r l -> (length l < f)%nat -> whole acs buf ->
  exists r' l' n, parseIdentifier rops acs f buf r = Ret r' n /\ rd r' l' /\ (length l' <= length l)%nat /\ (bof l = true -> (length l' < length l)%nat) /\ whole acs n.
Proof.
  induction f as [|f IH]; intros buf r l H Hf Hb; [lia|]. cbn [parseIdentifier]. destruct (isId_ok r l H) as (r1 & -> & H1). cbn [bind].
  destruct (bof l) eqn:E.
  - destruct (Hchr r1 l (Hweak _ _ H1)) as (r2 & -> & H2). cbn [bind]. destruct (Hskip r2 l H2 (v_ne l (bof_ne l E))) as (r3 & l3 & -> & H3 & L3). cbn [bind].
    destruct (IH (buf ++ cs_print acs (vof l)) r3 l3 H3 ltac:(lia)) as (r4 & l4 & n & -> & H4 & L4 & _ & W).
    { apply whole_cat; [exact Hb|]. apply print_whole; [exact Hacs|apply bof_ne; exact E]. }
    exists r4, l4, n. split; [reflexivity|]. split; [exact H4|]. split; [lia|]. split; [lia|exact W].
  - exists r1, l, buf. split; [reflexivity|]. split; [auto|]. split; [lia|]. split; [discriminate|exact Hb].
Qed.
Lemma parseQuoted_ok : forall f eb buf r l, rd r l -> (length l < f)%nat -> whole acs buf ->
  exists r' l' n, parseQuoted rops acs f eb buf r = Ret r' n /\ rd r' l' /\ (length l' <= length l)%nat /\ whole acs n.
Proof.
  induction f as [|f IH]; intros eb buf r l H Hf Hb; [lia|]. cbn [parseQuoted]. destruct (Hchr r l H) as (r1 & -> & H1). cbn [bind].
  destruct (N.eqb_spec (vof l) 0) as [E|E]; [exists r1, l, buf; auto|].
  destruct (Hskip r1 l H1 (v_ne l E)) as (r3 & l3 & -> & H3 & L3). cbn [bind]. destruct (vof l =? eb).
  - exists r3, l3, buf. split; [reflexivity|]. split; [exact H3|]. split; [lia|exact Hb].
  - destruct (IH eb (buf ++ cs_print acs (vof l)) r3 l3 H3 ltac:(lia)) as (r4 & l4 & n & -> & H4 & L4 & W).
    { apply whole_cat; [exact Hb|]. apply print_whole; assumption. }
    exists r4, l4, n. split; [reflexivity|]. split; [exact H4|]. split; [lia|exact W].
Qed.
Lemma parseValue_ok : forall f r l, rd r l -> (length l < f)%nat ->
  exists r' l' v, parseValue rops acs f r = Ret r' v /\ rd r' l' /\ (length l' <= length l)%nat /\ (forall n, v = Some n -> whole acs n).
Proof.
  intros f r l H Hf. unfold parseValue. destruct (Hchr r l H) as (r1 & -> & H1). cbn [bind]. destruct ((vof l =? 34) || (vof l =? 39)) eqn:E.
  - destruct (Hskip r1 l H1) as (r3 & l3 & -> & H3 & L3); [apply v_ne; intro Z; rewrite Z in E; discriminate E|]. cbn [bind].
    destruct (parseQuoted_ok f (vof l) [] r3 l3 H3 ltac:(lia) (whole_nil acs)) as (r4 & l4 & n & -> & H4 & L4 & W). cbn [bind].
    exists r4, l4, (Some n). split; [reflexivity|]. split; [exact H4|]. split; [lia|]. intros m [= <-]. exact W.
  - destruct (isId_ok r1 l (Hweak _ _ H1)) as (r2 & -> & H2). cbn [bind]. destruct (bof l); [|exists r2, l, None; split; [reflexivity|]; split; [auto|]; split; [lia|discriminate]].
    destruct (parseIdentifier_ok f [] r2 l (Hweak _ _ H2) Hf (whole_nil acs)) as (r4 & l4 & n & -> & H4 & L4 & _ & W). cbn [bind].
    exists r4, l4, (Some n). split; [reflexivity|]. split; [exact H4|]. split; [lia|]. intros m [= <-]. exact W.
Qed.
Lemma parseNames_ok : forall f ns r l, rdp r l -> l <> [] -> (length l < f)%nat -> Forall (whole acs) ns ->
  exists r' l' ns', parseNames rops acs f ns r = Ret r' ns' /\ rd r' l' /\ (length l' < length l)%nat /\ Forall (whole acs) ns'.
Proof.
  induction f as [|f IH]; intros ns r l H Hl Hf Hn; [lia|]. cbn [parseNames]. destruct (Hskip r l H Hl) as (r1 & l1 & -> & H1 & L1). cbn [bind].
  destruct (skipSpaces_ok f r1 l1 H1 ltac:(lia)) as (r2 & l2 & -> & H2 & L2). cbn [bind].
  destruct (isId_ok r2 l2 H2) as (r3 & -> & H3). cbn [bind].
  destruct (bof l2); [|exists r3, l2, []; split; [reflexivity|]; split; [auto|]; split; [lia|constructor]].
  destruct (parseIdentifier_ok f [] r3 l2 (Hweak _ _ H3) ltac:(lia) (whole_nil acs)) as (r4 & l4 & n & -> & H4 & L4 & _ & W). cbn [bind].
  destruct (skipSpaces_ok f r4 l4 H4 ltac:(lia)) as (r5 & l5 & -> & H5 & L5). cbn [bind].
  destruct (Hchr r5 l5 H5) as (r6 & -> & H6). cbn [bind]. assert (Hn' : Forall (whole acs) (ns ++ [n])) by (apply Forall_app; auto).
  destruct (N.eqb_spec (vof l5) 44) as [E|E].
  - destruct (IH (ns ++ [n]) r6 l5 H6) as (r7 & l7 & ns' & -> & H7 & L7 & W7); [apply v_ne; rewrite E; discriminate|lia|exact Hn'|].
    exists r7, l7, ns'. split; [reflexivity|]. split; [exact H7|]. split; [lia|exact W7].
  - destruct (N.eqb_spec (vof l5) 125) as [E2|E2]; [|exists r6, l5, []; split; [reflexivity|]; split; [auto|]; split; [lia|constructor]].
    destruct (Hskip r6 l5 H6) as (r7 & l7 & -> & H7 & L7); [apply v_ne; rewrite E2; discriminate|]. cbn [bind].
    exists r7, l7, (ns ++ [n]). split; [reflexivity|]. split; [exact H7|]. split; [lia|exact Hn'].
Qed.
Lemma parseDigits_ok : forall f num r l, rd r l -> (length l < f)%nat -> Forall (fun c => 48 <= c <= 57) num ->
  exists r' l' n, parseDigits rops f num r = Ret r' n /\ rd r' l' /\ (length l' <= length l)%nat /\ Forall (fun c => 48 <= c <= 57) n.
Proof.
  induction f as [|f IH]; intros num r l H Hf Hn; [lia|]. cbn [parseDigits]. destruct (Hchr r l H) as (r1 & -> & H1). cbn [bind].
  destruct ((48 <=? vof l) && (vof l <=? 57)) eqn:E; [|exists r1, l, num; auto].
  destruct (Hskip r1 l H1) as (r3 & l3 & -> & H3 & L3); [apply v_ne; lia|]. cbn [bind].
  destruct (IH (num ++ [vof l]) r3 l3 H3 ltac:(lia)) as (r4 & l4 & n & -> & H4 & L4 & W); [apply Forall_app; split; [exact Hn|]; repeat constructor; lia|].
  exists r4, l4, n. split; [reflexivity|]. split; [exact H4|]. split; [lia|exact W].
Qed.
Lemma atoi_max : forall num v, Forall (fun c => 48 <= c <= 57) num -> (0 <= v)%Z ->
  (0 <= fold_left (fun v c => (v * 10 + (Z.of_N c - 48))%Z) num v < (v + 1) * 10 ^ Z.of_nat (length num))%Z.
Proof.
  induction num as [|c num IH]; intros v H Hv; cbn [fold_left length]; [lia|]. inversion H; subst.
  specialize (IH (v * 10 + (Z.of_N c - 48))%Z ltac:(assumption) ltac:(lia)). rewrite Nat2Z.inj_succ, Z.pow_succ_r by lia.
  assert (0 < 10 ^ Z.of_nat (length num))%Z by (apply Z.pow_pos_nonneg; lia). nia.
Qed.
Lemma parseNum_ok : forall f r l, rd r l -> (length l < f)%nat ->
  exists r' l' n, parseNum rops f r = Ret r' n /\ rd r' l' /\ (length l' <= length l)%nat /\ n <> int_max.
Proof.
  intros f r l H Hf. unfold parseNum. destruct (parseDigits_ok f [] r l H Hf (Forall_nil _)) as (r1 & l1 & n & -> & H1 & L1 & W). cbn [bind].
  eexists. eexists. eexists. split; [reflexivity|]. split; [exact H1|]. split; [exact L1|].
  destruct (Nat.eqb (length n) 0 || Nat.ltb 8 (length n)) eqn:E; [discriminate|]. pose proof (atoi_max n 0 W ltac:(lia)) as B. fold (atoi n) in B.
  assert (10 ^ Z.of_nat (length n) <= 10 ^ 8)%Z by (apply Z.pow_le_mono_r; lia). change (10 ^ 8)%Z with 100000000%Z in *. unfold int_max. lia.
Qed.
Hypothesis Hbound : bound + 1 < 2 ^ 64.
Lemma on_r_ret {A} (f : R -> out R A) r a r' x : f r = Ret r' x -> on_r f (r, a) = Ret (r', a) x.
Proof. intros E. unfold on_r. cbn [fst snd]. rewrite E. reflexivity. Qed.
Definition ends_ok (n : nat) (m : out both pnext) : Prop :=
  exists r l a x, m = Ret (r, a) x /\ rd r l /\ atm_up (nrm a) /\
  match x with PError z => (0 < z <= Z.of_N bound + 1)%Z | PNext _ ps => (length l < n)%nat /\ Forall (pos_up a) ps end.
Lemma perror_ok n r l a : rd r l -> atm_up (nrm a) -> ends_ok n (perror rops (r, a)).
Proof.
  intros H W. exists r, l, a. eexists. split; [reflexivity|]. split; [exact H|]. split; [exact W|]. cbn [fst]. pose proof (Hpos r l H).
  unfold u64. rewrite N.mod_small; lia.
Qed.
Lemma pcall_ok o pl ps (r : R) a : (forall n, In n (op_names o) -> whole acs n) -> op_fits o -> atm_up (nrm a) -> Forall (pos_up a) ps ->
  exists a' ps', pcall acs o pl ps (r, a) = Ret (r, a') (PNext pl ps') /\ atm_up (nrm a') /\ Forall (pos_up a') ps'.
Proof.
  intros Hn Hf W P. unfold pcall, on_a. cbn [fst snd].
  destruct (for_each_up acs o) with (ps := ps) (a := a) as (a1 & ps1 & -> & W1 & P1 & _); auto using whole_key. cbn [omap bind]. eauto.
Qed.
Lemma pcalls_ok os pl ps (r : R) a : (forall n, In n (flat_map op_names os) -> whole acs n) -> Forall op_fits os -> atm_up (nrm a) -> Forall (pos_up a) ps ->
  exists a' ps', pcalls acs os pl ps (r, a) = Ret (r, a') (PNext pl ps') /\ atm_up (nrm a') /\ Forall (pos_up a') ps'.
Proof.
  intros Hn Hf W P. unfold pcalls, on_a. cbn [fst snd].
  destruct (for_alts_up acs os ps a) as (a1 & ps1 & -> & W1 & P1 & _); auto using whole_key. cbn [omap bind]. eauto.
Qed.
Lemma next_ok n r l a pl ps : rd r l -> atm_up (nrm a) -> Forall (pos_up a) ps -> (length l < n)%nat -> ends_ok n (Ret (r, a) (PNext pl ps)).
Proof. intros. exists r, l, a. eexists. split; [reflexivity|]. auto. Qed.

Ltac go E a := rewrite (on_r_ret _ _ a _ _ E); clear E; cbn [bind].
Tactic Notation "chr" hyp(H) "as" ident(H') := let r := fresh "r" in let E := fresh "E" in
  match type of H with | rd _ _ => destruct (Hchr _ _ H) as (r & E & H') | rdp _ _ => destruct (Hchr _ _ (Hweak _ _ H)) as (r & E & H') end;
  rewrite (on_r_ret _ _ _ _ _ E); clear E; cbn [bind].
Tactic Notation "isid" hyp(H) "as" ident(H') := let r := fresh "r" in let E := fresh "E" in
  match type of H with | rd _ _ => destruct (isId_ok _ _ H) as (r & E & H') | rdp _ _ => destruct (isId_ok _ _ (Hweak _ _ H)) as (r & E & H') end;
  rewrite (on_r_ret _ _ _ _ _ E); clear E; cbn [bind].
Tactic Notation "spaces" hyp(H) "as" ident(l) ident(H') ident(L) := let r := fresh "r" in let E := fresh "E" in
  match goal with |- context [skipSpaces _ ?f] =>
  match type of H with | rd _ _ => destruct (skipSpaces_ok f _ _ H ltac:(lia)) as (r & l & E & H' & L) | rdp _ _ => destruct (skipSpaces_ok f _ _ (Hweak _ _ H) ltac:(lia)) as (r & l & E & H' & L) end end;
  rewrite (on_r_ret _ _ _ _ _ E); clear E; cbn [bind].
Tactic Notation "skip" hyp(H) "as" ident(l) ident(H') ident(L) := let r := fresh "r" in let E := fresh "E" in
  destruct (Hskip _ _ H) as (r & l & E & H' & L); [apply v_ne; lia|];
  rewrite (on_r_ret _ _ _ _ _ E); clear E; cbn [bind].

Lemma close_ok fuel n o ps r l a : rdp r l -> vof l <> 0 -> (length l <= n)%nat -> (length l < fuel)%nat -> (forall n, In n (op_names o) -> whole acs n) -> op_fits o ->
  atm_up (nrm a) -> Forall (pos_up a) ps ->
  ends_ok n (let! (s, x) := pcall acs o SelectCondition ps (r, a) in let! (s, _) := on_r (r_skip rops) s in Ret s x).
Proof.
  intros H Hv Hl Hf Hn Ho W P. destruct (pcall_ok o SelectCondition ps r a Hn Ho W P) as (a1 & ps1 & -> & W1 & P1). cbn [bind].
  skip H as l1 H1 L1. eapply next_ok; eauto. lia.
Qed.
Lemma bracket_ok fuel n ps r l a : rd r l -> (length l < n)%nat -> (length l < fuel)%nat -> atm_up (nrm a) -> Forall (pos_up a) ps ->
  ends_ok n (parse_bracket rops acs fuel ps (r, a)).
Proof.
  intros H Hl Hf W P. unfold parse_bracket. spaces H as l1 H1 L1. chr H1 as H2. destruct (N.eqb_spec (vof l1) 64) as [E|E].
  - skip H2 as l3 H3 L3. spaces H3 as l4 H4 L4. isid H4 as H5. destruct (bof l4) eqn:B; cbn [negb]; [|eapply perror_ok; eauto].
    destruct (parseIdentifier_ok fuel [] _ _ (Hweak _ _ H5) ltac:(lia) (whole_nil acs)) as (r6 & l6 & nm & E6 & H6 & L6 & _ & W6). go E6 a.
    spaces H6 as l7 H7 L7. chr H7 as H8. destruct (N.eqb_spec (vof l7) 61) as [E8|E8]; cbn [negb]; [|eapply perror_ok; eauto].
    skip H8 as l9 H9 L9. spaces H9 as l10 H10 L10. destruct (parseValue_ok fuel _ _ H10 ltac:(lia)) as (r11 & l11 & v & E11 & H11 & L11 & W11). go E11 a.
    spaces H11 as l12 H12 L12. destruct v as [v|]; [|eapply perror_ok; eauto]. chr H12 as H13.
    destruct (N.eqb_spec (vof l12) 93) as [E13|E13]; cbn [negb]; [|eapply perror_ok; eauto].
    eapply (close_ok fuel); eauto; try lia; try exact I. intros m [<-|[<-|[]]]; auto.
  - cbv zeta. spaces H2 as l3 H3 L3. isid H3 as H4. destruct (bof l3) eqn:B; cbn [negb]; [|eapply perror_ok; eauto].
    destruct (parseNum_ok fuel _ _ (Hweak _ _ H4) ltac:(lia)) as (r5 & l5 & i & E5 & H5 & L5 & W5). go E5 a.
    destruct (i <? 0)%Z; [eapply perror_ok; eauto|]. spaces H5 as l6 H6 L6. chr H6 as H7.
    destruct (N.eqb_spec (vof l6) 44) as [E7|E7].
    + skip H7 as l8 H8 L8. spaces H8 as l9 H9 L9. chr H9 as H10. destruct (N.eqb_spec (vof l9) 93) as [E10|E10].
      { eapply (close_ok fuel); eauto; try lia; cbn; auto. contradiction. }
      isid H10 as H11. destruct (bof l9) eqn:B2; cbn [negb]; [|eapply perror_ok; eauto].
      destruct (parseNum_ok fuel _ _ (Hweak _ _ H11) ltac:(lia)) as (r12 & l12 & j & E12 & H12 & L12 & W12). go E12 a.
      destruct (j <? 0)%Z; [eapply perror_ok; eauto|]. spaces H12 as l13 H13 L13. chr H13 as H14.
      destruct (N.eqb_spec (vof l13) 93) as [E14|E14]; [|eapply perror_ok; eauto].
      eapply (close_ok fuel); eauto; try lia; cbn; auto. contradiction.
    + destruct (N.eqb_spec (vof l6) 93) as [E8|E8]; [|eapply perror_ok; eauto].
      eapply (close_ok fuel); eauto; try lia; cbn; auto. contradiction.
Qed.
Ltac call1 W P := match goal with |- context [pcall _ ?o ?pl ?ps (?r, ?a)] => let a1 := fresh "a" in let ps1 := fresh "ps" in let W1 := fresh "W" in let P1 := fresh "P" in
  destruct (pcall_ok o pl ps r a) as (a1 & ps1 & -> & W1 & P1); [cbn; intros; intuition (subst; auto)|exact I|exact W|exact P|]; cbn [bind] end.
Lemma switch_ok fuel pl ps r l a : rdp r l -> vof l <> 0 -> (length l < fuel)%nat -> atm_up (nrm a) -> Forall (pos_up a) ps ->
  ends_ok (length l) (parse_switch rops acs fuel (vof l) pl ps (r, a)).
Proof.
  intros H Hv Hf W P. unfold parse_switch.
  assert (Err : forall n, ends_ok n (perror rops (r, a))) by (intros n; eapply perror_ok; eauto).
  destruct (N.eqb_spec (vof l) 64) as [E|_].
  { destruct (place_in _ pl); [|apply Err]. skip H as l1 H1 L1. eapply next_ok; eauto. }
  destruct (N.eqb_spec (vof l) 47) as [E|_].
  { destruct (place_in _ pl); [|apply Err]. skip H as l1 H1 L1. chr H1 as H2. destruct (N.eqb_spec (vof l1) 47) as [E2|E2].
    - call1 W P. skip H2 as l3 H3 L3. eapply next_ok; eauto. lia.
    - eapply next_ok; eauto. }
  destruct (N.eqb_spec (vof l) 91) as [E|_].
  { destruct (place_in _ pl); [|apply Err]. skip H as l1 H1 L1. eapply bracket_ok; eauto. lia. }
  destruct (N.eqb_spec (vof l) 40) as [E|_].
  { destruct (place_in _ pl); [|apply Err]. skip H as l1 H1 L1. spaces H1 as l2 H2 L2. chr H2 as H3.
    destruct (N.eqb_spec (vof l2) 41) as [E3|E3]; cbn [negb]; [|eapply perror_ok; eauto]. skip H3 as l4 H4 L4. call1 W P. eapply next_ok; eauto. lia. }
  destruct (N.eqb_spec (vof l) 42) as [E|_].
  { destruct (place_in _ pl); [|apply Err]. skip H as l1 H1 L1. destruct (place_in [SelectAttribute] pl); call1 W P; eapply next_ok; eauto. }
  destruct (N.eqb_spec (vof l) 123) as [E|_].
  { destruct (place_in _ pl); [|apply Err]. destruct (parseNames_ok fuel [] r l H (v_ne l Hv) Hf (Forall_nil _)) as (r1 & l1 & alt & E1 & H1 & L1 & W1). go E1 a.
    destruct alt as [|n alt]; [eapply perror_ok; eauto|]. rewrite Forall_forall in W1.
    assert (NA : forall m, In m (flat_map op_names (map (fun n => BAttr (Some n)) (n :: alt))) -> whole acs m).
    { intros m Hm. apply in_flat_map in Hm. destruct Hm as (o & Ho & Hm). apply in_map_iff in Ho. destruct Ho as (k & <- & Hk). destruct Hm as [<-|[]]. auto. }
    assert (NT : forall m, In m (flat_map op_names (map (fun n => BTag (Some n)) (n :: alt))) -> whole acs m).
    { intros m Hm. apply in_flat_map in Hm. destruct Hm as (o & Ho & Hm). apply in_map_iff in Ho. destruct Ho as (k & <- & Hk). destruct Hm as [<-|[]]. auto. }
    destruct (place_in [SelectAttribute] pl).
    - destruct (pcalls_ok (map (fun n => BAttr (Some n)) (n :: alt)) SelectAttributeId ps r1 a NA) as (a2 & ps2 & -> & W2 & P2); auto.
      { apply Forall_forall. intros o Ho. apply in_map_iff in Ho. destruct Ho as (k & <- & Hk). exact I. }
      eapply next_ok; eauto.
    - destruct (pcalls_ok (map (fun n => BTag (Some n)) (n :: alt)) SelectTagId ps r1 a NT) as (a2 & ps2 & -> & W2 & P2); auto.
      { apply Forall_forall. intros o Ho. apply in_map_iff in Ho. destruct Ho as (k & <- & Hk). exact I. }
      eapply next_ok; eauto. }
  destruct (N.eqb_spec (vof l) 126) as [E|_].
  { destruct (place_in _ pl); [|apply Err]. skip H as l1 H1 L1. call1 W P. eapply next_ok; eauto. }
  destruct (place_in _ pl); [|apply Err]. isid H as H1. destruct (bof l) eqn:B; cbn [negb]; [|eapply perror_ok; eauto].
  destruct (parseIdentifier_ok fuel [] _ _ (Hweak _ _ H1) ltac:(lia) (whole_nil acs)) as (r2 & l2 & nm & E2 & H2 & _ & L2 & W2). go E2 a. specialize (L2 B).
  destruct (place_in [SelectAttribute] pl); call1 W P; eapply next_ok; eauto.
Qed.
Lemma loop_ok : forall fuel t pl ps r l a, rd r l -> (length l + 2 <= fuel)%nat -> atm_up (nrm a) -> Forall (pos_up a) ps ->
  exists r' a' z, parse_loop rops acs fuel t pl ps (r, a) = Ret (r', a') z /\ atm_up (nrm a') /\ (0 <= z <= Z.of_N bound + 1)%Z.
Proof.
  induction fuel as [|f IH]; intros t pl ps r l a H Hf W P; [lia|]. cbn [parse_loop]. chr H as H1. destruct (N.eqb_spec (vof l) 0) as [E|E].
  - unfold on_a. cbn [fst snd]. destruct (for_each_up acs (BOut t)) with (ps := ps) (a := a) as (a1 & ps1 & -> & W1 & P1 & _); auto; [intros n []|exact I|].
    cbn [omap bind]. eexists. eexists. eexists. split; [reflexivity|]. split; [exact W1|lia].
  - destruct (switch_ok f pl ps r0 l a H1 E ltac:(lia) W P) as (r2 & l2 & a2 & x & -> & H2 & W2 & X). cbn [bind]. destruct x as [z|pl2 ps2].
    + eexists. eexists. eexists. split; [reflexivity|]. split; [exact W2|lia].
    + destruct X as [L2 P2]. spaces H2 as l3 H3 L3. apply (IH t pl2 ps2 _ l3 a2 H3); auto. lia.
Qed.
End Parser.

(** ** a TextScanner on a string *)
Section Text.
Context (cs : charset) (src : list N).
Hypothesis Hcs : cs_constructible cs = true.
Hypothesis Hsmall : N.of_nat (length src) + 16 < 2 ^ 32.
Definition srd (t : tscan cstr) (l : list N) : Prop :=
  exists p, creads cs src p t l /\ (p + N.of_nat (length l) = N.of_nat (length src) \/ l = [] /\ p <= N.of_nat (length src) + 7).
Definition srdp (t : tscan cstr) (l : list N) : Prop :=
  exists p, creadsp cs src p t l /\ (p + N.of_nat (length l) = N.of_nat (length src) \/ l = [] /\ p <= N.of_nat (length src) + 7).
Lemma srd_p (p : N) (l : list N) : p + N.of_nat (length l) = N.of_nat (length src) \/ l = [] /\ p <= N.of_nat (length src) + 7 -> p <= N.of_nat (length src) + 7.
Proof. lia. Qed.
Lemma srd_pos t l : srd t l -> r_pos (ts_ops cstr_ops cs) t <= N.of_nat (length src) + 7.
Proof.
  intros (p & (u & H1 & _) & Hp). apply srd_p in Hp. cbn [ts_ops r_pos]. destruct H1 as [r s v c [b k Hk]]. unfold ts_position, cat. cbn [ts_rd rit rpos ipos cstr_ops cs_pos].
  unfold sub64, u64. change (2 ^ 32) with 4294967296 in *. change (2 ^ 64) with 18446744073709551616.
  rewrite (N.mod_small (N.of_nat k)) by lia. replace (p + N.of_nat k + (18446744073709551616 - N.of_nat k)) with (p + 1 * 18446744073709551616) by lia.
  rewrite N.mod_add by lia. rewrite N.mod_small; lia.
Qed.
Lemma srd_skip t l : srdp t l -> l <> [] -> exists t' l', r_skip (ts_ops cstr_ops cs) t = Ret t' tt /\ srd t' l' /\ (length l' < length l)%nat.
Proof.
  intros (p & H & Hp) Hl. assert (Hp' := srd_p _ _ Hp). destruct (creads_skip cs src p t l Hcs) as (t' & E & H'); [lia|lia|exact H|].
  exists t', (skipn (clen cs l) l). pose proof (clen_bounds cs l) as B. assert (0 < length l)%nat by (destruct l; [contradiction|cbn; lia]).
  split; [exact E|]. split; [|rewrite skipn_length; lia]. exists (p + N.of_nat (clen cs l)). split; [exact H'|].
  destruct Hp as [Hp|[-> _]]; [|contradiction]. rewrite skipn_length. destruct (Nat.le_gt_cases (clen cs l) (length l)); [left; lia|right].
  split; [apply skipn_all2; lia|lia].
Qed.
End Text.

Lemma colons_bound : forall l p z, find_colons p l = Some z -> (p + 1 <= z < p + Z.of_nat (length l))%Z.
Proof.
  induction l as [|x l IH]; intros p z H; [discriminate|]. cbn [find_colons] in H. destruct l as [|y l]; [discriminate|]. cbn [length] in *.
  destruct ((x =? 58) && (y =? 58)); [injection H as <-; lia|]. apply IH in H. lia.
Qed.
Theorem addExpression_safe scs acs t esrc a : cs_constructible (default_cs scs) = true -> bytewise (default_cs acs) = true -> Forall isByte esrc -> N.of_nat (length esrc) + 16 < 2 ^ 32 ->
  atm_up (nrm a) -> exists a' z, addExpression scs acs t esrc a = Ret a' z /\ atm_up (nrm a') /\ (0 <= z <= Z.of_nat (length esrc) + 8)%Z.
Proof.
  intros Hcs Hacs Hby Hsz W. unfold addExpression. destruct (find_colons 0 esrc) as [z|] eqn:Ef.
  { exists a, z. apply colons_bound in Ef. split; [reflexivity|]. split; [exact W|lia]. }
  pose proof (loop_ok (ts_ops cstr_ops (default_cs scs)) (default_cs acs) (cval (default_cs scs)) (fun l => ctl_of (casc (default_cs scs) l))
    (srd (default_cs scs) esrc) (srdp (default_cs scs) esrc) (N.of_nat (length esrc) + 7) Hacs) as L.
  destruct L with (fuel := (length esrc + 2)%nat) (t := t) (pl := SelectStart) (ps := [pe_root]) (r := ts_make (cstr_make esrc)) (l := esrc) (a := a) as (r' & a' & z & E & W' & Z).
  - intros r l (p & (u & H1 & H2) & Hp). exists p. split; [|exact Hp]. exists u. split; [exact H1|]. apply H2.
  - intros r l (p & H & Hp). assert (Hp' : p <= N.of_nat (length esrc) + 7) by lia. destruct (creads_chr _ esrc p r l Hcs ltac:(lia) ltac:(lia) H) as (r' & E & H'). exists r'. split; [exact E|]. exists p. auto.
  - intros r l (p & H & Hp). assert (Hp' : p <= N.of_nat (length esrc) + 7) by lia. destruct (creads_control _ esrc p r l Hcs ltac:(lia) ltac:(lia) H) as (r' & E & H'). exists r'. split; [exact E|]. exists p. auto.
  - intros r l H Hl. apply (srd_skip _ _ Hcs Hsz r l H Hl).
  - apply cval_nil.
  - rewrite casc_end by exact Hcs. discriminate.
  - intros r l H. apply (srd_pos _ _ Hsz r l H).
  - change (2 ^ 64) with 18446744073709551616. change (2 ^ 32) with 4294967296 in Hsz. lia.
  - exists 0. split; [|left; lia]. apply creads_make; [exact Hby|lia].
  - lia.
  - exact W.
  - constructor; [|constructor]. split; [exact W|]. destruct a; cbn; lia.
  - rewrite E. cbn [omap]. eexists. eexists. split; [reflexivity|]. split; [exact W'|lia].
Qed.
