(** The list of characters parsed is the one written (proofs). *)
From Coq Require Import Lia ZifyBool ZifyNat.
From Verif Require Import Base Iter CharMap Charset TextScanner XmlScanner Ideal CharReader PathAtm PathSpec PathProg PathParse ParseSpec ParseRead ParseList.

(** *** classes of characters *)
Definition inb (c : N) (l : list N) : bool := existsb (N.eqb c) l.
Lemma inb_spec c l : inb c l = true <-> In c l.
Proof. unfold inb. rewrite existsb_exists. split; [intros (x & H & E); apply N.eqb_eq in E; subst; exact H|intro H; exists c; split; [exact H|apply N.eqb_refl]]. Qed.
Definition small : list N := map N.of_nat (seq 0 128).
Lemma small_In c : c < 128 -> In c small.
Proof. intro H. unfold small. apply in_map_iff. exists (N.to_nat c). split; [lia|]. apply in_seq. lia. Qed.
Lemma spaceb_spec c : spaceb c = true <-> space_char c.
Proof.
  unfold space_char. destruct (N.ltb_spec c 128) as [H|H].
  - assert (E : forallb (fun c => Bool.eqb (spaceb c) (inb c [32; 9; 13])) small = true) by (vm_compute; reflexivity). rewrite forallb_forall in E. specialize (E c (small_In c H)).
    apply Bool.eqb_prop in E. rewrite E, inb_spec. cbn. intuition.
  - unfold spaceb, kctl, kasc. destruct (N.ltb_spec c 128); [lia|]. change (ctl_eqb (ctl_of 255) CSpace) with false. intuition (try discriminate; lia).
Qed.
Lemma identb_spec c : identb c = true <-> ident_char c.
Proof.
  unfold ident_char, op_char, xml_char. destruct (N.ltb_spec c 128) as [H|H].
  - assert (E : forallb (fun c => Bool.eqb (identb c) (((c =? 5) || (33 <=? c)) && negb (inb c [33; 34; 38; 39; 45; 60; 61; 62; 63]) && negb (c mod 256 =? 0) &&
      negb (inb (c mod 256) [42; 126; 47; 40; 41; 123; 125; 91; 93; 64; 44; 59]))) small = true) by (vm_compute; reflexivity). rewrite forallb_forall in E. specialize (E c (small_In c H)).
    apply Bool.eqb_prop in E. rewrite E, !andb_true_iff, orb_true_iff, !negb_true_iff, <- !not_true_iff_false, !inb_spec, !N.eqb_eq, N.leb_le. tauto.
  - assert (Hx : ~ In c [33; 34; 38; 39; 45; 60; 61; 62; 63]) by (cbn; lia).
    assert (E : identb c = negb (c mod 256 =? 0) && negb (inb (c mod 256) [42; 126; 47; 40; 41; 123; 125; 91; 93; 64; 44; 59])).
    { unfold identb, kctl, kasc. destruct (N.ltb_spec c 128); [lia|]. change (ctl_eqb (ctl_of 255) CUndef) with true. cbn [orb andb]. unfold strchr_op, u8. rewrite negb_orb. reflexivity. }
    rewrite E, !andb_true_iff, !negb_true_iff, <- !not_true_iff_false, !inb_spec, !N.eqb_eq. intuition lia.
Qed.
Lemma digitb_spec c : digitb c = true <-> digit_char c.
Proof. unfold digitb, digit_char. lia. Qed.
Lemma Forall_iff {A} (P Q : A -> Prop) l : (forall x, P x <-> Q x) -> Forall P l <-> Forall Q l.
Proof. intro H. split; apply Forall_impl; intro x; apply H. Qed.
Lemma spaces_span l : spaces (fst (span spaceb l)).
Proof. unfold spaces. rewrite <- (Forall_iff _ _ _ spaceb_spec). apply span_all. Qed.
Lemma dropsp_split l : exists s, spaces s /\ l = s ++ dropsp l.
Proof. exists (fst (span spaceb l)). split; [apply spaces_span|]. symmetry. apply span_app. Qed.
Lemma atoi_number d : atoi d = number_of 0 d.
Proof.
  unfold atoi. generalize 0%Z. induction d as [|c d IH]; intro z; [reflexivity|]. cbn [fold_left number_of]. rewrite IH. f_equal. lia.
Qed.

(** *** what is parsed is written *)
Lemma lp_ident_sound l n l' : lp_ident l = Some (n, l') -> l = n ++ l' /\ ident n.
Proof.
  intro H. destruct (lp_ident_len l n l' H) as [_ Hn]. unfold lp_ident in H. destruct (identb (hd 0 l)); [|discriminate].
  pose proof (span_app identb l) as Ha. pose proof (span_all identb l) as Hl. destruct (span identb l) as [x y]. injection H as <- <-. cbn [fst snd] in *. split; [auto|]. split; [exact Hn|].
  rewrite <- (Forall_iff _ _ _ identb_spec). exact Hl.
Qed.
Lemma lp_num_sound l i l' : lp_num l = Some (i, l') -> exists d, l = d ++ l' /\ writes_number i d.
Proof.
  unfold lp_num. pose proof (span_app digitb l) as Ha. pose proof (span_all digitb l) as Hl. destruct (span digitb l) as [d y]. cbn [fst snd] in *.
  destruct (_ || _) eqn:E; [discriminate|]. intro H. injection H as <- <-. exists d. split; [auto|]. split; [rewrite <- (Forall_iff _ _ _ digitb_spec); exact Hl|]. split; [lia|]. symmetry. apply atoi_number.
Qed.
Lemma quoted_sound q l v l' : (let (v, l) := span (fun c => negb (c =? q)) l in match l with [] => None | _ :: l => Some (v, l) end) = Some (v, l') -> l = v ++ [q] ++ l' /\ ~ In q v.
Proof.
  pose proof (span_app (fun c => negb (c =? q)) l) as Ha. pose proof (span_all (fun c => negb (c =? q)) l) as Hl. pose proof (span_stop (fun c => negb (c =? q)) l) as Hs.
  destruct (span _ l) as [x [|y l2]]; cbn [fst snd] in *; [discriminate|]. intro H. injection H as <- <-. assert (y = q) by lia. subst y. split; [auto|].
  intro Hi. rewrite Forall_forall in Hl. specialize (Hl q Hi). lia.
Qed.
Lemma lp_value_sound l v l' : lp_value l = Some (v, l') -> exists w, l = w ++ l' /\ writes_value v w.
Proof.
  unfold lp_value. pose proof (eat_Some 34 l) as X1. pose proof (eat_Some 39 l) as X2.
  destruct (eat 34 l) as [l1|]; [|destruct (eat 39 l) as [l1|]]; intro H.
  - specialize (X1 _ eq_refl). apply quoted_sound in H. destruct H as [-> Hq]. exists (34 :: v ++ [34]). split; [rewrite X1; cbn [app]; rewrite <- app_assoc; reflexivity|]. constructor; auto.
  - specialize (X2 _ eq_refl). apply quoted_sound in H. destruct H as [-> Hq]. exists (39 :: v ++ [39]). split; [rewrite X2; cbn [app]; rewrite <- app_assoc; reflexivity|]. constructor; auto.
  - apply lp_ident_sound in H. destruct H as [-> Hi]. exists v. split; [reflexivity|]. constructor. exact Hi.
Qed.
Lemma lp_names_sound : forall f l ns l', lp_names f l = Some (ns, l') -> exists w, l = w ++ l' /\ writes_names ns w.
Proof.
  induction f as [|f IH]; intros l ns l' H; [discriminate|]. cbn [lp_names] in H. destruct (dropsp_split l) as (s1 & Hs1 & E1). destruct (lp_ident (dropsp l)) as [[n l1]|] eqn:EI; [|discriminate].
  apply lp_ident_sound in EI. destruct EI as [EI Hn]. destruct (dropsp_split l1) as (s2 & Hs2 & E2).
  pose proof (eat_Some 44 (dropsp l1)) as X1. pose proof (eat_Some 125 (dropsp l1)) as X2. destruct (eat 44 (dropsp l1)) as [l2|].
  - specialize (X1 _ eq_refl). destruct (lp_names f l2) as [[ms l3]|] eqn:EN; [|discriminate]. injection H as <- <-. destruct (IH _ _ _ EN) as (w & -> & Hw).
    exists (s1 ++ n ++ s2 ++ [44] ++ w). split; [|constructor; assumption]. rewrite E1, EI, E2, X1. rewrite <- !app_assoc. reflexivity.
  - destruct (eat 125 (dropsp l1)) as [l2|]; [|discriminate]. specialize (X2 _ eq_refl). injection H as <- <-.
    exists (s1 ++ n ++ s2 ++ [125]). split; [|constructor; assumption]. rewrite E1, EI, E2, X2. rewrite <- !app_assoc. reflexivity.
Qed.
Ltac asc := rewrite <- ?app_assoc; cbn [app]; rewrite <- ?app_assoc; reflexivity.
Lemma lp_bracket_sound l it l' : lp_bracket l = Some (it, l') -> exists w, l = w ++ l' /\ writes_item it (91 :: w).
Proof.
  unfold lp_bracket. intro H. destruct (dropsp_split l) as (s1 & Hs1 & E1). pose proof (eat_Some 64 (dropsp l)) as X. destruct (eat 64 (dropsp l)) as [l1|].
  - specialize (X _ eq_refl). destruct (dropsp_split l1) as (s2 & Hs2 & E2). destruct (lp_ident (dropsp l1)) as [[n l2]|] eqn:EI; [|discriminate]. apply lp_ident_sound in EI. destruct EI as [EI Hn].
    destruct (dropsp_split l2) as (s3 & Hs3 & E3). pose proof (eat_Some 61 (dropsp l2)) as Y. destruct (eat 61 (dropsp l2)) as [l3|]; [|discriminate]. specialize (Y _ eq_refl).
    destruct (dropsp_split l3) as (s4 & Hs4 & E4). destruct (lp_value (dropsp l3)) as [[v l4]|] eqn:EV; [|discriminate]. apply lp_value_sound in EV. destruct EV as (w & EV & Hw).
    destruct (dropsp_split l4) as (s5 & Hs5 & E5). pose proof (eat_Some 93 (dropsp l4)) as Z. destruct (eat 93 (dropsp l4)) as [l5|]; [|discriminate]. specialize (Z _ eq_refl). injection H as <- <-.
    exists (s1 ++ [64] ++ s2 ++ n ++ s3 ++ [61] ++ s4 ++ w ++ s5 ++ [93]). split; [|constructor; assumption]. rewrite E1, X, E2, EI, E3, Y, E4, EV, E5, Z. asc.
  - destruct (lp_num (dropsp l)) as [[i l1]|] eqn:EN; [|discriminate]. apply lp_num_sound in EN. destruct EN as (d & EN & Hd).
    destruct (dropsp_split l1) as (s2 & Hs2 & E2). pose proof (eat_Some 44 (dropsp l1)) as Y. pose proof (eat_Some 93 (dropsp l1)) as Z. destruct (eat 44 (dropsp l1)) as [l2|].
    + specialize (Y _ eq_refl). destruct (dropsp_split l2) as (s3 & Hs3 & E3). clear Z X. pose proof (eat_Some 93 (dropsp l2)) as Z. destruct (eat 93 (dropsp l2)) as [l3|].
      * specialize (Z _ eq_refl). injection H as <- <-. exists (s1 ++ d ++ s2 ++ [44] ++ s3 ++ [93]). split; [|constructor; assumption]. rewrite E1, EN, E2, Y, E3, Z. asc.
      * clear Z. destruct (lp_num (dropsp l2)) as [[j l3]|] eqn:EM; [|discriminate]. apply lp_num_sound in EM. destruct EM as (e & EM & He).
        destruct (dropsp_split l3) as (s4 & Hs4 & E4). pose proof (eat_Some 93 (dropsp l3)) as Z. destruct (eat 93 (dropsp l3)) as [l4|]; [|discriminate]. specialize (Z _ eq_refl). injection H as <- <-.
        exists (s1 ++ d ++ s2 ++ [44] ++ s3 ++ e ++ s4 ++ [93]). split; [|constructor; assumption]. rewrite E1, EN, E2, Y, E3, EM, E4, Z. asc.
    + destruct (eat 93 (dropsp l1)) as [l2|]; [|discriminate]. specialize (Z _ eq_refl). injection H as <- <-. exists (s1 ++ d ++ s2 ++ [93]). split; [|constructor; assumption]. rewrite E1, EN, E2, Z. asc.
Qed.
Lemma lp_item_sound l it l' : lp_item l = Some (it, l') -> exists w, l = w ++ l' /\ writes_item it w.
Proof.
  destruct l as [|c l]; cbn [lp_item]; [discriminate|]. intro H.
  destruct (N.eqb_spec c 64) as [->|_]; [injection H as <- <-; exists [64]; split; [reflexivity|constructor]|].
  destruct (N.eqb_spec c 47) as [->|_].
  { pose proof (eat_Some 47 l) as X. destruct (eat 47 l) as [l2|]; injection H as <- <-; [exists [47; 47]; rewrite (X _ eq_refl)|exists [47]]; (split; [reflexivity|constructor]). }
  destruct (N.eqb_spec c 91) as [->|_].
  { apply lp_bracket_sound in H. destruct H as (w & -> & Hw). exists (91 :: w). split; [reflexivity|exact Hw]. }
  destruct (N.eqb_spec c 40) as [->|_].
  { destruct (dropsp_split l) as (s1 & Hs1 & E1). pose proof (eat_Some 41 (dropsp l)) as X. destruct (eat 41 (dropsp l)) as [l2|]; [|discriminate]. injection H as <- <-.
    exists (40 :: s1 ++ [41]). split; [rewrite E1, (X _ eq_refl); asc|constructor; assumption]. }
  destruct (N.eqb_spec c 42) as [->|_]; [injection H as <- <-; exists [42]; split; [reflexivity|constructor]|].
  destruct (N.eqb_spec c 123) as [->|_].
  { destruct (lp_names (S (length l)) l) as [[ns l2]|] eqn:EN; [|discriminate]. injection H as <- <-. destruct (lp_names_sound _ _ _ _ EN) as (w & -> & Hw). exists (123 :: w). split; [reflexivity|constructor; exact Hw]. }
  destruct (N.eqb_spec c 126) as [->|_]; [injection H as <- <-; exists [126]; split; [reflexivity|constructor]|].
  destruct (lp_ident (c :: l)) as [[n l2]|] eqn:EI; [|discriminate]. injection H as <- <-. apply lp_ident_sound in EI. destruct EI as [-> Hi]. exists n. split; [reflexivity|constructor; exact Hi].
Qed.
Lemma writes_item_ne it w : writes_item it w -> w <> [].
Proof. intros H E. destruct H; try discriminate E. subst n. destruct H as [H _]. contradiction. Qed.
Lemma lp_next_sound st l it st' l' : lp_next st l = Some (it, st', l') -> next_stage st it = Some st' /\ exists w, l = w ++ l' /\ writes_item it w.
Proof.
  unfold lp_next. destruct (lp_item l) as [[it2 l2]|] eqn:E; [|discriminate]. destruct (next_stage st it2) eqn:X; [|discriminate]. intro H. injection H as <- <- <-. split; [exact X|]. apply lp_item_sound. exact E.
Qed.
Lemma lp_next_len st l it st' l' : lp_next st l = Some (it, st', l') -> (length l' < length l)%nat.
Proof.
  intro H. apply lp_next_sound in H. destruct H as (_ & w & -> & Hw). apply writes_item_ne in Hw. rewrite app_length. destruct w; [contradiction|cbn [length]; lia].
Qed.
Lemma lp_items_sound : forall f st l its, lp_items f st l = (its, true) -> writes st its l.
Proof.
  induction f as [|f IH]; intros st l its H; [discriminate|]. cbn [lp_items] in H. destruct l as [|c l]; [injection H as <-; constructor|].
  destruct (lp_next st (c :: l)) as [[[it st'] l']|] eqn:E; [|discriminate]. apply lp_next_sound in E. destruct E as (E & w & -> & Hw). injection H as <- H. cbn [fst snd] in H.
  destruct (dropsp_split l') as (s & Hs & El). assert (Hr : writes st' (fst (lp_items f st' (dropsp l'))) (dropsp l')) by (apply (IH st'); destruct (lp_items f st' (dropsp l')) as [x y]; cbn [fst snd] in *; congruence).
  rewrite El at 2. econstructor; eauto.
Qed.

(** *** what is written is parsed *)
Lemma span_full (f : N -> bool) n l : f 0 = false -> Forall (fun c => f c = true) n -> f (hd 0 l) = false -> span f (n ++ l) = (n, l).
Proof.
  intros H0 H Hl. induction H as [|c n Hc H IH]; cbn [app span].
  - destruct l as [|c l]; [reflexivity|]. cbn [hd span] in *. rewrite Hl. reflexivity.
  - rewrite Hc, IH. reflexivity.
Qed.
Lemma dropsp_app s l : spaces s -> spaceb (hd 0 l) = false -> dropsp (s ++ l) = l.
Proof. intros H Hl. unfold dropsp. rewrite (span_full spaceb s l); [reflexivity|reflexivity| |exact Hl]. rewrite (Forall_iff _ _ _ spaceb_spec). exact H. Qed.
Lemma ident_space c : identb c = true -> spaceb c = false.
Proof. intro H. apply identb_spec in H. destruct (spaceb c) eqn:E; [|reflexivity]. apply spaceb_spec in E. destruct H as [H _]. destruct E as [->|[->| ->]]; lia. Qed.
Lemma digit_space c : digitb c = true -> spaceb c = false.
Proof. intro H. destruct (spaceb c) eqn:E; [|reflexivity]. apply spaceb_spec in E. unfold digitb in H. destruct E as [->|[->| ->]]; discriminate H. Qed.
Lemma hd_spaces (f : N -> bool) s c l : (forall x, f x = true -> spaceb x = false) -> spaces s -> f c = false -> f (hd 0 (s ++ c :: l)) = false.
Proof.
  intros Hf Hs Hc. destruct Hs as [|x s Hx Hs]; [exact Hc|]. cbn [app hd]. destruct (f x) eqn:E; [|reflexivity]. apply Hf in E. apply spaceb_spec in Hx. congruence.
Qed.
Lemma ident_hd n l : ident n -> identb (hd 0 (n ++ l)) = true.
Proof. intros [H1 H2]. destruct n as [|c n]; [contradiction|]. cbn [app hd]. inversion H2; subst. apply identb_spec. assumption. Qed.
Lemma lp_ident_complete n l : ident n -> identb (hd 0 l) = false -> lp_ident (n ++ l) = Some (n, l).
Proof.
  intros H Hl. unfold lp_ident. rewrite (ident_hd n l H). f_equal. apply span_full; [reflexivity| |exact Hl]. rewrite (Forall_iff _ _ _ identb_spec). apply H.
Qed.
Lemma lp_num_complete i d l : writes_number i d -> digitb (hd 0 l) = false -> lp_num (d ++ l) = Some (i, l).
Proof.
  intros (H1 & H2 & H3) Hl. unfold lp_num. rewrite (span_full digitb d l); [|reflexivity|rewrite (Forall_iff _ _ _ digitb_spec); exact H1|exact Hl].
  replace (Nat.eqb (length d) 0) with false by lia. replace (Nat.ltb 8 (length d)) with false by lia. cbn [orb]. rewrite atoi_number, H3. reflexivity.
Qed.
Lemma num_hd i d l : writes_number i d -> digitb (hd 0 (d ++ l)) = true.
Proof. intros (H1 & H2 & _). destruct d as [|c d]; [cbn in H2; lia|]. cbn [app hd]. inversion H1; subst. apply digitb_spec. assumption. Qed.
Lemma eat_ident c n l : ident n -> identb c = false -> eat c (n ++ l) = None.
Proof. intros H Hc. pose proof (ident_hd n l H) as X. destruct n as [|x n]; [destruct H; contradiction|]. cbn [app hd eat] in *. destruct (N.eqb_spec x c) as [->|]; [congruence|reflexivity]. Qed.
Lemma eat_num c i d l : writes_number i d -> digitb c = false -> eat c (d ++ l) = None.
Proof. intros H Hc. pose proof (num_hd i d l H) as X. destruct d as [|x n]; [destruct H as (_ & H & _); cbn in H; lia|]. cbn [app hd eat] in *. destruct (N.eqb_spec x c) as [->|]; [congruence|reflexivity]. Qed.
Lemma eat_same c l : eat c (c :: l) = Some l.
Proof. cbn [eat]. rewrite N.eqb_refl. reflexivity. Qed.
Lemma quoted_complete q v l : q <> 0 -> ~ In q v -> ~ In 0 v -> span (fun c => negb (c =? q)) (v ++ q :: l) = (v, q :: l).
Proof.
  intros Hq H _. induction v as [|c v IH]; cbn [app span].
  - rewrite N.eqb_refl. reflexivity.
  - destruct (N.eqb_spec c q) as [->|_]; [exfalso; apply H; left; reflexivity|]. cbn [negb]. rewrite IH by (intro; apply H; right; assumption). reflexivity.
Qed.
Lemma lp_value_complete v w l : writes_value v w -> ~ In 0 w -> identb (hd 0 l) = false -> lp_value (w ++ l) = Some (v, l).
Proof.
  intros H Hz Hl. unfold lp_value. destruct H as [v Hv|q v Hq Hi].
  - rewrite (eat_ident 34), (eat_ident 39) by (exact Hv || reflexivity). apply lp_ident_complete; assumption.
  - assert (Hv : ~ In 0 v) by (intro; apply Hz; right; apply in_or_app; left; assumption). cbn [app]. rewrite <- app_assoc. cbn [app].
    destruct Hq as [->| ->].
    + rewrite eat_same, (quoted_complete 34) by (assumption || discriminate). reflexivity.
    + rewrite eat_same. cbn [eat N.eqb]. rewrite (quoted_complete 39) by (assumption || discriminate). reflexivity.
Qed.
Lemma space_ident_hd n l : ident n -> spaceb (hd 0 (n ++ l)) = false.
Proof. intro H. apply ident_space, ident_hd, H. Qed.
Lemma lp_names_complete : forall ns w, writes_names ns w -> forall f l, (length (w ++ l) < f)%nat -> lp_names f (w ++ l) = Some (ns, l).
Proof.
  intros ns w H. induction H as [s1 n s2 H1 Hn H2|s1 n s2 ns l0 H1 Hn H2 H IH]; intros f l Hf; (destruct f as [|f]; [lia|]); cbn [lp_names]; rewrite <- !app_assoc; rewrite (dropsp_app s1) by (assumption || apply space_ident_hd, Hn).
  - rewrite lp_ident_complete; [|exact Hn|apply hd_spaces; [apply ident_space|exact H2|reflexivity]]. rewrite dropsp_app by (assumption || reflexivity). reflexivity.
  - rewrite lp_ident_complete; [|exact Hn|apply hd_spaces; [apply ident_space|exact H2|reflexivity]]. rewrite dropsp_app by (assumption || reflexivity). cbn [app]. rewrite eat_same.
    rewrite IH; [reflexivity|]. rewrite !app_length in *. cbn [length] in *. lia.
Qed.
Lemma space_num_hd i d l : writes_number i d -> spaceb (hd 0 (d ++ l)) = false.
Proof. intro H. apply digit_space. eapply num_hd, H. Qed.
Ltac ds := rewrite dropsp_app by (assumption || reflexivity || (eapply space_num_hd; eassumption) || (apply space_ident_hd; assumption)).
Ltac num := erewrite lp_num_complete by (eassumption || (apply hd_spaces; [apply digit_space|assumption|reflexivity])).
Lemma value_hd v w l : writes_value v w -> spaceb (hd 0 (w ++ l)) = false.
Proof. intros [v' H|q v' [->| ->] _]; [apply space_ident_hd; exact H|reflexivity|reflexivity]. Qed.
Ltac flat := repeat (progress (rewrite <- ?app_assoc; cbn [app])).
Lemma lp_bracket_complete it w l : writes_item it (91 :: w) -> ~ In 0 w -> lp_bracket (w ++ l) = Some (it, l).
Proof.
  intros H Hz. unfold lp_bracket. inversion H; subst.
  - exfalso. match goal with Hi : ident (91 :: w) |- _ => destruct Hi as [_ Hi]; inversion Hi as [|? ? Hc _]; subst; apply identb_spec in Hc; discriminate Hc end.
  - flat. ds. rewrite eat_same. ds. rewrite lp_ident_complete; [|assumption|apply hd_spaces; [apply ident_space|assumption|reflexivity]].
    ds. rewrite eat_same. rewrite dropsp_app; [|assumption|eapply value_hd; eassumption].
    rewrite lp_value_complete with (v := v); [|assumption| |apply hd_spaces; [apply ident_space|assumption|reflexivity]].
    + ds. rewrite eat_same. reflexivity.
    + intro X. apply Hz. rewrite !in_app_iff. cbn [In]. rewrite !in_app_iff. cbn [In]. rewrite !in_app_iff. tauto.
  - flat. ds. erewrite eat_num by (eassumption || reflexivity). num. cbn [app]. ds. cbn [eat N.eqb Pos.eqb]. reflexivity.
  - flat. ds. erewrite eat_num by (eassumption || reflexivity). num. cbn [app]. ds. rewrite eat_same. ds. rewrite eat_same. reflexivity.
  - flat. ds. erewrite eat_num by (eassumption || reflexivity). num. cbn [app]. ds. rewrite eat_same. ds. erewrite eat_num by (eassumption || reflexivity). num. ds. rewrite eat_same. reflexivity.
Qed.
(** what follows must not belong to the part *)
Definition ends (it : item) (l : list N) : Prop := match it with IName _ => identb (hd 0 l) = false | ISlash => eat 47 l = None | _ => True end.
Lemma lp_item_complete it w l : writes_item it w -> ~ In 0 w -> ends it l -> lp_item (w ++ l) = Some (it, l).
Proof.
  intros H Hz He. destruct H; try (cbn [ends] in He); try reflexivity.
  - cbn [app lp_item N.eqb Pos.eqb]. rewrite He. reflexivity.
  - assert (Hc : exists c n', n = c :: n' /\ identb c = true).
    { pose proof (ident_hd n [] H) as X. destruct n as [|c n']; [destruct H; contradiction|]. exists c, n'. split; [reflexivity|]. exact X. }
    destruct Hc as (c & n' & -> & Hc). cbn [app lp_item].
    repeat (match goal with |- (if ?c =? ?k then _ else _) = _ => destruct (N.eqb_spec c k) as [->|_]; [discriminate Hc|] end).
    change (c :: n' ++ l) with ((c :: n') ++ l). rewrite lp_ident_complete by assumption. reflexivity.
  - cbn [app lp_item N.eqb Pos.eqb]. rewrite lp_names_complete with (ns := ns); [reflexivity|assumption|lia].
  - apply (lp_bracket_complete _ _ l (wi_if _ _ _ _ _ _ _ _ H H0 H1 H2 H3 H4 H5)). intro X. apply Hz. right. exact X.
  - apply (lp_bracket_complete _ _ l (wi_index _ _ _ _ H H0 H1)). intro X. apply Hz. right. exact X.
  - apply (lp_bracket_complete _ _ l (wi_from _ _ _ _ _ H H0 H1 H2)). intro X. apply Hz. right. exact X.
  - apply (lp_bracket_complete _ _ l (wi_range _ _ _ _ _ _ _ _ H H0 H1 H2 H3 H4)). intro X. apply Hz. right. exact X.
  - cbn [app lp_item N.eqb Pos.eqb]. rewrite <- app_assoc. ds. cbn [app]. rewrite eat_same. reflexivity.
Qed.
(** what may follow *)
Lemma writes_hd st its l : writes st its l -> its = [] /\ l = [] \/ exists it its' w l' st', its = it :: its' /\ l = w ++ l' /\ writes_item it w /\ next_stage st it = Some st'.
Proof. intros [|]; [left; auto|right]. do 5 eexists. split; [reflexivity|]. split; [reflexivity|]. split; eassumption. Qed.
Lemma item_hd it w l : writes_item it w -> (forall n, it <> IName n) -> identb (hd 0 (w ++ l)) = false /\ spaceb (hd 0 (w ++ l)) = false.
Proof. intros H Hn. destruct H; try (split; reflexivity). exfalso. exact (Hn n eq_refl). Qed.
Lemma item_space it w l : writes_item it w -> spaceb (hd 0 (w ++ l)) = false.
Proof. intros H. destruct H; try reflexivity. apply space_ident_hd. exact H. Qed.
Lemma writes_space st its l : writes st its l -> spaceb (hd 0 l) = false.
Proof. intro H. apply writes_hd in H. destruct H as [[-> ->]|(it & its' & w & l' & st' & -> & -> & H & _)]; [reflexivity|]. apply (item_space it w l' H). Qed.
Lemma follow_ends st it st' its w s l : next_stage st it = Some st' -> writes_item it w -> spaces s -> writes st' its l -> ends it (s ++ l).
Proof.
  intros Hn Hw Hs H. assert (C : forall x, eat 47 (x :: l) = if x =? 47 then Some l else None) by reflexivity.
  destruct it; cbn [ends]; try exact I.
  - destruct Hs as [|c s Hc Hs].
    + cbn [app]. apply writes_hd in H. destruct H as [[-> ->]|(it2 & its' & w2 & l' & st2 & -> & -> & H2 & H3)]; [reflexivity|].
      assert (st' = AfterSlash) by (destruct st; cbn [next_stage] in Hn; congruence). subst st'. destruct H2; try discriminate H3; try reflexivity.
      pose proof (ident_hd n l' H) as X. destruct (n ++ l') as [|y l2]; [reflexivity|]. cbn [hd eat] in *. destruct (N.eqb_spec y 47) as [->|]; [discriminate X|reflexivity].
    + apply spaceb_spec in Hc. cbn [app eat]. destruct (N.eqb_spec c 47) as [->|]; [discriminate Hc|reflexivity].
  - destruct Hs as [|c s Hc Hs].
    + cbn [app]. apply writes_hd in H. destruct H as [[-> ->]|(it2 & its' & w2 & l' & st2 & -> & -> & H2 & H3)]; [reflexivity|].
      apply (item_hd it2 w2 l' H2). intros m ->. destruct st; cbn [next_stage] in Hn; try discriminate Hn; injection Hn as <-; discriminate H3.
    + cbn [app hd]. apply spaceb_spec in Hc. destruct (identb c) eqn:E; [|reflexivity]. apply ident_space in E. congruence.
Qed.
Lemma lp_items_complete : forall st its l, writes st its l -> ~ In 0 l -> forall f, (length l < f)%nat -> lp_items f st l = (its, true).
Proof.
  intros st its l H. induction H as [st|st it st' w s its l Hn Hw Hs H IH]; intros Hz f Hf; (destruct f as [|f]; [lia|]); [reflexivity|]. cbn [lp_items].
  assert (Hzw : ~ In 0 w) by (intro; apply Hz; apply in_or_app; left; assumption). assert (Hzl : ~ In 0 l) by (intro; apply Hz; rewrite !in_app_iff; tauto).
  pose proof (lp_item_complete it w (s ++ l) Hw Hzw (follow_ends _ _ _ _ _ _ _ Hn Hw Hs H)) as E. pose proof (writes_item_ne _ _ Hw) as Hne.
  assert (En : lp_next st (w ++ s ++ l) = Some (it, st', s ++ l)) by (unfold lp_next; rewrite E, Hn; reflexivity).
  destruct (w ++ s ++ l) as [|c q] eqn:Ew; [destruct w; [contradiction|discriminate Ew]|]. rewrite En. rewrite (dropsp_app s l Hs) by (eapply writes_space; exact H).
  assert (Hlen : (length w + (length s + length l) < S f)%nat) by (rewrite <- Ew in Hf; rewrite !app_length in Hf; exact Hf).
  rewrite IH; [reflexivity|exact Hzl|]. destruct w; [contradiction|]. cbn [length] in Hlen. lia.
Qed.
Lemma lp_items_mono : forall f f' st l, (length l < f)%nat -> (f <= f')%nat -> lp_items f' st l = lp_items f st l.
Proof.
  induction f as [|f IH]; intros f' st l Hl Hf; [lia|]. destruct f' as [|f']; [lia|]. cbn [lp_items]. destruct l as [|c l]; [reflexivity|].
  destruct (lp_next st (c :: l)) as [[[it st'] l']|] eqn:E; [|reflexivity]. apply lp_next_len in E. pose proof (dropsp_len l'). rewrite (IH f' st' (dropsp l')) by lia. reflexivity.
Qed.
