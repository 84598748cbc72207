(** The language read by the scanner (proofs): the rules cover every text. *)
From Verif Require Import Base XmlScanner DocSpec SectSpec XmlSpec.

Lemma longest_ex : forall p, p 0 = false -> forall l, exists a r, l = a ++ r /\ longest p a r.
Proof.
  intros p H0. induction l as [|c l [a [r [E [H1 H2]]]]]; [exists [], []; split; [reflexivity|split; [constructor|exact H0]]|].
  destruct (p c) eqn:Ec; [|exists [], (c :: l); split; [reflexivity|split; [constructor|exact Ec]]].
  exists (c :: a), r. split; [rewrite E; reflexivity|]. split; [constructor; assumption|exact H2].
Qed.
(** at most [n] characters *)
Lemma longest_n : forall p, p 0 = false -> forall n l, exists a r, l = a ++ r /\ all p a /\ (length a <= n)%nat /\ (length a = n \/ p (hd 0 r) = false).
Proof.
  intros p H0. induction n as [|n IH]; intros l.
  - exists [], l. split; [reflexivity|]. split; [constructor|]. split; [cbn; lia|]. left. reflexivity.
  - destruct l as [|c l]; [exists [], []; split; [reflexivity|]; split; [constructor|]; split; [cbn; lia|]; right; exact H0|].
    destruct (p c) eqn:Ec.
    + destruct (IH l) as [a [r [E [H1 [H2 H3]]]]]. exists (c :: a), r. split; [rewrite E; reflexivity|]. split; [constructor; assumption|]. cbn [length]. split; [lia|]. destruct H3; [left; lia|right; assumption].
    + exists [], (c :: l). split; [reflexivity|]. split; [constructor|]. cbn [length]. split; [lia|]. right. exact Ec.
Qed.
Lemma until : forall (d : N) l, ~ In d l \/ exists c r, l = c ++ d :: r /\ ~ In d c.
Proof.
  intros d. induction l as [|x l IH]; [left; intros []|]. destruct (N.eq_dec x d) as [->|Hx]; [right; exists [], l; split; [reflexivity|intros []]|].
  destruct IH as [H|[c [r [E H]]]].
  - left. intros [E|H2]; [congruence|auto].
  - right. exists (x :: c), r. split; [rewrite E; reflexivity|]. intros [E2|H2]; [congruence|auto].
Qed.
Lemma hd_cons : forall c l, hd 0 l = c -> c <> 0 -> exists r, l = c :: r.
Proof. intros c [|x l] H Hc; cbn in H; [congruence|]. subst. exists l. reflexivity. Qed.

(** ** Ampersands *)
Lemma number_ex : forall base mark l, base_mark base mark -> (base = 10 -> hd 0 l <> 120) -> exists v r, amp_reads (mark ++ l) (Some (v, r)).
Proof.
  intros base mark l Hb H120.
  assert (D0 : digitb base 0 = false) by (destruct Hb; reflexivity).
  destruct (longest_n (digitb base) D0 16 l) as [ds [r [-> [H1 [H2 H3]]]]].
  destruct (Nat.eq_dec (length ds) 16) as [E|E].
  { exists (str "&#" ++ ds), r. apply (am_open_number base); auto. intros _ ->. discriminate. }
  destruct H3 as [H3|H3]; [congruence|]. destruct (N.eq_dec (hd 0 r) 59) as [E59|E59].
  - destruct (hd_cons _ _ E59 ltac:(discriminate)) as [r' ->]. destruct (number base ds <? 2 ^ 32) eqn:En.
    + eexists _, _. apply (am_number base); auto; [lia|]. apply N.ltb_lt. exact En.
    + eexists _, _. apply (am_big base); auto; [lia|]. apply N.ltb_ge. exact En.
  - eexists _, _. apply (am_open_number base); auto. intros E10 ->. exact (H120 E10).
Qed.
Lemma entity_in : forall nm, In nm (map fst entities) -> exists c, In (nm, c) entities.
Proof. intros nm H. apply in_map_iff in H. destruct H as [[n c] [<- H]]. exists c. exact H. Qed.
Lemma list_in_dec : forall (x : list N) l, In x l \/ ~ In x l.
Proof. intros x l. destruct (in_dec (list_eq_dec N.eq_dec) x l); auto. Qed.

Lemma amp_ex : forall l, exists o, amp_reads l o.
Proof.
  intros l. destruct (N.eq_dec (hd 0 l) 35) as [E|E].
  - destruct (hd_cons _ _ E ltac:(discriminate)) as [l' ->]. destruct (N.eq_dec (hd 0 l') 120) as [Ex|Ex].
    + destruct (hd_cons _ _ Ex ltac:(discriminate)) as [l2 ->]. destruct (number_ex 16 [35; 120] l2 bm_hex ltac:(discriminate)) as [v [r H]]. eexists. exact H.
    + destruct (number_ex 10 [35] l' bm_dec ltac:(auto)) as [v [r H]]. eexists. exact H.
  - destruct (longest_n (fun c => plainb c && negb (c =? 59)) eq_refl 15 l) as [nm [r [-> [H1 [H2 H3]]]]].
    assert (H35 : hd 0 nm <> 35) by (destruct nm; [discriminate|exact E]).
    destruct (N.eq_dec (hd 0 r) 59) as [E59|E59].
    + destruct (hd_cons _ _ E59 ltac:(discriminate)) as [r' ->]. destruct (list_in_dec nm (map fst entities)) as [Hin|Hin].
      * destruct (entity_in nm Hin) as [c Hc]. eexists. apply am_entity. exact Hc.
      * eexists. apply am_undefined; auto.
    + eexists. apply am_open_name; auto. destruct (Nat.eq_dec (length nm) 15) as [En|En]; [left; auto|]. right. split; [lia|].
      destruct H3 as [H3|H3]; [congruence|]. replace (hd 0 r =? 59) with false in H3 by lia. rewrite Bool.andb_true_r in H3. exact H3.
Qed.
Lemma amp_shrinks : forall l v r, amp_reads l (Some (v, r)) -> (length r <= length l)%nat.
Proof.
  intros l v r H. remember (Some (v, r)) as o eqn:Eo. destruct H; try discriminate Eo; injection Eo as <- <-; rewrite ?app_length; cbn [length]; try lia.
Qed.

(** ** Tokens *)
Lemma tok_ex : forall k, charb k 0 = false -> forall n l, (length l <= n)%nat -> exists o, tok_reads k l o.
Proof.
  intros k H0. induction n as [|n IH]; intros l Hl.
  - destruct l; [|cbn in Hl; lia]. eexists. apply (tr_end k [] []); [split; [constructor|exact H0]|discriminate].
  - destruct (longest_ex (charb k) H0 l) as [raw [r [-> [H1 H2]]]]. destruct (N.eq_dec (hd 0 r) 38) as [E|E].
    + destruct (hd_cons _ _ E ltac:(discriminate)) as [l2 ->]. rewrite app_length in Hl. cbn [length] in Hl.
      destruct (amp_ex l2) as [[[v l']|] Ha]; [|eexists; apply tr_undefined; assumption].
      pose proof (amp_shrinks _ _ _ Ha) as Hs. destruct (IH l' ltac:(lia)) as [[[w r]|] Ht].
      * eexists. eapply tr_amp; eassumption.
      * eexists. eapply tr_later; eassumption.
    + eexists. apply tr_end; [split|]; assumption.
Qed.
Lemma tok_total : forall k l, charb k 0 = false -> exists o, tok_reads k l o.
Proof. intros k l H. apply (tok_ex k H (length l)). lia. Qed.
Lemma tok_shrinks : forall k l v r, tok_reads k l (Some (v, r)) -> r = l \/ (length r < length l)%nat.
Proof.
  intros k l v r H. remember (Some (v, r)) as o eqn:Eo. revert v Eo.
  induction H as [raw r' [H1 H2] H3|raw l v' l' w r' H1 H2 H3 IH|raw l H1 H2|raw l v' l' H1 H2 H3 IH]; intros v0 Eo; try discriminate; injection Eo as <- <-.
  - destruct raw as [|c raw]; [left; reflexivity|right]. rewrite app_length. cbn [length]. lia.
  - right. pose proof (amp_shrinks _ _ _ H2) as Ha. rewrite app_length. cbn [length]. destruct (IH _ eq_refl) as [<-|Hr]; lia.
Qed.
Lemma value0 : forall q, charb (CValue q) 0 = false.
Proof. intros q. reflexivity. Qed.

(** ** Attributes *)
Lemma value_ex : forall h l, exists els s, value_reads h l els s /\ (forall b r, s = Goes b r -> (length r <= length l)%nat) /\ s <> Hangs.
Proof.
  intros h l. destruct (quoteb (hd 0 l)) eqn:Hq.
  - assert (Hl : exists r, l = hd 0 l :: r) by (destruct l; [discriminate|eexists; reflexivity]). destruct Hl as [l2 El]. remember (hd 0 l) as q eqn:Eq. clear Eq. subst l.
    destruct (tok_total (CValue q) l2 (value0 q)) as [[[v r]|] Ht].
    + destruct (N.eq_dec (hd 0 r) q) as [E|E].
      * assert (Hr : exists r', r = q :: r') by (apply hd_cons; [exact E|]; intros ->; discriminate). destruct Hr as [r' ->].
        destruct (followb h (hd 0 r')) eqn:Ef; eexists _, _; (split; [eapply vr_quoted + eapply vr_quoted_follow; eassumption|split; [|discriminate]]); intros b r0 Eg; try discriminate.
        injection Eg as _ <-. destruct (tok_shrinks _ _ _ _ Ht) as [<-|H]; cbn [length] in *; lia.
      * eexists _, _. split; [eapply vr_quoted_open; eassumption|]. split; discriminate.
    + eexists _, _. split; [eapply vr_quoted_undefined; eassumption|]. split; discriminate.
  - destruct (tok_total CName l eq_refl) as [[[v r]|] Ht].
    + destruct (followb h (hd 0 r)) eqn:Ef.
      * eexists _, _. split; [eapply vr_bare; eassumption|]. split; [|discriminate]. intros b r0 Eg. injection Eg as _ <-. destruct (tok_shrinks _ _ _ _ Ht) as [<-|H]; lia.
      * eexists _, _. split; [eapply vr_bare_follow; eassumption|]. split; discriminate.
    + eexists _, _. split; [eapply vr_bare_undefined; eassumption|]. split; discriminate.
Qed.
Lemma attr_ex : forall h l, exists els s, attr_reads h l els s /\ (forall b r, s = Goes b r -> (length r <= length l)%nat) /\ s <> Hangs.
Proof.
  intros h l. destruct (tok_total CName l eq_refl) as [[[n r]|] Ht]; [|eexists _, _; split; [apply tr_undef; exact Ht|split; discriminate]].
  destruct (longest_ex blank eq_refl r) as [ws1 [r1 [-> [H1 H2]]]]. destruct (N.eq_dec (hd 0 r1) 61) as [E|E].
  - destruct (hd_cons _ _ E ltac:(discriminate)) as [r2 ->]. destruct (longest_ex blank eq_refl r2) as [ws2 [l2 [-> H3]]].
    destruct (value_ex h l2) as [els [s [Hv [Hs Hh]]]]. eexists _, _. split; [eapply tr_attr; eassumption|]. split; [|exact Hh].
    intros b r ->. specialize (Hs b r eq_refl). destruct (tok_shrinks _ _ _ _ Ht) as [E2|H]; [rewrite <- E2|]; rewrite ?app_length in *; cbn [length] in *; rewrite ?app_length in *; lia.
  - destruct ws1 as [|c ws1].
    + eexists _, _. split; [eapply tr_name; eassumption|]. split; discriminate.
    + eexists _, _. split; [eapply (tr_noequal h l n (c :: ws1)); [exact Ht|discriminate|split; assumption|assumption]|]. split; discriminate.
Qed.
Lemma attr_follow : forall h l els b r, attr_reads h l els (Goes b r) -> followb h (hd 0 r) = true.
Proof. intros h l els b r H. inversion H; subst. match goal with Hv : value_reads _ _ _ _ |- _ => inversion Hv; subst; assumption end. Qed.
Lemma attrs_ex : forall h n l, (length l <= n)%nat -> followb h (hd 0 l) = true ->
  exists els s, attrs_read h l els s /\ (forall b r, s = Goes b r -> (length r <= length l)%nat /\ finb h (hd 0 r) = true) /\ s <> Hangs.
Proof.
  intros h. induction n as [|n IH]; intros l Hl Hf.
  - destruct l; [|cbn in Hl; lia]. destruct h; discriminate.
  - destruct (longest_ex blank eq_refl l) as [ws [r [-> [H1 H2]]]]. destruct (finb h (hd 0 r)) eqn:Ef.
    + eexists _, _. split; [apply ar_end; assumption|]. split; [|discriminate]. intros b r0 E. injection E as _ <-. rewrite app_length. split; [lia|exact Ef].
    + destruct ws as [|c ws]; [unfold followb in Hf; cbn [app] in Hf; rewrite H2, Ef in Hf; discriminate|].
      destruct (attr_ex h r) as [els [s [Ha [Hs Hh]]]]. destruct s as [b r2|e|]; [| |congruence].
      * specialize (Hs b r2 eq_refl). rewrite app_length in Hl. cbn [length] in Hl.
        destruct (IH r2 ltac:(lia) (attr_follow _ _ _ _ _ Ha)) as [els2 [s2 [Hr [Hs2 Hh2]]]].
        eexists _, _. split; [eapply (ar_attr h (c :: ws)); [discriminate|split; assumption|exact Ef|exact Ha|exact Hr]|]. split; [|exact Hh2].
        intros b0 r0 E. destruct (Hs2 b0 r0 E) as [G1 G2]. split; [|exact G2]. rewrite app_length. cbn [length]. lia.
      * eexists _, _. split; [eapply (ar_fails h (c :: ws)); [discriminate|split; assumption|exact Ef|exact Ha]|]. split; discriminate.
Qed.

(** ** Tags *)
Definition shrinks (l : list N) (s : step) : Prop := forall b r, s = Goes b r -> (length r < length l)%nat.
Lemma tagend_ex : forall l, finb false (hd 0 l) = true -> exists els s, tagend_reads l els s /\ shrinks l s.
Proof.
  intros l H. unfold finb in H. apply Bool.orb_prop in H. destruct H as [H|H]; apply N.eqb_eq in H; destruct (hd_cons _ _ H ltac:(discriminate)) as [r ->].
  - eexists _, _. split; [apply te_gt|]. intros b r0 E. injection E as _ <-. cbn [length]. lia.
  - destruct (longest_ex blank eq_refl r) as [ws [r1 [-> [H1 H2]]]]. destruct (N.eq_dec (hd 0 r1) 62) as [E|E].
    + destruct (hd_cons _ _ E ltac:(discriminate)) as [r2 ->]. eexists _, _. split; [apply te_slash; exact H1|]. intros b r0 Eg. injection Eg as _ <-. cbn [length]. rewrite app_length. cbn [length]. lia.
    + eexists _, _. split; [apply te_bad; [split; assumption|exact E]|]. intros b r0 Eg. discriminate.
Qed.
Lemma tag_ex : forall l, exists els s, tag_reads l els s /\ shrinks l s.
Proof.
  intros l. destruct (tok_total CName l eq_refl) as [[[n r]|] Ht]; [|eexists _, _; split; [apply tg_undefined; exact Ht|intros b r E; discriminate]].
  destruct (followb false (hd 0 r)) eqn:Ef; [|eexists _, _; split; [eapply tg_follow; eassumption|intros b r0 E; discriminate]].
  destruct (attrs_ex false (length r) r ltac:(lia) Ef) as [els [s [Ha [Hs Hh]]]]. destruct s as [b r2|e|]; [| |congruence].
  - destruct (Hs b r2 eq_refl) as [H1 H2]. destruct (tagend_ex r2 H2) as [els2 [s2 [He H3]]]. eexists _, _. split; [eapply tg_tag; eassumption|].
    intros b0 r0 E. specialize (H3 b0 r0 E). destruct (tok_shrinks _ _ _ _ Ht) as [<-|H]; lia.
  - eexists _, _. split; [eapply tg_attrs; eassumption|]. intros b r0 E. discriminate.
Qed.
Lemma close_ex : forall l, exists els s, close_reads l els s /\ shrinks l s.
Proof.
  intros l. destruct (tok_total CName l eq_refl) as [[[n r]|] Ht]; [|eexists _, _; split; [apply cl_undefined; exact Ht|intros b r E; discriminate]].
  destruct (longest_ex blank eq_refl r) as [ws [r1 [-> [H1 H2]]]]. destruct (N.eq_dec (hd 0 r1) 62) as [E|E].
  - destruct (hd_cons _ _ E ltac:(discriminate)) as [r2 ->]. eexists _, _. split; [eapply cl_close; eassumption|].
    intros b r0 Eg. injection Eg as _ <-. destruct (tok_shrinks _ _ _ _ Ht) as [<-|H]; rewrite ?app_length in *; cbn [length] in *; lia.
  - destruct ws as [|c ws].
    + eexists _, _. split; [eapply cl_name; eassumption|]. intros b r0 Eg. discriminate.
    + eexists _, _. split; [eapply (cl_end l n (c :: ws)); [exact Ht|discriminate|split; assumption|exact E]|]. intros b r0 Eg. discriminate.
Qed.

(** ** The header, sections and definitions *)
Lemma key_ex : forall k l, exists o, key_reads k l o /\ (forall r, o = inr r -> (length r <= length l)%nat).
Proof.
  induction k as [|x k IH]; intros l; [exists (inr l); split; [constructor|]; intros r E; injection E as <-; lia|].
  destruct (N.eq_dec (hd 0 l) 0) as [E0|E0]; [eexists; split; [apply ky_end; exact E0|discriminate]|].
  destruct (N.eq_dec (hd 0 l) x) as [E|E]; [|eexists; split; [apply ky_other; assumption|discriminate]].
  destruct (hd_cons _ _ E ltac:(congruence)) as [l2 ->]. destruct (IH l2) as [o [H1 H2]]. exists o. split; [constructor; exact H1|].
  intros r Er. specialize (H2 r Er). cbn [length]. lia.
Qed.
Lemma header_ex : forall l, exists els s, header_reads l els s /\ shrinks l s.
Proof.
  intros l. destruct (key_ex (str "xml") l) as [[e|r] [Hk Hl]]; [eexists _, _; split; [apply hd_key; exact Hk|intros b r E; discriminate]|].
  specialize (Hl r eq_refl). destruct (followb true (hd 0 r)) eqn:Ef; [|eexists _, _; split; [eapply hd_follow; eassumption|intros b r0 E; discriminate]].
  destruct (attrs_ex true (length r) r ltac:(lia) Ef) as [els [s [Ha [Hs Hh]]]]. destruct s as [b r2|e|]; [| |congruence].
  - destruct (Hs b r2 eq_refl) as [H1 H2]. unfold finb in H2. apply N.eqb_eq in H2. destruct (hd_cons _ _ H2 ltac:(discriminate)) as [r3 ->].
    destruct (longest_ex blank eq_refl r3) as [ws [r4 [-> [H3 H4]]]]. destruct (N.eq_dec (hd 0 r4) 62) as [E|E].
    + destruct (hd_cons _ _ E ltac:(discriminate)) as [r5 ->]. eexists _, _. split; [eapply hd_header; eassumption|].
      intros b0 r0 Eg. injection Eg as _ <-. cbn [length] in *. rewrite app_length in *. cbn [length] in *. lia.
    + eexists _, _. split; [eapply hd_bad; [exact Hk|exact Ef|exact Ha|split; assumption|exact E]|]. intros b0 r0 Eg. discriminate.
  - eexists _, _. split; [eapply hd_attrs; eassumption|]. intros b r0 E. discriminate.
Qed.
Lemma pi_ex : forall l, exists s, pi_reads l s /\ shrinks l s.
Proof.
  intros l. destruct (until 63 l) as [H|[c [r [-> H]]]]; [eexists; split; [apply pi_open; exact H|intros b r E; discriminate]|].
  destruct (N.eq_dec (hd 0 r) 62) as [E|E].
  - destruct (hd_cons _ _ E ltac:(discriminate)) as [r2 ->]. eexists. split; [apply pi_pi; exact H|]. intros b r0 Eg. injection Eg as _ <-. rewrite app_length. cbn [length]. lia.
  - eexists. split; [apply pi_bad; assumption|]. intros b r0 Eg. discriminate.
Qed.
Lemma def_ex : forall n l, (length l <= n)%nat -> exists els s, def_reads l els s /\ shrinks l s.
Proof.
  induction n as [|n IH]; intros l Hl.
  - destruct l; [|cbn in Hl; lia]. exists [], (Fails ErrIllegalDocumentAttributeDef). split; [|intros b r E; discriminate]. eapply df_name_bad; [reflexivity|apply (tr_end CName [] []); [split; [constructor|reflexivity]|discriminate]|reflexivity].
  - destruct (def_headb (hd 0 l)) eqn:Hh.
    + assert (Hl2 : exists r, l = hd 0 l :: r) by (destruct l; [discriminate|eexists; reflexivity]). destruct Hl2 as [l2 El]. remember (hd 0 l) as c eqn:Ec. clear Ec. subst l. cbn [length] in Hl.
      unfold def_headb in Hh. destruct (blank c) eqn:Hb.
      { destruct (IH l2 ltac:(lia)) as [els [s [Hd Hs]]]. eexists _, _. split; [apply df_blank; eassumption|]. intros b r E. specialize (Hs b r E). cbn [length]. lia. }
      destruct (N.eq_dec c 62) as [->|E62]; [eexists _, _; split; [apply df_end|intros b r E; injection E as _ <-; cbn [length]; lia]|].
      destruct (quoteb c) eqn:Hq.
      * destruct (tok_total (CValue c) l2 (value0 c)) as [[[v r]|] Ht]; [|eexists _, _; split; [eapply df_string_undefined; eassumption|intros b r E; discriminate]].
        destruct (N.eq_dec (hd 0 r) c) as [E|E].
        -- assert (Hr : exists r', r = c :: r') by (apply hd_cons; [exact E|]; intros ->; discriminate). destruct Hr as [r' ->].
           assert (Hlen : (S (length r') <= length l2)%nat) by (destruct (tok_shrinks _ _ _ _ Ht) as [<-|H]; cbn [length] in *; lia).
           destruct (IH r' ltac:(lia)) as [els [s [Hd Hs]]]. eexists _, _. split; [eapply df_string; eassumption|]. intros b r E2. specialize (Hs b r E2). cbn [length]. lia.
        -- eexists _, _. split; [eapply df_string_open; eassumption|]. intros b r0 Eg. discriminate.
      * cbn [orb] in Hh. replace (c =? 62) with false in Hh by lia. cbn [orb] in Hh. apply N.eqb_eq in Hh. subst c.
        destruct (until 93 l2) as [H|[c [r [-> H]]]]; [eexists _, _; split; [apply df_list_open; exact H|intros b r E; discriminate]|].
        rewrite app_length in Hl. cbn [length] in Hl. destruct (IH r ltac:(lia)) as [els [s [Hd Hs]]]. eexists _, _. split; [apply df_list; eassumption|].
        intros b r0 E. specialize (Hs b r0 E). cbn [length]. rewrite app_length. cbn [length]. lia.
    + destruct (tok_total CName l eq_refl) as [[[v r]|] Ht]; [|eexists _, _; split; [eapply df_name_undefined; eassumption|intros b r E; discriminate]].
      destruct (blank (hd 0 r) || (hd 0 r =? 62)) eqn:Ef; [|eexists _, _; split; [eapply df_name_bad; eassumption|intros b r0 E; discriminate]].
      destruct (tok_shrinks _ _ _ _ Ht) as [->|Hr]; [unfold def_headb in Hh; rewrite Ef in Hh; discriminate|].
      destruct (IH r ltac:(lia)) as [els [s [Hd Hs]]]. eexists _, _. split; [eapply df_name; eassumption|]. intros b r0 E. specialize (Hs b r0 E). lia.
Qed.
Lemma decl_ex : forall l, exists els s, decl_reads l els s /\ shrinks l s.
Proof.
  intros l. destruct (N.eq_dec (hd 0 l) 45) as [E|E].
  - destruct (hd_cons _ _ E ltac:(discriminate)) as [l1 ->]. destruct (N.eq_dec (hd 0 l1) 45) as [E1|E1]; [|eexists _, _; split; [apply dc_dash; exact E1|intros b r Eg; discriminate]].
    destruct (hd_cons _ _ E1 ltac:(discriminate)) as [l2 ->]. destruct (section_alternative 45 comment_run ltac:(discriminate) l2) as [[c [r [-> H]]]|H].
    + eexists _, _. split; [apply dc_comment; exact H|]. intros b r0 Eg. injection Eg as _ <-. cbn [length]. rewrite app_length. lia.
    + eexists _, _. split; [apply dc_comment_open; exact H|]. intros b r0 Eg. discriminate.
  - destruct (N.eq_dec (hd 0 l) 91) as [E1|E1].
    + destruct (hd_cons _ _ E1 ltac:(discriminate)) as [l1 ->]. destruct (key_ex (str "CDATA") l1) as [[e|r] [Hk Hl]]; [eexists _, _; split; [apply dc_key; exact Hk|intros b r Eg; discriminate]|].
      specialize (Hl r eq_refl). destruct (N.eq_dec (hd 0 r) 91) as [E2|E2]; [|eexists _, _; split; [eapply dc_follow; eassumption|intros b r0 Eg; discriminate]].
      destruct (hd_cons _ _ E2 ltac:(discriminate)) as [r1 ->]. destruct (section_alternative 93 cdata_run ltac:(discriminate) r1) as [[c [r [-> H]]]|H].
      * eexists _, _. split; [eapply dc_cdata; eassumption|]. intros b r0 Eg. injection Eg as _ <-. cbn [length] in *. rewrite app_length in Hl. lia.
      * eexists _, _. split; [eapply dc_cdata_open; eassumption|]. intros b r0 Eg. discriminate.
    + destruct (def_ex (length l) l ltac:(lia)) as [els [s [Hd Hs]]]. eexists _, _. split; [apply dc_def; eassumption|exact Hs].
Qed.
Lemma markup_ex : forall first l, exists els s, markup_reads first l els s /\ shrinks l s.
Proof.
  intros first l.
  assert (Sh : forall c r s, shrinks r s -> shrinks (c :: r) s) by (intros c r s H b r0 E; specialize (H b r0 E); cbn [length]; lia).
  destruct (N.eq_dec (hd 0 l) 63) as [E|E].
  - destruct (hd_cons _ _ E ltac:(discriminate)) as [l1 ->]. destruct first.
    + destruct (header_ex l1) as [els [s [H Hs]]]. eexists _, _. split; [apply mk_header; [reflexivity|eassumption]|auto].
    + destruct (pi_ex l1) as [s [H Hs]]. eexists _, _. split; [apply mk_pi; [reflexivity|eassumption]|auto].
  - destruct (N.eq_dec (hd 0 l) 33) as [E1|E1].
    + destruct (hd_cons _ _ E1 ltac:(discriminate)) as [l1 ->]. destruct (decl_ex l1) as [els [s [H Hs]]]. eexists _, _. split; [apply mk_decl; eassumption|auto].
    + destruct (tag_ex l) as [els [s [H Hs]]]. destruct first; [eexists _, _; split; [apply mk_tag; try eassumption; discriminate|exact Hs]|].
      destruct (N.eq_dec (hd 0 l) 47) as [E2|E2].
      * destruct (hd_cons _ _ E2 ltac:(discriminate)) as [l1 ->]. destruct (close_ex l1) as [els1 [s1 [H1 Hs1]]]. eexists _, _. split; [apply mk_close; [reflexivity|eassumption]|auto].
      * eexists _, _. split; [apply mk_tag; try eassumption; auto|exact Hs].
Qed.

(** ** Contents and texts *)
Lemma content_ex : forall n seek l, (length l <= n)%nat -> exists els o, content_reads seek l els o.
Proof.
  induction n as [|n IH]; intros seek l Hl.
  - destruct l; [|cbn in Hl; lia]. eexists _, _. apply ct_end. reflexivity.
  - destruct (N.eq_dec (hd 0 l) 0) as [E0|E0]; [eexists _, _; apply ct_end; exact E0|].
    destruct (N.eq_dec (hd 0 l) 60) as [E|E].
    + destruct (hd_cons _ _ E ltac:(discriminate)) as [l1 ->]. destruct (longest_ex blank eq_refl l1) as [ws [l2 [-> Hw]]].
      destruct (markup_ex false l2) as [els [s [H Hs]]]. cbn [length] in Hl. rewrite app_length in Hl. destruct s as [b r|e|].
      * specialize (Hs b r eq_refl). destruct (IH b r ltac:(lia)) as [els2 [o Hc]]. eexists _, _. eapply ct_markup; eassumption.
      * eexists _, _. eapply ct_fails; eassumption.
      * eexists _, _. eapply ct_hangs; eassumption.
    + destruct (seek && blank (hd 0 l)) eqn:Hb.
      * apply andb_prop in Hb. destruct Hb as [-> Hb]. assert (Hl2 : exists r, l = hd 0 l :: r) by (destruct l; [discriminate|eexists; reflexivity]). destruct Hl2 as [l2 El].
        rewrite El in *. cbn [hd length] in *. destruct (IH true l2 ltac:(lia)) as [els [o Hc]]. eexists _, _. apply ct_blank; eassumption.
      * assert (Hs : seek = true -> blank (hd 0 l) = false) by (intros ->; exact Hb).
        destruct (tok_total CText l eq_refl) as [[[v r]|] Ht]; [|eexists _, _; apply ct_undefined; assumption].
        assert (Hr : (length r < length l)%nat).
        { destruct (tok_shrinks _ _ _ _ Ht) as [->|H]; [|exact H]. exfalso.
          assert (St : charb CText (hd 0 l) = false /\ hd 0 l <> 38); [|destruct St as [St1 St2]; unfold charb in St1; lia].
          clear - Ht. remember (Some (v, l)) as o eqn:Eo. assert (G : forall v r, o = Some (v, r) -> charb CText (hd 0 r) = false /\ hd 0 r <> 38); [|eapply G; exact Eo]. clear v Eo.
          induction Ht as [raw r' [H1 H2] H3|raw l v' l' w r' H1 H2 H3 IH|raw l H1 H2|raw l v' l' H1 H2 H3 IH]; intros v0 r0 Eo; try discriminate; injection Eo as <- <-; eauto. }
        destruct (IH false r ltac:(lia)) as [els [o Hc]]. eexists _, _. eapply ct_text; eassumption.
Qed.

Theorem text_total : forall l, exists els o, text_reads l els o.
Proof.
  intros l. destruct (longest_ex blank eq_refl l) as [ws [l1 [-> [H1 H2]]]].
  destruct (N.eq_dec (hd 0 l1) 0) as [E0|E0]; [eexists _, _; apply tx_empty; assumption|].
  destruct (N.eq_dec (hd 0 l1) 60) as [E|E]; [|eexists _, _; apply tx_bad; [split; assumption|assumption|assumption]].
  destruct (hd_cons _ _ E ltac:(discriminate)) as [l2 ->]. destruct (longest_ex blank eq_refl l2) as [ws0 [l3 [-> Hw]]].
  destruct (markup_ex true l3) as [els [s [H Hs]]]. destruct s as [b r|e|].
  - destruct (content_ex (length r) b r ltac:(lia)) as [els2 [o Hc]]. eexists _, _. eapply tx_text; eassumption.
  - eexists _, _. eapply tx_fails; eassumption.
  - eexists _, _. eapply tx_hangs; eassumption.
Qed.
