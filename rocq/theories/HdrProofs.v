(** The header parser as function on bytes. *)
From Verif Require Import Base XmlHdr HdrSpec.

Inductive verdict := VMore | VRet (b : bool) | VThrow.

Fixpoint hb (l : list N) (h : hdr) : hdr * verdict :=
  match l with
  | [] => (h, VMore)
  | c :: l' =>
      if c =? 0
      then let h' := h_setZero (S (h_zero h)) (h_skip h) in if Nat.ltb (h_zero h') 4 then hb l' h' else (h', VThrow)
      else match h_char c (h_count c (h_skip h)) with
           | (h2, Some b) => (h2, VRet b)
           | (h2, None) => hb l' h2
           end
  end.
Definition hout (r : hdr * verdict) : out hdr bool :=
  match r with (h, VMore) => Ret h false | (h, VRet b) => Ret h b | (h, VThrow) => Throw h end.

Lemma h_char_keep : forall c h, let h' := fst (h_char c h) in
  h_idx h' = h_idx h /\ h_src h' = h_src h /\ h_zero h' = h_zero h /\ h_consumed h' = h_consumed h.
Proof.
  intros c h. unfold h_char, h_fail. destruct (h_state h);
    repeat match goal with |- context[if ?b then _ else _] => destruct b end; cbn;
    try (destruct (h_attr h)); repeat split.
Qed.

Definition body (n : nat) (h1 : hdr) (c : N) : out hdr bool :=
  if c =? 0 then Ret h1 false
  else match h_char c h1 with
       | (h2, Some b) => Ret h2 b
       | (h2, None) => h_loop n h2
       end.
Lemma skipn_nth : forall {A} (l : list A) i c r, skipn i l = c :: r -> nth_error l i = Some c /\ skipn (S i) l = r.
Proof. induction l; intros [|i] c r E; cbn in *; try discriminate; [injection E as <- <-; auto|]. apply IHl. exact E. Qed.
Lemma skipn_nth_none : forall {A} (l : list A) i, skipn i l = [] -> nth_error l i = None.
Proof. induction l; intros [|i] E; cbn in *; try discriminate; auto. Qed.

Lemma h_loop_hb : forall l h n k, skipn (h_idx h) (h_src h) = l -> (h_zero h < 4)%nat -> (5 <= k + h_zero h)%nat -> (length l <= n)%nat ->
  bind (h_next k h) (body n) = hout (hb l h).
Proof.
  induction l as [|c l IH]; intros h n k El Hz Hk Hn.
  - destruct k as [|k]; [lia|]. cbn [h_next]. rewrite (proj2 (Nat.ltb_lt _ _) Hz). rewrite (skipn_nth_none _ _ El). reflexivity.
  - destruct k as [|k]; [lia|]. cbn [h_next hb]. rewrite (proj2 (Nat.ltb_lt _ _) Hz). destruct (skipn_nth _ _ _ _ El) as [E1 E2]. rewrite E1.
    destruct (c =? 0) eqn:Ec.
    + cbn zeta. change (h_zero (h_skip h)) with (h_zero h). destruct (Nat.ltb_spec (h_zero (h_setZero (S (h_zero h)) (h_skip h))) 4) as [Hz'|Hz'].
      * apply IH; [exact E2|exact Hz'|cbn in *; lia|cbn in Hn; lia].
      * cbn in Hz'. destruct k as [|k]; [lia|]. cbn [h_next]. change (h_zero (h_setZero (S (h_zero h)) (h_skip h))) with (S (h_zero h)).
        replace (Nat.ltb (S (h_zero h)) 4) with false by (symmetry; apply Nat.ltb_ge; lia). reflexivity.
    + cbn [bind]. unfold body at 1. rewrite Ec. pose proof (h_char_keep c (h_count c (h_skip h))) as K. destruct (h_char c (h_count c (h_skip h))) as [h2 [b|]]; [reflexivity|].
      cbn in K. destruct K as [K1 [K2 [K3 K4]]]. destruct n as [|n]; [cbn in Hn; lia|]. cbn [h_loop]. unfold h_nextChar. apply (IH h2 n 5%nat); [rewrite K1, K2; exact E2|lia|lia|cbn in Hn; lia].
Qed.
Lemma h_parse_hb : forall h, (h_zero h < 4)%nat -> h_parse h = hout (hb (skipn (h_idx h) (h_src h)) h).
Proof.
  intros h Hz. unfold h_parse. cbn [h_loop]. unfold h_nextChar. apply h_loop_hb; auto; [lia|]. rewrite skipn_length. lia.
Qed.

Lemma hb_app : forall a b h, hb (a ++ b) h = match hb a h with (h1, VMore) => hb b h1 | x => x end.
Proof.
  induction a as [|c a IH]; intros b h; [reflexivity|]. cbn [app hb]. destruct (c =? 0).
  - cbn zeta. destruct (Nat.ltb _ 4); [apply IH|reflexivity].
  - destruct (h_char c _) as [h2 [x|]]; [reflexivity|apply IH].
Qed.
Lemma hb_more : forall l h h', hb l h = (h', VMore) -> (h_zero h < 4)%nat -> (h_zero h' < 4)%nat /\ h_idx h' = (h_idx h + length l)%nat /\ h_src h' = h_src h.
Proof.
  induction l as [|c l IH]; intros h h' E Hz; cbn [hb] in E; [injection E as <-; cbn [length]; repeat split; lia|]. destruct (c =? 0).
  - cbn zeta in E. destruct (Nat.ltb_spec (h_zero (h_setZero (S (h_zero h)) (h_skip h))) 4) as [G|G]; [|discriminate E]. destruct (IH _ _ E G) as [I1 [I2 I3]]. cbn in I2, I3. cbn [length]. repeat split; lia || assumption.
  - pose proof (h_char_keep c (h_count c (h_skip h))) as K. destruct (h_char c (h_count c (h_skip h))) as [h2 [x|]]; [discriminate E|]. cbn in K. destruct K as [K1 [K2 [K3 K4]]].
    destruct (IH _ _ E ltac:(lia)) as [I1 [I2 I3]]. cbn [length]. repeat split; [lia|lia|congruence].
Qed.

(** ** Position, source and the number of zeros have no influence *)
Definition strip (h : hdr) : hdr := mkHdr (h_state h) (h_attr h) 0 (h_consumed h) 0 (h_item h) [] (h_enc h) (h_err h).
Definition heq (h h' : hdr) : Prop := strip h = strip h'.
Lemma strip_char : forall c h, (strip (fst (h_char c h)), snd (h_char c h)) = (fst (h_char c (strip h)), snd (h_char c (strip h))).
Proof.
  intros c h. unfold h_char, h_fail. cbn [strip h_state h_item h_attr]. destruct (h_state h);
    repeat match goal with |- context[if ?b then _ else _] => destruct b end; cbn; try reflexivity;
    try (destruct (h_attr h)); reflexivity.
Qed.
Lemma heq_char : forall c h h', heq h h' -> heq (fst (h_char c h)) (fst (h_char c h')) /\ snd (h_char c h) = snd (h_char c h').
Proof.
  intros c h h' E. unfold heq in *. pose proof (strip_char c h) as A. pose proof (strip_char c h') as B. rewrite E in A. injection A as A1 A2. injection B as B1 B2. split; congruence.
Qed.
Lemma heq_count : forall c h h', heq h h' -> heq (h_count c (h_skip h)) (h_count c (h_skip h')).
Proof. intros c [] [] E. unfold heq, strip in *. cbn in *. injection E as -> -> -> -> -> ->. reflexivity. Qed.
Lemma heq_view : forall h h', heq h h' -> h_encoding h = h_encoding h' /\ h_lasterror h = h_lasterror h' /\ h_chars h = h_chars h'.
Proof. intros [] [] E. unfold heq, strip in *. cbn in *. injection E as -> -> -> -> -> ->. auto. Qed.

(** ** Chunks *)
Lemma hb_heq : forall l h h', heq h h' -> h_zero h = h_zero h' ->
  heq (fst (hb l h)) (fst (hb l h')) /\ snd (hb l h) = snd (hb l h') /\ h_zero (fst (hb l h)) = h_zero (fst (hb l h')).
Proof.
  induction l as [|c l IH]; intros h h' E Ez; [cbn; auto|]. cbn [hb]. destruct (c =? 0).
  - cbn zeta. cbn [h_setZero h_zero]. rewrite Ez. destruct (Nat.ltb _ 4); [apply IH; [destruct h, h'; exact E|reflexivity]|]. cbn [fst snd]. split; [destruct h, h'; exact E|split; reflexivity].
  - destruct (heq_char c _ _ (heq_count c h h' E)) as [G1 G2].
    pose proof (h_char_keep c (h_count c (h_skip h))) as K. pose proof (h_char_keep c (h_count c (h_skip h'))) as K'.
    destruct (h_char c (h_count c (h_skip h))) as [h2 r2]. destruct (h_char c (h_count c (h_skip h'))) as [h3 r3]. cbn in *. subst r3.
    destruct K as [_ [_ [K _]]]. destruct K' as [_ [_ [K' _]]]. destruct r2; [split; [exact G1|split; [reflexivity|cbn; congruence]]|apply IH; [exact G1|congruence]].
Qed.
Definition vview (r : hdr * verdict) : option (option bool * option (list N) * option (list N) * nat) := h_view (hout r).
Lemma vview_eq : forall r r', heq (fst r) (fst r') -> snd r = snd r' -> vview r = vview r'.
Proof. intros [h v] [h' v'] E E2. cbn in *. subst v'. destruct (heq_view _ _ E) as [A [B C]]. unfold vview, hout, h_view. destruct v; rewrite A, B, C; reflexivity. Qed.

Lemma err_more : forall l h h', hb l h = (h', VMore) -> h_err h' = h_err h.
Proof.
  induction l as [|c l IH]; intros h h' E; cbn [hb] in E; [injection E as <-; reflexivity|]. destruct (c =? 0).
  - cbn zeta in E. destruct (Nat.ltb _ 4); [|discriminate E]. apply IH in E. exact E.
  - assert (K : forall r, h_char c (h_count c (h_skip h)) = r -> snd r = None -> h_err (fst r) = h_err h).
    { intros r <-. unfold h_char, h_fail. destruct (h_state _); repeat match goal with |- context[if ?b then _ else _] => destruct b end; cbn; try discriminate; try reflexivity; destruct (h_attr h); reflexivity. }
    destruct (h_char c (h_count c (h_skip h))) as [h2 [x|]]; [discriminate E|]. rewrite (IH _ _ E). exact (K _ eq_refl eq_refl).
Qed.
Lemma err_false : forall l h h', hb l h = (h', VRet false) -> h_err h' <> [].
Proof.
  induction l as [|c l IH]; intros h h' E; cbn [hb] in E; [discriminate E|]. destruct (c =? 0).
  - cbn zeta in E. destruct (Nat.ltb _ 4); [|discriminate E]. apply IH in E. exact E.
  - assert (K : forall r, h_char c (h_count c (h_skip h)) = r -> snd r = Some false -> h_err (fst r) <> []).
    { intros r <-. unfold h_char, h_fail. destruct (h_state _); repeat match goal with |- context[if ?b then _ else _] => destruct b end; cbn; try discriminate; destruct (h_attr h); discriminate. }
    destruct (h_char c (h_count c (h_skip h))) as [h2 [x|]]; [|apply IH in E; exact E]. injection E as <- ->. exact (K _ eq_refl eq_refl).
Qed.

Lemma feed_hb : forall chunks h, (h_zero h < 4)%nat -> h_idx h = length (h_src h) -> h_err h = [] ->
  h_view (h_feed chunks h) = vview (hb (concat chunks) h).
Proof.
  induction chunks as [|c chunks IH]; intros h Hz Hi He; [reflexivity|]. cbn [h_feed concat].
  rewrite h_parse_hb by exact Hz. replace (skipn (h_idx (h_put h c)) (h_src (h_put h c))) with c
    by (cbn; rewrite Hi, skipn_app, skipn_all, Nat.sub_diag; reflexivity).
  rewrite hb_app. assert (Q : heq h (h_put h c)) by (destruct h; reflexivity).
  pose proof (hb_heq c h (h_put h c) Q eq_refl) as [R1 [R2 R3]].
  destruct (hb c (h_put h c)) as [h1 v1] eqn:E1. destruct (hb c h) as [h0 v0] eqn:E0. cbn [fst snd] in *. subst v1. destruct v0 as [|b|]; cbn [hout bind].
  - unfold h_lasterror. rewrite (err_more _ _ _ E1). cbn [h_put h_err]. rewrite He. destruct (hb_more _ _ _ E1 Hz) as [M1 [M2 M3]]. rewrite IH.
    + apply vview_eq; apply hb_heq; unfold heq in *; congruence.
    + exact M1.
    + rewrite M2, M3. cbn. rewrite app_length. lia.
    + rewrite (err_more _ _ _ E1). exact He.
  - destruct b; [apply (vview_eq (h1, VRet true) (h0, VRet true)); [cbn; unfold heq in *; congruence|reflexivity]|].
    unfold h_lasterror. pose proof (err_false _ _ _ E1) as Hf. destruct (h_err h1) eqn:Ee; [congruence|].
    apply (vview_eq (h1, VRet false) (h0, VRet false)); [cbn; unfold heq in *; congruence|reflexivity].
  - apply (vview_eq (h1, VThrow) (h0, VThrow)); [cbn; unfold heq in *; congruence|reflexivity].
Qed.

(** ** Zeros *)
Lemma hb_zeros : forall k h l, (h_zero h + k < 4)%nat -> exists h', hb (repeat 0 k ++ l) h = hb l h' /\ heq h' h /\ (h_zero h' = h_zero h + k)%nat.
Proof.
  induction k as [|k IH]; intros h l Hk; [exists h; repeat split; lia|]. cbn [repeat app hb]. rewrite N.eqb_refl. cbn zeta.
  replace (Nat.ltb (h_zero (h_setZero (S (h_zero h)) (h_skip h))) 4) with true by (symmetry; apply Nat.ltb_lt; cbn; lia).
  destruct (IH (h_setZero (S (h_zero h)) (h_skip h)) l) as [h' [E1 [E2 E3]]]; [cbn; lia|]. exists h'. split; [exact E1|]. split; [unfold heq in *; rewrite E2; destruct h; reflexivity|cbn in E3; lia].
Qed.
Lemma padded_hb : forall l l', padded l l' -> forall h h', heq h h' -> h_zero h = 0%nat -> h_zero h' = 0%nat ->
  heq (fst (hb l h)) (fst (hb l' h')) /\ snd (hb l h) = snd (hb l' h').
Proof.
  induction 1 as [k Hk|k c l l' Hk Hc Hp IH]; intros h h' E Z Z'.
  - rewrite <- (app_nil_r (repeat 0 k)). destruct (hb_zeros k h' []) as [h2 [E1 [E2 E3]]]; [lia|]. rewrite E1. cbn. unfold heq in *. split; congruence.
  - destruct (hb_zeros k h' (c :: l')) as [h2 [E1 [E2 E3]]]; [lia|]. rewrite E1. cbn [hb]. rewrite (proj2 (N.eqb_neq _ _) Hc).
    assert (E' : heq h h2) by (unfold heq in *; congruence).
    destruct (heq_char c _ _ (heq_count c h h2 E')) as [G1 G2].
    pose proof (h_char_keep c (h_count c (h_skip h))) as K. pose proof (h_char_keep c (h_count c (h_skip h2))) as K'.
    destruct (h_char c (h_count c (h_skip h))) as [h3 r3]. destruct (h_char c (h_count c (h_skip h2))) as [h4 r4]. cbn in *. subst r4.
    destruct K as [_ [_ [K _]]]. destruct K' as [_ [_ [K' _]]]. destruct r3; [split; [exact G1|reflexivity]|]. apply IH; [exact G1|exact K|exact K'].
Qed.
