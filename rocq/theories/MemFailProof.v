From Coq Require Import Lia.
From Verif Require Import Base Iter StaticBuffer TagStack TagAlloc BufProofs Memory MemSpec MemProofs MemFail MemFailSpec.

(** the heap [h] is [h0], but for the size stored in stacks of [B] *)
Definition wider (x y : option obj) : Prop := match x, y with Some (OStack p pos size), Some (OStack p0 pos0 size0) => p = p0 /\ pos = pos0 /\ size0 <= size < 2 ^ 63 | _, _ => False end.
Record Wide (B : list nat) (h h0 : heap) : Prop := mkWide {
  wd_blks : h_blks h = h_blks h0;
  wd_len : length (h_objs h) = length (h_objs h0);
  wd_obj : forall k, get_obj h k = get_obj h0 k \/ (In k B /\ wider (get_obj h k) (get_obj h0 k)) }.

Lemma wd_load B h h0 p : Wide B h h0 -> load h p = load h0 p. Proof. intros [W _ _]. unfold load. rewrite W. reflexivity. Qed.
Lemma get_app h x b k : get_obj (mkHp b (h_objs h ++ [x])) k = if Nat.eqb k (length (h_objs h)) then x else get_obj h k.
Proof.
  unfold get_obj. cbn [h_objs]. destruct (Nat.eqb_spec k (length (h_objs h))) as [->|N].
  - rewrite nth_error_app2, Nat.sub_diag by lia. reflexivity.
  - destruct (Nat.lt_ge_cases k (length (h_objs h))); [rewrite nth_error_app1 by assumption; reflexivity|]. rewrite nth_error_app2 by lia. destruct (k - length (h_objs h))%nat as [|q] eqn:E; [lia|].
    assert (E2 : nth_error (h_objs h) k = None) by (apply nth_error_None; lia). rewrite E2. destruct q; reflexivity.
Qed.
Lemma get_upd h x b k j : (k < length (h_objs h))%nat -> get_obj (mkHp b (upd k x (h_objs h))) j = if Nat.eqb j k then x else get_obj h j.
Proof.
  intro L. unfold get_obj. cbn [h_objs]. destruct (Nat.eqb_spec j k) as [->|N]; [rewrite upd_same by exact L; reflexivity|]. rewrite upd_other by congruence. reflexivity.
Qed.
Lemma get_lt h k o : get_obj h k = Some o -> (k < length (h_objs h))%nat.
Proof. unfold get_obj. intro H. apply nth_error_Some. destruct (nth_error (h_objs h) k); congruence. Qed.
Lemma wd_add B h h0 b x : Wide B h h0 -> Wide B (mkHp b (h_objs h ++ [x])) (mkHp b (h_objs h0 ++ [x])).
Proof.
  intros [W1 W2 W3]. split; cbn [h_blks h_objs]; [reflexivity|rewrite !app_length; lia|]. intro k. rewrite !get_app, W2. destruct (Nat.eqb k _); [left; reflexivity|apply W3].
Qed.
Lemma wd_upd B h h0 b x k : Wide B h h0 -> (k < length (h_objs h))%nat -> Wide B (mkHp b (upd k x (h_objs h))) (mkHp b (upd k x (h_objs h0))).
Proof.
  intros [W1 W2 W3] L. split; cbn [h_blks h_objs]; [reflexivity|rewrite !upd_length; exact W2|]. intro j. rewrite !get_upd by congruence. destruct (Nat.eqb j k); [left; reflexivity|apply W3].
Qed.
Lemma wd_wide B h h0 b x x0 k : Wide B h h0 -> (k < length (h_objs h))%nat -> In k B -> wider x x0 -> Wide B (mkHp b (upd k x (h_objs h))) (mkHp b (upd k x0 (h_objs h0))).
Proof.
  intros [W1 W2 W3] L HB Hx. split; cbn [h_blks h_objs]; [reflexivity|rewrite !upd_length; exact W2|]. intro j. rewrite !get_upd by congruence. destruct (Nat.eqb_spec j k) as [->|N]; [right; split; [exact HB|exact Hx]|apply W3].
Qed.
Lemma store_blks B h h0 p m : Wide B h h0 -> h_blks (store p m h) = h_blks (store p m h0).
Proof. intros [W _ _]. unfold store. rewrite W. reflexivity. Qed.

Lemma wd_store B h h0 p m : Wide B h h0 -> Wide B (store p m h) (store p m h0).
Proof. intro W. split; [exact (store_blks _ _ _ _ _ W)|exact (wd_len _ _ _ W)|exact (wd_obj _ _ _ W)]. Qed.

(** a call that needs no more memory than it gets *)
Lemma stack_same o t t' a size : stack_op o t = Ret t' a -> (forall s, o <> KPush s) -> stack_op o (mkTs (tg_mem t) (tg_pos t) size) = Ret (mkTs (tg_mem t') (tg_pos t') size) a /\ tg_size t' = tg_size t /\ tg_mem t' = tg_mem t.
Proof.
  intros E N. destruct o as [s| | | |]; [congruence| | | |]; cbn [stack_op] in *.
  - unfold tg_pop, tg_topofs in *. cbn [tg_pos tg_mem] in *. destruct (tg_pos t <? 8); [|destruct (read_size (tg_mem t) (tg_pos t - 8)); [|discriminate E]];
      (match type of E with context [if ?c then Throw _ else _] => destruct c end; injection E as <- <-; auto).
  - unfold tg_top, tg_topofs in *. cbn [tg_pos tg_mem] in *. destruct (tg_pos t <? 8); [cbn in *; injection E as <- <-; auto|]. destruct (read_size (tg_mem t) (tg_pos t - 8)) as [nn|]; [|discriminate E].
    match goal with |- context [if ?c =? 0 then _ else _] => destruct (c =? 0) end; [cbn in *; injection E as <- <-; auto|].
    match type of E with context [if ?c then Ret _ _ else Undef] => destruct c end; [|discriminate E]. cbn in *. injection E as <- <-; auto.
  - injection E as <- <-. auto.
  - injection E as <- <-. auto.
Qed.
Lemma same_call c B h h0 V V' a n h0' lost lend : Rel lost lend h0 V -> Wide B h h0 -> call_spec c V = Some (V', a, n) -> (forall k s, c = MStack k (KPush s) -> ~ In k B) -> (forall k, c = MCopy k -> ~ In k B) ->
  mem_call c h0 = Ret h0' a -> exists h', mem_call c h = Ret h' a /\ Wide B h' h0'.
Proof.
  intros R W S NP NC E. pose proof (wd_blks _ _ _ W) as Wb. pose proof (wd_len _ _ _ W) as Wl. pose proof (fun p => wd_load _ _ _ p W) as Wld. pose proof (wd_obj _ _ _ W) as Wo.
  destruct c as [m|mem m i| |bs r| |k|k j|k|k o|k o|k|k r]; cbn [call_spec mem_call] in *; try discriminate S.
  - unfold alloc, construct in *. cbn [h_blks h_objs] in *. injection E as <- ->. rewrite Wb. eexists. split; [reflexivity|]. apply wd_add. exact W.
  - unfold alloc, construct in *. cbn [h_blks h_objs] in *. injection E as <- ->. rewrite Wb. eexists. split; [reflexivity|]. apply wd_add. exact W.
  - unfold alloc, construct in *. cbn [h_blks h_objs] in *. injection E as <- ->. rewrite Wb. eexists. split; [reflexivity|]. apply wd_add. exact W.
  - unfold alloc, construct in *. cbn [h_blks h_objs] in *. destruct (_ <? _); [discriminate E|]. rewrite Wb. destruct (rd_err r); injection E as <- ->; (eexists; split; [reflexivity|]; apply wd_add; exact W).
  - assert (K : get_obj h k = get_obj h0 k) by (destruct (Wo k) as [K|[K _]]; [exact K|destruct (NC k eq_refl K)]). rewrite K. unfold alloc, construct in *. cbn [h_blks h_objs] in *.
    destruct (get_obj h0 k) as [[p pos size al ov|p pos size|p bs rs rp ap|]|]; try discriminate E; rewrite Wld, Wb; (match type of E with (if ?c then _ else _) = _ => destruct c end; [|discriminate E]; injection E as <- ->; eexists; split; [reflexivity|apply wd_add; exact W]).
  - destruct (get_obj h0 k) as [o0|] eqn:G0; [|discriminate E]. assert (L : (k < length (h_objs h))%nat) by (rewrite Wl; eapply get_lt; exact G0). destruct (Wo k) as [K|[K1 K2]].
    + rewrite K, G0. unfold free in *. rewrite Wb. destruct o0 as [p pos size al ov|p pos size|p bs rs rp ap|]; [destruct al| | |discriminate E];
        try (destruct (nth_error (h_blks h0) p) as [[]|]; try discriminate E); cbn [bind] in *; injection E as <- ->; (eexists; split; [reflexivity|]); unfold set_obj; cbn [h_blks h_objs]; try rewrite Wb; apply wd_upd; assumption.
    + rewrite G0 in K2. destruct o0 as [| p0 pos0 size0| |]; [destruct (get_obj h k) as [[]|]; contradiction K2| |destruct (get_obj h k) as [[]|]; contradiction K2..].
      destruct (get_obj h k) as [[|p pos size| |]|]; try contradiction K2. destruct K2 as (-> & -> & K2). unfold free in *. rewrite Wb. destruct (nth_error (h_blks h0) p0) as [[]|]; try discriminate E. cbn [bind] in *.
      injection E as <- ->. eexists. split; [reflexivity|]. unfold set_obj. cbn [h_blks h_objs]. apply wd_upd; assumption.
  - destruct (get_obj h0 k) as [[p pos size al ov|p pos size|p bs rs rp ap|]|] eqn:G0; try discriminate E. assert (L : (k < length (h_objs h))%nat) by (rewrite Wl; eapply get_lt; exact G0).
    destruct (Wo k) as [K|[K1 K2]]; [|rewrite G0 in K2; destruct (get_obj h k) as [[]|]; contradiction K2]. rewrite K, G0, Wld. destruct (buf_op o _) as [b a'| | | |]; try discriminate E. injection E as <- ->.
    eexists. split; [reflexivity|]. unfold set_obj. rewrite (store_blks _ _ _ _ _ W). apply wd_upd; [apply wd_store; exact W|exact L].
  - destruct (get_obj h0 k) as [[p pos size al ov|p pos size|p bs rs rp ap|]|] eqn:G0; try discriminate E. assert (L : (k < length (h_objs h))%nat) by (rewrite Wl; eapply get_lt; exact G0).
    destruct (stack_op o (mkTs (load h0 p) pos size)) as [t a'| | | |] eqn:ES; try discriminate E. destruct (Wo k) as [K|[K1 K2]].
    + rewrite K, G0, Wld, ES. unfold free, alloc in *. rewrite Wb. destruct (Nat.eqb _ _).
      * injection E as <- ->. eexists. split; [reflexivity|]. unfold set_obj. rewrite (store_blks _ _ _ _ _ W). apply wd_upd; [apply wd_store; exact W|exact L].
      * destruct (nth_error (h_blks h0) p) as [[]|]; try discriminate E. cbn [bind] in *. injection E as <- ->. eexists. split; [reflexivity|]. unfold set_obj. cbn [h_blks h_objs]. apply wd_upd; assumption.
    + assert (NK : forall s, o <> KPush s) by (intros s ->; exact (NP k s eq_refl K1)). rewrite G0 in K2. destruct (get_obj h k) as [[|p' pos' size'| |]|]; try contradiction K2. destruct K2 as (-> & -> & K2).
      destruct (stack_same _ _ _ _ size' ES NK) as (E2 & E3 & E4). cbn [tg_mem tg_pos tg_size] in *. rewrite Wld, E2. cbn [tg_mem tg_pos tg_size]. rewrite E4, Nat.eqb_refl in *. injection E as <- ->.
      eexists. split; [reflexivity|]. unfold set_obj. rewrite (store_blks _ _ _ _ _ W). apply wd_wide; [apply wd_store; exact W|exact L|exact K1|]. cbn [wider]. rewrite E3. auto.
  - destruct (get_obj h0 k) as [[p pos size al ov|p pos size|p bs rs rp ap|]|] eqn:G0; try discriminate E. destruct (Wo k) as [K|[K1 K2]]; [|rewrite G0 in K2; destruct (get_obj h k) as [[]|]; contradiction K2].
    rewrite K, G0, Wld. destruct (_ <? _); [destruct (nth_error (load h0 p) (N.to_nat rp)); [|discriminate E]|]; injection E as <- ->; (eexists; split; [reflexivity|exact W]).
  - destruct (get_obj h0 k) as [[p pos size al ov|p pos size|p bs rs rp ap|]|] eqn:G0; try discriminate E. assert (L : (k < length (h_objs h))%nat) by (rewrite Wl; eapply get_lt; exact G0).
    destruct (Wo k) as [K|[K1 K2]]; [|rewrite G0 in K2; destruct (get_obj h k) as [[]|]; contradiction K2]. rewrite K, G0. destruct (_ <=? _).
    + unfold fill in *. rewrite Wld. destruct (_ <? _); [discriminate E|]. destruct (mem_write _ _ _); [|discriminate E]. injection E as <- ->. eexists. split; [reflexivity|]. unfold set_obj. rewrite (store_blks _ _ _ _ _ W). apply wd_upd; [apply wd_store; exact W|exact L].
    + injection E as <- ->. eexists. split; [reflexivity|]. unfold set_obj. rewrite Wb. apply wd_upd; assumption.
Qed.
Lemma rel_none lost lend h V : Rel lost lend h V -> Rel lost lend (mkHp (h_blks h) (h_objs h ++ [None])) (V ++ [None]).
Proof.
  intros [R1 R2 R3 R4 R5].
  assert (K : forall {A} (l : list (option A)) (y : option A) j, nth_error (l ++ [None]) j = Some y -> nth_error l j = Some y \/ (j = length l /\ y = None)).
  { intros A l y j H. destruct (Nat.lt_ge_cases j (length l)) as [L|L]; [left; rewrite nth_error_app1 in H by exact L; exact H|]. right. rewrite nth_error_app2 in H by exact L.
    destruct (j - length l)%nat as [|q] eqn:E; [split; [lia|injection H as <-; reflexivity]|destruct q; discriminate]. }
  split; cbn [h_objs h_blks].
  - rewrite !app_length. cbn [length]. lia.
  - intros j x y Hx Hy. destruct (K _ _ _ _ Hx) as [Hx'|[-> ->]], (K _ _ _ _ Hy) as [Hy'|[Ej Ey]].
    + exact (R2 j x y Hx' Hy').
    + exfalso. assert (N : nth_error (h_objs h) j <> None) by congruence. apply nth_error_Some in N. lia.
    + exfalso. assert (N : nth_error V (length (h_objs h)) <> None) by congruence. apply nth_error_Some in N. lia.
    + subst y. exact I.
  - intros i j x y Hx Hy EE. destruct (K _ _ _ _ Hx) as [Hx'|[_ Ex]]; [|discriminate]. destruct (K _ _ _ _ Hy) as [Hy'|[_ Ey]]; [|discriminate]. eauto.
  - rewrite owners_filter, count_app, <- owners_filter. cbn. lia.
  - exact R5.
Qed.
Lemma wider_get B h h0 k p pos size : Wide B h h0 -> get_obj h0 k = Some (OStack p pos size) -> exists size', get_obj h k = Some (OStack p pos size') /\ (size' = size \/ In k B /\ size <= size' < 2 ^ 63).
Proof.
  intros [_ _ W] G. destruct (W k) as [K|[K1 K2]]; [exists size; rewrite K, G; auto|]. rewrite G in K2. destruct (get_obj h k) as [[|p' pos' size'| |]|]; try contradiction K2. destruct K2 as (-> & -> & K2). eauto.
Qed.
(** the copy of a stack on which a push failed *)
Lemma wide_copy B h h0 V k st lost lend : Rel lost lend h0 V -> Wide B h h0 -> value V k = Some (VStack st) ->
  exists h' h0', mem_call (MCopy k) h = Ret h' ADone /\ Wide B h' h0' /\ Rel lost lend h0' (V ++ [Some (VStack st)]).
Proof.
  intros R W EV. destruct (rel_get _ _ _ _ _ _ R EV) as (o & b & H1 & H2 & H3 & H4 & H5). destruct o as [p pos size al ov|p pos size|p bs rs rp ap|]; cbn [has] in H4; try contradiction. cbn [ptr_of] in *.
  destruct (wider_get _ _ _ _ _ _ _ W H1) as (size' & G & Hs). destruct H4 as (S & Hb & Hh). pose proof S as (S1 & S2 & S3 & S4). cbn [tg_mem tg_pos tg_size] in *.
  cbn [mem_call]. rewrite G, (wd_load _ _ _ p W), H5. replace ((pos <=? N.of_nat (length (bytes_of b))) && (pos <=? size')) with true by lia. unfold alloc, construct. cbn [h_blks h_objs]. rewrite (wd_blks _ _ _ W).
  eexists. exists (mkHp (h_blks h0 ++ [Heap (firstn (N.to_nat pos) (bytes_of b) ++ repeat 0 (N.to_nat (size' - pos)))]) (h_objs h0 ++ [Some (OStack (length (h_blks h0)) pos size')])). split; [reflexivity|].
  split; [apply wd_add; exact W|].
  pose proof (rel_add lost lend h0 V (Heap (firstn (N.to_nat pos) (bytes_of b) ++ repeat 0 (N.to_nat (size' - pos)))) (OStack (length (h_blks h0)) pos size') (VStack st) R eq_refl) as X.
  cbn [isHeap isLent owns b2n Nat.sub] in X. rewrite !Nat.add_0_r in X. apply X; [|reflexivity]. cbn [has bytes_of isHeap]. split; [|split; [exact Hb|reflexivity]]. unfold tg_is. cbn [tg_mem tg_pos tg_size].
  rewrite app_length, repeat_length, firstn_length. split; [lia|]. split; [lia|]. split; [lia|].
  rewrite firstn_app, firstn_length. replace (N.to_nat pos - _)%nat with 0%nat by lia. cbn [firstn]. rewrite app_nil_r, firstn_firstn, Nat.min_id. exact S4.
Qed.
Lemma wd_more B h h0 k : Wide B h h0 -> Wide (k :: B) h h0.
Proof. intros [W1 W2 W3]. split; [exact W1|exact W2|]. intro j. destruct (W3 j) as [K|[K1 K2]]; [left; exact K|right; split; [right; exact K1|exact K2]]. Qed.

Lemma grow_ge f : forall need x y, tg_grow f need x = Some y -> need <= y.
Proof.
  induction f as [|f IH]; intros need x y; cbn [tg_grow]; destruct (N.leb_spec need x) as [H|H]; try (intros [= <-]; assumption). apply IH.
Qed.
Lemma entry_space s : N.of_nat (entry_size s) = 8 * ((N.of_nat (length s) + 7) / 8) + 8.
Proof. unfold entry_size, padding. pose proof (getAlign_spec (N.of_nat (length s))) as [H1 H2]. lia. Qed.
Lemma need_space st t s : tg_is st t -> (tg_size t <? u64 (tg_pos t + u64 (N.of_nat (length s) + getAlign (N.of_nat (length s)) + 8))) = true -> 256 < space (s :: st).
Proof.
  intros (S1 & S2 & S3 & S4) E. apply N.ltb_lt in E. apply packed_length in S4. rewrite firstn_length_le in S4 by lia.
  assert (U : forall x, u64 x <= x) by (intro x; unfold u64; apply N.mod_le; lia). pose proof (U (tg_pos t + u64 (N.of_nat (length s) + getAlign (N.of_nat (length s)) + 8))) as U1. pose proof (U (N.of_nat (length s) + getAlign (N.of_nat (length s)) + 8)) as U2.
  assert (P : N.of_nat (list_sum (map entry_size st)) = space st) by (clear; induction st as [|x st IH]; [reflexivity|]; cbn [map list_sum fold_right space] in *; unfold list_sum, space in *; cbn [map fold_right]; rewrite Nat2N.inj_add, IH, entry_space; lia).
  pose proof (entry_space s) as Q. unfold entry_size, padding in Q. unfold space in *. cbn [map fold_right]. lia.
Qed.
Lemma mf_sim g c B h h0 V lost lend : Rel lost lend h0 V -> Wide B h h0 -> (exists V' B' a n, step V B g c V' B' a n) ->
  exists h' h0' V' B' a n, mf_call g c h = Ret h' a /\ step V B g c V' B' a n /\ Wide B' h' h0' /\ Rel (lost + n) (lend + b2n (lends c)) h0' V'.
Proof.
  intros R W (V' & B' & a & n & S).
  assert (Call : forall V' a n, call_spec c V = Some (V', a, n) -> (forall k s, c = MStack k (KPush s) -> ~ In k B) -> exists h' h0', mem_call c h = Ret h' a /\ Wide B h' h0' /\ Rel (lost + n) (lend + b2n (lends c)) h0' V').
  { clear V' a n S. intros V' a n E NP. destruct (call_sim c _ _ _ _ _ _ _ R E) as (h0' & H1 & H2).
    destruct c as [m|mem m i| |bs r| |k|k j|k|k o|k o|k|k r]; try (destruct (same_call _ _ _ _ _ _ _ _ _ _ _ R W E NP ltac:(congruence) H1) as (h' & H3 & H4); exists h', h0'; auto).
    destruct (in_dec Nat.eq_dec k B) as [HB|HB]; [|destruct (same_call _ _ _ _ _ _ _ _ _ _ _ R W E NP ltac:(intros k' Ek; injection Ek as <-; exact HB) H1) as (h' & H3 & H4); exists h', h0'; auto].
    cbn [call_spec] in E. destruct (value V k) as [v|] eqn:EV; [|discriminate E]. destruct v as [cap l d own|st|bs data q].
    - destruct (rel_get _ _ _ _ _ _ R EV) as (o & b & G & _ & _ & H4 & _). assert (K : get_obj h k = get_obj h0 k).
      { destruct (wd_obj _ _ _ W k) as [K|[_ K]]; [exact K|]. rewrite G in K. destruct o; cbn [has] in H4; try contradiction. destruct (get_obj h k) as [[]|]; contradiction K. }
      assert (W0 : Wide (remove Nat.eq_dec k B) h h0). { split; [apply W|apply W|]. intro j. destruct (Nat.eq_dec j k) as [->|N]; [left; exact K|]. destruct (wd_obj _ _ _ W j) as [K3|[K3 K4]]; [left; exact K3|right; split; [apply in_in_remove; assumption|exact K4]]. }
      assert (E' : call_spec (MCopy k) V = Some (V', a, n)) by (cbn [call_spec]; rewrite EV; exact E).
      destruct (same_call _ _ _ _ _ _ _ _ _ _ _ R W0 E' ltac:(discriminate) ltac:(intros k' Ek; injection Ek as <-; apply remove_In) H1) as (h' & H5 & H6). exists h', h0'. split; [exact H5|]. split; [|exact H2].
      split; [apply H6|apply H6|]. intro j. destruct (wd_obj _ _ _ H6 j) as [K3|[K3 K4]]; [left; exact K3|right; split; [apply in_remove in K3; apply K3|exact K4]].
    - injection E as <- <- <-. destruct (wide_copy _ _ _ _ _ _ _ _ R W EV) as (h' & h0'' & H3 & H4 & H5). exists h', h0''. cbn [lends b2n]. rewrite !Nat.add_0_r. auto.
    - destruct (rel_get _ _ _ _ _ _ R EV) as (o & b & G & _ & _ & H4 & _). assert (K : get_obj h k = get_obj h0 k).
      { destruct (wd_obj _ _ _ W k) as [K|[_ K]]; [exact K|]. rewrite G in K. destruct o; cbn [has] in H4; try contradiction. destruct (get_obj h k) as [[]|]; contradiction K. }
      assert (W0 : Wide (remove Nat.eq_dec k B) h h0). { split; [apply W|apply W|]. intro j. destruct (Nat.eq_dec j k) as [->|N]; [left; exact K|]. destruct (wd_obj _ _ _ W j) as [K3|[K3 K4]]; [left; exact K3|right; split; [apply in_in_remove; assumption|exact K4]]. }
      assert (E' : call_spec (MCopy k) V = Some (V', a, n)) by (cbn [call_spec]; rewrite EV; exact E).
      destruct (same_call _ _ _ _ _ _ _ _ _ _ _ R W0 E' ltac:(discriminate) ltac:(intros k' Ek; injection Ek as <-; apply remove_In) H1) as (h' & H5 & H6). exists h', h0'. split; [exact H5|]. split; [|exact H2].
      split; [apply H6|apply H6|]. intro j. destruct (wd_obj _ _ _ H6 j) as [K3|[K3 K4]]; [left; exact K3|right; split; [apply in_remove in K3; apply K3|exact K4]]. }
  assert (Push : forall k s V' a n, c = MStack k (KPush s) -> g = false -> call_spec c V = Some (V', a, n) -> ~ In k B ->
     exists h' h0' V' B' a n, mf_call g c h = Ret h' a /\ step V B g c V' B' a n /\ Wide B' h' h0' /\ Rel (lost + n) (lend + b2n (lends c)) h0' V').
  { clear V' B' a n S. intros k s V' a n -> -> E HB. assert (NP : forall k' s', MStack k (KPush s) = MStack k' (KPush s') -> ~ In k' B) by (intros k' s' X; injection X as <- _; exact HB).
    destruct (Call _ _ _ E NP) as (h' & h0' & H1 & H2 & H3). pose proof E as E0. cbn [call_spec] in E0. destruct (value V k) as [[|st|]|] eqn:EV; try discriminate E0.
    destruct (rel_get _ _ _ _ _ _ R EV) as (o & b & G & _ & _ & H4 & H5). destruct o as [p pos size al ov|p pos size|p bs rs rp ap|]; cbn [has] in H4; try contradiction. cbn [ptr_of] in *.
    destruct (wider_get _ _ _ _ _ _ _ W G) as (size' & G' & [->|[Hs _]]); [|contradiction]. cbn [mf_call]. rewrite G', (wd_load _ _ _ p W), H5.
    assert (Done : exists h' h0' V' B' a n, mem_call (MStack k (KPush s)) h = Ret h' a /\ step V B false (MStack k (KPush s)) V' B' a n /\ Wide B' h' h0' /\ Rel (lost + n) (lend + b2n (lends (MStack k (KPush s)))) h0' V').
    { exists h', h0', V', B, a, n. split; [exact H1|]. split; [apply st_call; [exact E|right; reflexivity|exact NP]|]. split; assumption. }
    unfold tg_push_alloc. cbn [tg_pos tg_size tg_mem]. destruct (size <? _) eqn:EL; [|destruct (tg_push _ _) as [| |t| |] eqn:EP; try exact Done].
    - destruct (tg_grow 64 _ size) as [z|] eqn:EG; [|exact Done]. unfold set_obj, store. cbn [tg_mem tg_pos tg_size]. exists (mkHp (h_blks h0) (upd k (Some (OStack p pos z)) (h_objs h))), h0, V, (k :: B), AThrown, 0%nat.
      destruct H4 as (S & Hb & Hh). pose proof S as (S1 & S2 & S3 & S4). cbn [tg_mem tg_pos tg_size] in *.
      assert (L : (k < length (h_objs h))%nat) by (eapply get_lt; exact G').
      split; [f_equal; f_equal; rewrite (wd_blks _ _ _ W)|].
      { unfold load in H5. destruct (nth_error (h_blks h0) p) as [[m|m|]|] eqn:En; try reflexivity; cbn [bytes_of] in *; apply upd_self; rewrite En, <- H5; reflexivity. }
      split; [eapply st_push; [exact E|exact EV|exact (need_space _ _ _ S EL)|exact HB]|]. split; [|cbn [lends b2n]; rewrite !Nat.add_0_r; exact R].
      pose proof (wd_more _ _ _ k W) as [W1 W2 W3]. split; cbn [h_blks h_objs]; [reflexivity|rewrite upd_length; exact W2|]. intro j. rewrite get_upd by exact L. destruct (Nat.eqb_spec j k) as [->|N]; [|apply W3]. right. split; [left; reflexivity|].
      rewrite G. cbn [wider]. split; [reflexivity|]. split; [reflexivity|].
      destruct (stack_spec (KPush s) st) as [[st' a']|] eqn:ES; [|discriminate E0]. cbn [stack_spec] in ES. destruct (_ <=? _) eqn:EB; [|discriminate ES]. apply N.leb_le in EB. pose proof (stack_bytes_bound (s :: st)) as BB.
      destruct (tg_push_is st _ s S) as (t' & T1 & T2); [lia|]. unfold tg_push in T1. cbn [tg_pos tg_size tg_mem] in T1. rewrite EL, EG in T1. pose proof T2 as (Z1 & Z2 & _).
      destruct (_ <? N.of_nat (length s)) in T1; [discriminate T1|]. destruct (mem_write _ _ _) in T1; [|discriminate T1]. destruct (write_size _ _ _) in T1; [|discriminate T1]. injection T1 as <-. cbn [tg_size] in Z2.
      split; [|apply Z2]. apply N.ltb_lt in EL. clear -EG EL. apply grow_ge in EG. lia.
    - exfalso. destruct H4 as (S & Hb & Hh). destruct (stack_spec (KPush s) st) as [[st' a']|] eqn:ES; [|discriminate E0]. cbn [stack_spec] in ES. destruct (_ <=? _) eqn:EB in ES; [|discriminate ES]. apply N.leb_le in EB. pose proof (stack_bytes_bound (s :: st)) as BB.
      destruct (tg_push_is st _ s S) as (t' & T1 & T2); [lia|]. congruence. }
  destruct S as [g c V' a n E HG NP|c V' a n E HC|k s st V' a n E EV SP HB].
  - destruct g.
    + destruct (Call _ _ _ E NP) as (h' & h0' & H1 & H2 & H3). exists h', h0', V', B, a, n. split; [exact H1|]. split; [apply st_call; auto|]. split; assumption.
    + destruct HG as [HG|HG]; [discriminate HG|].
      assert (Q : (exists k s, c = MStack k (KPush s)) \/ mf_call false c h = mem_call c h) by (destruct c; try discriminate HG; try (right; reflexivity); destruct o; [left; eauto|right; reflexivity..]).
      destruct Q as [(k & s & Q)|Q]; [exact (Push k s _ _ _ Q eq_refl E (NP k s Q))|]. rewrite Q. destruct (Call _ _ _ E NP) as (h' & h0' & H1 & H2 & H3). exists h', h0', V', B, a, n. split; [exact H1|]. split; [apply st_call; auto|]. split; assumption.
  - exists (mkHp (h_blks h0) (h_objs h ++ [None])), (mkHp (h_blks h0) (h_objs h0 ++ [None])), (V ++ [None]), B, AThrown, 0%nat. split.
    { destruct c as [m|mem m i| |bs r| |k|k j|k|k o|k o|k|k r]; try discriminate HC; cbn [mf_call]; unfold no_obj; rewrite ?(wd_blks _ _ _ W); try reflexivity.
      cbn [call_spec] in E. destruct (value V k) as [v|] eqn:EV; [|discriminate E]. destruct (rel_get _ _ _ _ _ _ R EV) as (o & b & G & _ & _ & H4 & _).
      destruct (wd_obj _ _ _ W k) as [K|[_ K]]; [rewrite K, G; destruct o; cbn [has] in H4; try contradiction; reflexivity|]. rewrite G in K. destruct (get_obj h k) as [[]|]; try contradiction K. reflexivity. }
    split; [eapply st_create; [exact E|exact HC]|]. split; [apply wd_add; exact W|]. replace (lends c) with false by (destruct c; try discriminate HC; reflexivity). cbn [b2n]. rewrite !Nat.add_0_r. apply rel_none. exact R.
  - exact (Push k s _ _ _ eq_refl eq_refl E HB).
Qed.
Lemma mf_run l : forall B h h0 V lost lend, Rel lost lend h0 V -> Wide B h h0 -> allowed V B l ->
  exists h' h0' V' B' r n, mf_calls l h = Ret h' r /\ steps V B l V' B' r n /\ Wide B' h' h0' /\ Rel (lost + n) (lend + length (filter lends (map snd l))) h0' V'.
Proof.
  induction l as [|[g c] l IH]; intros B h h0 V lost lend R W A; cbn [mf_calls].
  - exists h, h0, V, B, [], 0%nat. cbn. rewrite !Nat.add_0_r. split; [reflexivity|]. split; [constructor|]. auto.
  - inversion A as [|g' c' l' A1 A2]; subst. destruct (mf_sim g c B h h0 V lost lend R W A1) as (h1 & h1' & V1 & B1 & a & n & H1 & S1 & W1 & R1). rewrite H1. cbn [bind].
    destruct (IH _ _ _ _ _ _ R1 W1 (A2 _ _ _ _ S1)) as (h2 & h2' & V2 & B2 & r & m & H2 & S2 & W2 & R2). rewrite H2. cbn [bind]. exists h2, h2', V2, B2, (a :: r), (n + m)%nat.
    split; [reflexivity|]. split; [econstructor; eassumption|]. split; [exact W2|]. cbn [map snd filter]. rewrite Nat.add_assoc. destruct (lends c); cbn [length b2n] in *; [|rewrite Nat.add_0_r in R2; exact R2].
    replace (lend + S (length (filter lends (map snd l))))%nat with (lend + 1 + length (filter lends (map snd l)))%nat by lia. exact R2.
Qed.
