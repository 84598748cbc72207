(** Objects with memory of their own behave as values: proofs. *)
From Verif Require Import Base Iter StaticBuffer TagStack BufProofs PropsUtil Memory MemSpec.

Lemma upd_length {A} k (x : A) l : length (upd k x l) = length l.
Proof. revert k. induction l as [|y l IH]; intros [|k]; cbn; auto. Qed.
Lemma upd_same {A} k (x : A) l : (k < length l)%nat -> nth_error (upd k x l) k = Some x.
Proof. revert k. induction l as [|y l IH]; intros [|k] H; cbn in *; try lia; auto. apply IH. lia. Qed.
Lemma upd_other {A} k j (x : A) l : k <> j -> nth_error (upd k x l) j = nth_error l j.
Proof. revert k j. induction l as [|y l IH]; intros [|k] [|j] H; cbn; auto; try congruence. Qed.
Definition b2n (b : bool) : nat := if b then 1%nat else 0%nat.
Lemma count_upd {A} (P : A -> bool) k x l y : nth_error l k = Some y -> (length (filter P (upd k x l)) + b2n (P y) = length (filter P l) + b2n (P x))%nat.
Proof.
  revert k. induction l as [|z l IH]; intros [|k] H; cbn in H; try discriminate.
  - injection H as ->. cbn [upd filter]. destruct (P x), (P y); cbn; lia.
  - cbn [upd filter]. specialize (IH k H). destruct (P z); cbn; lia.
Qed.
Lemma count_app {A} (P : A -> bool) l x : length (filter P (l ++ [x])) = (length (filter P l) + b2n (P x))%nat.
Proof. rewrite filter_app, app_length. cbn [filter]. destruct (P x); reflexivity. Qed.

Definition ptr_of (o : obj) : ptr := match o with OBuf p _ _ _ _ | OStack p _ _ | OIter p _ _ _ _ => p | OWild => 0%nat end.
Definition isHeap (b : blk) : bool := match b with Heap _ => true | _ => false end.
Definition isLent (b : blk) : bool := match b with Lent _ => true | _ => false end.
Definition owns (v : val) : bool := match v with VBuf _ _ _ own => own | _ => true end.
Definition bytes_of (b : blk) : list N := match b with Heap m | Lent m => m | Gone => [] end.
(** the object has the value, with the block its pointer points to *)
Definition has (b : blk) (o : obj) (v : val) : Prop :=
  match o, v with
  | OBuf p pos size al over, VBuf cap l d own => sb_is cap l d (mkSb pos size (bytes_of b) over) /\ cap < 2 ^ 63 /\ al = own /\ b <> Gone /\ (own = true -> isHeap b = true)
  | OStack p pos size, VStack st => tg_is st (mkTs (bytes_of b) pos size) /\ stack_bytes st <= 2 ^ 62 /\ isHeap b = true
  | OIter p bufsize readsize readpos abspos, VIter bs data n =>
      bs = bufsize /\ N.to_nat bufsize = length (bytes_of b) /\ readsize = N.of_nat (length data) /\ readsize <= bufsize /\ firstn (length data) (bytes_of b) = data /\ readpos = N.of_nat n /\
      isHeap b = true
  | _, _ => False
  end.
Definition obj_ok (h : heap) (o : option obj) (v : option val) : Prop :=
  match o, v with
  | Some o, Some v => exists b, nth_error (h_blks h) (ptr_of o) = Some b /\ has b o v
  | None, None => True
  | _, _ => False
  end.
Record Rel (lost lend : nat) (h : heap) (V : list (option val)) : Prop := mkRel {
  rl_len : length (h_objs h) = length V;
  rl_ok : forall k o v, nth_error (h_objs h) k = Some o -> nth_error V k = Some v -> obj_ok h o v;
  rl_ptr : forall k j x y, nth_error (h_objs h) k = Some (Some x) -> nth_error (h_objs h) j = Some (Some y) -> ptr_of x = ptr_of y -> k = j;
  rl_heap : length (filter isHeap (h_blks h)) = (owners V + lost)%nat;
  rl_lent : length (filter isLent (h_blks h)) = lend }.

Lemma rel_new : Rel 0 0 h_new [].
Proof. split; cbn; auto; intros k; intros; destruct k; discriminate. Qed.

Definition vown (v : option val) : bool := match v with Some v => owns v | None => false end.
Lemma owners_filter V : owners V = length (filter vown V).
Proof. reflexivity. Qed.

Lemma value_some V k v : value V k = Some v -> nth_error V k = Some (Some v).
Proof. unfold value. destruct (nth_error V k); congruence. Qed.
Lemma rel_get lost lend h V k v : Rel lost lend h V -> value V k = Some v ->
  exists o b, get_obj h k = Some o /\ nth_error (h_objs h) k = Some (Some o) /\ nth_error (h_blks h) (ptr_of o) = Some b /\ has b o v /\ load h (ptr_of o) = bytes_of b.
Proof.
  intros R H. apply value_some in H. assert (L : (k < length (h_objs h))%nat) by (rewrite (rl_len _ _ _ _ R); apply nth_error_Some; congruence).
  destruct (nth_error (h_objs h) k) as [o|] eqn:E; [|apply nth_error_None in E; lia]. pose proof (rl_ok _ _ _ _ R k o _ E H) as X.
  destruct o as [o|]; [|contradiction]. destruct X as [b [X1 X2]]. exists o, b. unfold get_obj, load. rewrite E, X1. destruct b; auto.
Qed.

(** the object k changes its members and the bytes of its block *)
Lemma rel_change lost lend h V k v o b o' v' b' : Rel lost lend h V -> nth_error V k = Some (Some v) -> nth_error (h_objs h) k = Some (Some o) ->
  nth_error (h_blks h) (ptr_of o) = Some b -> ptr_of o' = ptr_of o -> isHeap b' = isHeap b -> isLent b' = isLent b -> owns v' = owns v -> has b' o' v' ->
  Rel lost lend (mkHp (upd (ptr_of o) b' (h_blks h)) (upd k (Some o') (h_objs h))) (upd k (Some v') V).
Proof.
  intros R HV HO HB HP H1 H2 H3 H4. destruct R as [R1 R2 R3 R4 R5].
  assert (Lp : (ptr_of o < length (h_blks h))%nat) by (apply nth_error_Some; congruence).
  assert (Lk : (k < length (h_objs h))%nat) by (apply nth_error_Some; congruence).
  split; cbn [h_objs h_blks].
  - rewrite !upd_length. exact R1.
  - intros j x y Hx Hy. destruct (Nat.eq_dec k j) as [<-|N].
    + rewrite upd_same in Hx by lia. rewrite upd_same in Hy by lia. injection Hx as <-. injection Hy as <-. exists b'. cbn [h_blks]. rewrite HP, upd_same by lia. auto.
    + rewrite upd_other in Hx by exact N. rewrite upd_other in Hy by exact N. pose proof (R2 j x y Hx Hy) as X. destruct x as [x|], y as [y|]; try exact X. destruct X as [c [X1 X2]].
      exists c. cbn [h_blks]. rewrite upd_other; [auto|]. intro E. apply N. eapply R3; eauto.
  - assert (K : forall j z, nth_error (upd k (Some o') (h_objs h)) j = Some (Some z) -> exists z', nth_error (h_objs h) j = Some (Some z') /\ ptr_of z' = ptr_of z).
    { intros j z Hz. destruct (Nat.eq_dec k j) as [<-|N]; [rewrite upd_same in Hz by lia; injection Hz as <-; eauto|rewrite upd_other in Hz by exact N; eauto]. }
    intros i j x y Hx Hy E. destruct (K _ _ Hx) as [x' [X1 X2]]. destruct (K _ _ Hy) as [y' [Y1 Y2]]. eapply R3; eauto. congruence.
  - pose proof (count_upd isHeap (ptr_of o) b' _ _ HB) as C1. pose proof (count_upd vown k (Some v') V _ HV) as C2. rewrite owners_filter in *. cbn [vown] in C2. rewrite H1 in C1. rewrite H3 in C2. lia.
  - pose proof (count_upd isLent (ptr_of o) b' _ _ HB) as C1. rewrite H2 in C1. lia.
Qed.
(** a new object with a new block *)
Lemma rel_add lost lend h V b o v : Rel lost lend h V -> ptr_of o = length (h_blks h) -> has b o v -> (owns v = true -> isHeap b = true) ->
  Rel (lost + (b2n (isHeap b) - b2n (owns v))) (lend + b2n (isLent b)) (mkHp (h_blks h ++ [b]) (h_objs h ++ [Some o])) (V ++ [Some v]).
Proof.
  intros R HP HA HO. destruct R as [R1 R2 R3 R4 R5].
  assert (B : forall p, (p < length (h_blks h))%nat -> nth_error (h_blks h ++ [b]) p = nth_error (h_blks h) p) by (intros; apply nth_error_app1; assumption).
  assert (P : forall k x, nth_error (h_objs h) k = Some (Some x) -> (ptr_of x < length (h_blks h))%nat).
  { intros k x H. destruct (nth_error V k) as [y|] eqn:E; [|apply nth_error_None in E; rewrite <- R1 in E; apply nth_error_None in E; congruence].
    pose proof (R2 k _ _ H E) as X. destruct y; [|contradiction]. destruct X as [c [X _]]. apply nth_error_Some. congruence. }
  assert (K : forall {A} (l : list A) (x y : A) j, nth_error (l ++ [x]) j = Some y -> nth_error l j = Some y \/ (j = length l /\ y = x)).
  { intros A l x y j H. destruct (Nat.lt_ge_cases j (length l)) as [L|L]; [left; rewrite nth_error_app1 in H by exact L; exact H|]. right. rewrite nth_error_app2 in H by exact L.
    destruct (j - length l)%nat as [|m] eqn:E; [split; [lia|injection H as <-; reflexivity]|destruct m; discriminate]. }
  split; cbn [h_objs h_blks].
  - rewrite !app_length. cbn [length]. lia.
  - intros j x y Hx Hy. destruct (K _ _ _ _ _ Hx) as [Hx'|[-> ->]], (K _ _ _ _ _ Hy) as [Hy'|[Ej Ey]].
    + pose proof (R2 j x y Hx' Hy') as X. destruct x as [x|], y as [y|]; try exact X. destruct X as [c [X1 X2]]. exists c. cbn [h_blks]. rewrite B by (apply nth_error_Some; congruence). auto.
    + exfalso. assert (nth_error (h_objs h) j <> None) by congruence. apply nth_error_Some in H. lia.
    + exfalso. assert (nth_error V (length (h_objs h)) <> None) by congruence. apply nth_error_Some in H. lia.
    + subst y. exists b. cbn [h_blks]. rewrite HP, nth_error_app2, Nat.sub_diag by lia. auto.
  - intros i j x y Hx Hy E. destruct (K _ _ _ _ _ Hx) as [Hx'|[-> Ex]], (K _ _ _ _ _ Hy) as [Hy'|[-> Ey]]; [eauto| | |reflexivity]; exfalso.
    + injection Ey as ->. apply P in Hx'. lia.
    + injection Ex as ->. apply P in Hy'. lia.
  - rewrite owners_filter, !count_app, <- owners_filter. cbn [vown]. rewrite R4. destruct (owns v); [rewrite HO by reflexivity; cbn; lia|cbn; lia].
  - rewrite count_app. lia.
Qed.
(** an object is destroyed, its block freed if it owns it *)
Lemma rel_destroy lost lend h V k v o b : Rel lost lend h V -> nth_error V k = Some (Some v) -> nth_error (h_objs h) k = Some (Some o) ->
  nth_error (h_blks h) (ptr_of o) = Some b -> (owns v = true -> isHeap b = true) ->
  Rel lost lend (mkHp (if owns v then upd (ptr_of o) Gone (h_blks h) else h_blks h) (upd k None (h_objs h))) (upd k None V).
Proof.
  intros R HV HO HB HW. destruct R as [R1 R2 R3 R4 R5].
  assert (Lk : (k < length (h_objs h))%nat) by (apply nth_error_Some; congruence).
  split; cbn [h_objs h_blks].
  - rewrite !upd_length. exact R1.
  - intros j x y Hx Hy. destruct (Nat.eq_dec k j) as [<-|N].
    + rewrite upd_same in Hx by lia. rewrite upd_same in Hy by lia. injection Hx as <-. injection Hy as <-. exact I.
    + rewrite upd_other in Hx by exact N. rewrite upd_other in Hy by exact N. pose proof (R2 j x y Hx Hy) as X. destruct x as [x|], y as [y|]; try exact X. destruct X as [c [X1 X2]].
      exists c. cbn [h_blks]. destruct (owns v); [|auto]. rewrite upd_other; [auto|]. intro E. apply N. eapply R3; eauto.
  - intros i j x y Hx Hy E. destruct (Nat.eq_dec k i) as [<-|N1]; [rewrite upd_same in Hx by lia; discriminate|]. destruct (Nat.eq_dec k j) as [<-|N2]; [rewrite upd_same in Hy by lia; discriminate|].
    rewrite upd_other in Hx by assumption. rewrite upd_other in Hy by assumption. eauto.
  - pose proof (count_upd vown k None V _ HV) as C2. rewrite owners_filter in *. cbn [vown] in C2. destruct (owns v).
    + pose proof (count_upd isHeap (ptr_of o) Gone _ _ HB) as C1. rewrite HW in C1 by reflexivity. cbn in C1, C2. lia.
    + cbn in C2. lia.
  - destruct (owns v); [|exact R5]. pose proof (count_upd isLent (ptr_of o) Gone _ _ HB) as C1. specialize (HW eq_refl). destruct b; try discriminate HW. cbn in C1. lia.
Qed.
(** the object k gets another block, its old one is freed: realloc *)
Lemma rel_move lost lend h V k v o m m' o' v' : Rel lost lend h V -> nth_error V k = Some (Some v) -> nth_error (h_objs h) k = Some (Some o) ->
  nth_error (h_blks h) (ptr_of o) = Some (Heap m) -> ptr_of o' = length (h_blks h) -> owns v = true -> owns v' = true -> has (Heap m') o' v' ->
  Rel lost lend (mkHp (upd (ptr_of o) Gone (h_blks h) ++ [Heap m']) (upd k (Some o') (h_objs h))) (upd k (Some v') V).
Proof.
  intros R HV HO HB HP H1 H2 H4. destruct R as [R1 R2 R3 R4 R5].
  assert (Lk : (k < length (h_objs h))%nat) by (apply nth_error_Some; congruence).
  assert (P : forall k x, nth_error (h_objs h) k = Some (Some x) -> (ptr_of x < length (h_blks h))%nat).
  { intros j x H. destruct (nth_error V j) as [y|] eqn:E; [|apply nth_error_None in E; rewrite <- R1 in E; apply nth_error_None in E; congruence].
    pose proof (R2 j _ _ H E) as X. destruct y; [|contradiction]. destruct X as [c [X _]]. apply nth_error_Some. congruence. }
  split; cbn [h_objs h_blks].
  - rewrite !upd_length. exact R1.
  - intros j x y Hx Hy. destruct (Nat.eq_dec k j) as [<-|N].
    + rewrite upd_same in Hx by lia. rewrite upd_same in Hy by lia. injection Hx as <-. injection Hy as <-. exists (Heap m'). cbn [h_blks].
      rewrite HP, nth_error_app2 by (rewrite upd_length; lia). rewrite upd_length, Nat.sub_diag. auto.
    + rewrite upd_other in Hx by exact N. rewrite upd_other in Hy by exact N. pose proof (R2 j x y Hx Hy) as X. destruct x as [x|], y as [y|]; try exact X. destruct X as [c [X1 X2]].
      exists c. cbn [h_blks]. rewrite nth_error_app1 by (rewrite upd_length; eauto). rewrite upd_other; [auto|]. intro E. apply N. eapply R3; eauto.
  - intros i j x y Hx Hy E. destruct (Nat.eq_dec k i) as [<-|N1], (Nat.eq_dec k j) as [<-|N2]; [reflexivity| | |].
    + rewrite upd_same in Hx by lia. injection Hx as <-. rewrite upd_other in Hy by exact N2. apply P in Hy. lia.
    + rewrite upd_same in Hy by lia. injection Hy as <-. rewrite upd_other in Hx by exact N1. apply P in Hx. lia.
    + rewrite upd_other in Hx by assumption. rewrite upd_other in Hy by assumption. eauto.
  - rewrite count_app. pose proof (count_upd isHeap (ptr_of o) Gone _ _ HB) as C1. pose proof (count_upd vown k (Some v') V _ HV) as C2. rewrite owners_filter in *. cbn [vown] in C2.
    rewrite H1, H2 in C2. cbn in *. lia.
  - rewrite count_app. pose proof (count_upd isLent (ptr_of o) Gone _ _ HB) as C1. cbn in *. lia.
Qed.

Lemma buf_op_is o cap l d b l' d' a : cap < 2 ^ 63 -> sb_is cap l d b -> buf_spec o cap l d = Some (l', d', a) -> exists b', buf_op o b = Ret b' a /\ sb_is cap l' d' b'.
Proof.
  intros Hc Hb E.
  assert (D : forall op, op_ok op -> exists b', sb_do op b = Ret b' tt /\ sb_is cap (fst (spec_do cap op (l, d))) (snd (spec_do cap op (l, d))) b') by (intros op Ho; apply (sb_do_is cap op l d b); assumption).
  destruct o as [c|cc|n c| |i| |]; cbn [buf_spec buf_op] in *.
  - injection E as <- <- <-. destruct (D (OpPush c) I) as [b' [H1 H2]]. cbn [sb_do] in H1. rewrite H1. eexists. split; [reflexivity|exact H2].
  - destruct (_ <? 2 ^ 63) eqn:EL; [|discriminate]. injection E as <- <- <-. apply N.ltb_lt in EL. destruct (D (OpAppend cc) EL) as [b' [H1 H2]]. cbn [sb_do] in H1. rewrite H1.
    eexists. split; [reflexivity|exact H2].
  - injection E as <- <- <-. destruct (D (OpResize n c) I) as [b' [H1 H2]]. cbn [sb_do] in H1. rewrite H1. eexists. split; [reflexivity|exact H2].
  - injection E as <- <- <-. destruct (D OpClear I) as [b' [H1 H2]]. cbn [sb_do] in H1. injection H1 as <-. eexists. split; [reflexivity|exact H2].
  - destruct (_ =? _) eqn:EI; [discriminate|]. injection E as <- <- <-. apply N.eqb_neq in EI. exists b. split; [|exact Hb]. destruct Hb as (H1 & H2 & H3 & H4 & H5 & H6).
    unfold sb_at. destruct (sb_pos b <? i) eqn:EP.
    + replace (nth_error l (N.to_nat i)) with (@None N); [reflexivity|]. symmetry. apply nth_error_None. lia.
    + assert (Hi : (N.to_nat i < length l)%nat) by lia.
      assert (X : nth_error (sb_mem b) (N.to_nat i) = nth_error l (N.to_nat i)).
      { rewrite <- H5. unfold sb_content. rewrite <- (firstn_skipn (N.to_nat (sb_pos b)) (sb_mem b)) at 1. apply nth_error_app1. rewrite firstn_length. lia. }
      rewrite X. destruct (nth_error l (N.to_nat i)) eqn:EN; [reflexivity|]. apply nth_error_None in EN. lia.
  - injection E as <- <- <-. exists b. split; [|exact Hb]. destruct Hb as (H1 & H2 & H3 & H4 & H5 & H6). replace (_ <=? _) with true by lia. rewrite H5. reflexivity.
  - injection E as <- <- <-. exists b. split; [|exact Hb]. destruct Hb as (H1 & H2 & H3 & H4 & H5 & H6). unfold sb_overflow. rewrite H6. reflexivity.
Qed.

Lemma stack_bytes_bound st : N.of_nat (list_sum (map entry_size st)) <= stack_bytes st.
Proof.
  unfold stack_bytes. induction st as [|s st IH]; [cbn; lia|]. cbn [map list_sum fold_right]. unfold list_sum in IH. pose proof (entry_size_bounds s). unfold list_sum. lia.
Qed.
Lemma stack_bytes_cons s st : stack_bytes st <= stack_bytes (s :: st).
Proof. unfold stack_bytes. cbn [map list_sum fold_right]. unfold list_sum. lia. Qed.
Lemma stack_op_is o st t st' a : tg_is st t -> stack_bytes st <= 2 ^ 62 -> stack_spec o st = Some (st', a) ->
  exists t', stack_op o t = Ret t' a /\ tg_is st' t' /\ stack_bytes st' <= 2 ^ 62.
Proof.
  intros Ht Hb E. pose proof (stack_bytes_bound st) as B. destruct o as [s| | | |]; cbn [stack_spec stack_op] in *.
  - destruct (_ <=? _) eqn:EL; [|discriminate]. injection E as <- <-. apply N.leb_le in EL. pose proof (stack_bytes_bound (s :: st)) as B'.
    destruct (tg_push_is st t s Ht) as [t' [H1 H2]]; [lia|]. rewrite H1. eauto.
  - injection E as <- <-. destruct (tg_pop_is st t Ht) as [t' [H1 H2]]; [lia|]. rewrite H1. exists t'. split; [reflexivity|]. split; [exact H2|].
    destruct st as [|s st]; [exact Hb|]. cbn [tl]. pose proof (stack_bytes_cons s st). lia.
  - injection E as <- <-. rewrite (tg_top_is st t Ht) by lia. cbn [bind]. eauto.
  - injection E as <- <-. rewrite (tg_empty_is st t Ht). eauto.
  - injection E as <- <-. exists (tg_clear t). split; [reflexivity|]. split; [eapply tg_clear_is; exact Ht|]. unfold stack_bytes. cbn. lia.
Qed.

Lemma upd_self {A} k (x : A) l : nth_error l k = Some x -> upd k x l = l.
Proof. revert k. induction l as [|y l IH]; intros [|k] H; cbn in *; try discriminate; [injection H as ->; reflexivity|f_equal; auto]. Qed.

Lemma call_sim c lost lend h V V' a n : Rel lost lend h V -> call_spec c V = Some (V', a, n) ->
  exists h', mem_call c h = Ret h' a /\ Rel (lost + n) (lend + b2n (lends c)) h' V'.
Proof.
  intros R E. destruct c as [m|mem m i| |bs r| |k|k j|k|k o|k o|k|k r]; cbn [call_spec mem_call lends b2n] in *; try discriminate E.
  - destruct (_ <? _) eqn:EL; [|discriminate]. injection E as <- <- <-. apply N.ltb_lt in EL. eexists. split; [reflexivity|].
    apply (rel_add lost lend h V (Heap (repeat 0 (N.to_nat m))) (OBuf (length (h_blks h)) 0 m true false) (VBuf m [] false true) R eq_refl); [|reflexivity].
    cbn [has bytes_of isHeap]. split; [apply (sb_new_is m)|]. split; [exact EL|]. split; [reflexivity|]. split; [discriminate|reflexivity].
  - destruct (_ && _) eqn:EL; [|discriminate]. injection E as <- <- <-. eexists. split; [reflexivity|].
    apply (rel_add lost lend h V (Lent mem) (OBuf (length (h_blks h)) i m false false) (VBuf m (firstn (N.to_nat i) mem) false false) R eq_refl); [|discriminate].
    cbn [has bytes_of isHeap]. split; [|split; [lia|split; [reflexivity|split; [discriminate|discriminate]]]].
    unfold sb_is, sb_content. cbn [sb_size sb_mem sb_pos sb_over]. rewrite firstn_length. repeat split; lia.
  - injection E as <- <- <-. eexists. split; [reflexivity|].
    apply (rel_add lost lend h V (Heap (repeat 0 256)) (OStack (length (h_blks h)) 0 256) (VStack []) R eq_refl); [|reflexivity].
    cbn [has bytes_of isHeap]. split; [apply tg_new_is|]. split; [unfold stack_bytes; cbn; lia|reflexivity].
  - destruct (_ <=? _) eqn:EL; [|discriminate]. apply N.leb_le in EL. replace (bs <? N.of_nat (length (rd_data r))) with false by lia. cbn [alloc]. destruct (rd_err r).
    + injection E as <- <- <-. eexists. split; [reflexivity|]. destruct R as [R1 R2 R3 R4 R5]. unfold alloc; cbn [h_blks h_objs].
      assert (K : forall {A} (l : list (option A)) (y : option A) j, nth_error (l ++ [None]) j = Some y -> nth_error l j = Some y \/ (j = length l /\ y = None)).
      { intros A l y j H. destruct (Nat.lt_ge_cases j (length l)) as [L|L]; [left; rewrite nth_error_app1 in H by exact L; exact H|]. right. rewrite nth_error_app2 in H by exact L.
        destruct (j - length l)%nat as [|q] eqn:E; [split; [lia|injection H as <-; reflexivity]|destruct q; discriminate]. }
      split; cbn [h_objs h_blks].
      * rewrite !app_length. cbn [length]. lia.
      * intros j x y Hx Hy. destruct (K _ _ _ _ Hx) as [Hx'|[-> ->]], (K _ _ _ _ Hy) as [Hy'|[Ej Ey]].
        -- pose proof (R2 j x y Hx' Hy') as X. destruct x as [x|], y as [y|]; try exact X. destruct X as [c [X1 X2]]. exists c. cbn [h_blks]. rewrite nth_error_app1 by (apply nth_error_Some; congruence). auto.
        -- exfalso. assert (N : nth_error (h_objs h) j <> None) by congruence. apply nth_error_Some in N. lia.
        -- exfalso. assert (N : nth_error V (length (h_objs h)) <> None) by congruence. apply nth_error_Some in N. lia.
        -- subst y. exact I.
      * intros i j x y Hx Hy EE. destruct (K _ _ _ _ Hx) as [Hx'|[_ Ex]]; [|discriminate]. destruct (K _ _ _ _ Hy) as [Hy'|[_ Ey]]; [|discriminate]. eauto.
      * rewrite owners_filter, !count_app, <- owners_filter. cbn. lia.
      * rewrite count_app. cbn. lia.
    + injection E as <- <- <-. eexists. split; [reflexivity|]. set (m := rd_data r ++ _).
      apply (rel_add lost lend h V (Heap m) (OIter (length (h_blks h)) bs (N.of_nat (length (rd_data r))) 0 0) (VIter bs (rd_data r) 0) R eq_refl); [|reflexivity].
      cbn [has bytes_of isHeap]. subst m. split; [reflexivity|]. split; [rewrite app_length, repeat_length; lia|]. split; [reflexivity|]. split; [exact EL|].
      split; [rewrite firstn_app, Nat.sub_diag, firstn_all; cbn; apply app_nil_r|]. split; reflexivity.
  - destruct (value V k) as [v|] eqn:EV; [|discriminate]. injection E as <- <- <-. destruct (rel_get _ _ _ _ _ _ R EV) as (o & b & H1 & H2 & H3 & H4 & H5). rewrite H1.
    destruct o as [p pos size al ov|p pos size|p bs rs rp ap|], v as [cap l d own|st|bs' data q]; cbn [has] in H4; try contradiction; cbn [ptr_of] in *; rewrite H5.
    + destruct H4 as (S & Hc & -> & Hg & Ho). pose proof S as (S1 & S2 & S3 & S4 & S5 & S6). cbn [sb_size sb_mem sb_pos sb_over] in *. subst size. replace (cap <=? _) with true by lia.
      eexists. split; [reflexivity|].
      pose proof (rel_add lost lend h V (Heap (firstn (N.to_nat cap) (bytes_of b))) (OBuf (length (h_blks h)) pos cap own ov) (VBuf cap l d own) R eq_refl) as X. cbn [owns isHeap isLent b2n] in X.
      assert (E : (lost + match own with true => 0 | false => 1 end = lost + (1 - b2n own))%nat) by (destruct own; reflexivity). rewrite E. apply X; [|reflexivity].
      cbn [has bytes_of isHeap]. split; [|split; [exact Hc|split; [reflexivity|split; [discriminate|reflexivity]]]].
      unfold sb_is, sb_content in *. cbn [sb_size sb_mem sb_pos sb_over] in *. rewrite firstn_length, firstn_firstn. replace (Nat.min (N.to_nat pos) (N.to_nat cap)) with (N.to_nat pos) by lia.
      split; [reflexivity|]. split; [lia|]. auto.
    + destruct H4 as (S & Hs & Hh). pose proof (tg_copy_is st _ S) as [t' [T1 T2]]. unfold tg_copy in T1. cbn [tg_mem tg_pos tg_size] in T1.
      destruct ((pos <=? N.of_nat (length (bytes_of b))) && (pos <=? size)); [|discriminate T1]. injection T1 as <-. eexists. split; [reflexivity|].
      apply (rel_add lost lend h V (Heap (firstn (N.to_nat pos) (bytes_of b) ++ repeat 0 (N.to_nat (size - pos)))) (OStack (length (h_blks h)) pos size) (VStack st) R eq_refl); [|reflexivity].
      cbn [has bytes_of isHeap]. split; [exact T2|]. split; [exact Hs|reflexivity].
    + destruct H4 as (-> & S1 & S2 & S3 & S4 & S5 & S6). replace ((rs <=? N.of_nat (length (bytes_of b))) && (rs <=? bs)) with true by lia. eexists. split; [reflexivity|].
      subst rs. rewrite Nat2N.id, S4.
      apply (rel_add lost lend h V (Heap (data ++ repeat 0 (N.to_nat (bs - N.of_nat (length data))))) (OIter (length (h_blks h)) bs (N.of_nat (length data)) rp ap) (VIter bs data q) R eq_refl); [|reflexivity].
      cbn [has bytes_of isHeap]. split; [reflexivity|]. split; [rewrite app_length, repeat_length; lia|]. split; [reflexivity|]. split; [exact S3|].
      split; [rewrite firstn_app, Nat.sub_diag, firstn_all; cbn; apply app_nil_r|]. auto.
  - destruct (value V k) as [v|] eqn:EV; [|discriminate]. injection E as <- <- <-. destruct (rel_get _ _ _ _ _ _ R EV) as (o & b & H1 & H2 & H3 & H4 & H5). rewrite H1.
    apply value_some in EV. rewrite !Nat.add_0_r.
    assert (W : owns v = true -> isHeap b = true) by (destruct o, v; cbn [has] in H4; try contradiction; cbn [owns]; intuition).
    pose proof (rel_destroy lost lend h V k v o b R EV H2 H3 W) as X.
    destruct o as [p pos size al ov|p pos size|p bs rs rp ap|], v as [cap l d own|st|bs' data q]; cbn [has] in H4; try contradiction; cbn [ptr_of owns] in *.
    + destruct H4 as (_ & _ & -> & _ & _). unfold free. rewrite H3. destruct own; [|eexists; split; [reflexivity|exact X]]. specialize (W eq_refl). destruct b; try discriminate W. cbn [bind]. eexists. split; [reflexivity|exact X].
    + unfold free. rewrite H3. specialize (W eq_refl). destruct b; try discriminate W. cbn [bind]. eexists. split; [reflexivity|exact X].
    + unfold free. rewrite H3. specialize (W eq_refl). destruct b; try discriminate W. cbn [bind]. eexists. split; [reflexivity|exact X].
  - destruct (value V k) as [[cap l d own|st|bs' data q]|] eqn:EV; try discriminate. destruct (buf_spec o cap l d) as [[[l' d'] a']|] eqn:ES; [|discriminate]. injection E as <- <- <-.
    destruct (rel_get _ _ _ _ _ _ R EV) as (x & b & H1 & H2 & H3 & H4 & H5). rewrite H1. apply value_some in EV. rewrite !Nat.add_0_r.
    destruct x as [p pos size al ov|p pos size|p bs rs rp ap|]; cbn [has] in H4; try contradiction. destruct H4 as (S & Hc & -> & Hg & Ho). cbn [ptr_of] in *. rewrite H5.
    destruct (buf_op_is o cap l d _ l' d' a' Hc S ES) as [b' [B1 B2]]. rewrite B1. eexists. split; [reflexivity|]. unfold store, set_obj. cbn [h_blks h_objs]. rewrite H3.
    set (nb := match b with Heap _ => Heap (sb_mem b') | Lent _ => Lent (sb_mem b') | Gone => Gone end).
    replace (match b with Heap _ => upd p (Heap (sb_mem b')) (h_blks h) | Lent _ => upd p (Lent (sb_mem b')) (h_blks h) | Gone => h_blks h end) with (upd p nb (h_blks h))
      by (subst nb; destruct b; [reflexivity|reflexivity|congruence]).
    apply (rel_change lost lend h V k (VBuf cap l d own) (OBuf p pos size own ov) b (OBuf p (sb_pos b') (sb_size b') own (sb_over b')) (VBuf cap l' d' own) nb R EV H2 H3);
      try reflexivity; try (subst nb; destruct b; reflexivity).
    cbn [has]. replace (bytes_of nb) with (sb_mem b') by (subst nb; destruct b; [reflexivity|reflexivity|congruence]). destruct b' as [p1 s1 m1 o1]. cbn [sb_pos sb_size sb_mem sb_over].
    split; [exact B2|]. split; [exact Hc|]. split; [reflexivity|]. split; [subst nb; destruct b; congruence|]. intro Hw. specialize (Ho Hw). subst nb. destruct b; try discriminate Ho. reflexivity.
  - destruct (value V k) as [[cap l d own|st|bs' data q]|] eqn:EV; try discriminate. destruct (stack_spec o st) as [[st' a']|] eqn:ES; [|discriminate]. injection E as <- <- <-.
    destruct (rel_get _ _ _ _ _ _ R EV) as (x & b & H1 & H2 & H3 & H4 & H5). rewrite H1. apply value_some in EV. rewrite !Nat.add_0_r.
    destruct x as [p pos size al ov|p pos size|p bs rs rp ap|]; cbn [has] in H4; try contradiction. destruct H4 as (S & Hs & Hh). cbn [ptr_of] in *. rewrite H5.
    destruct (stack_op_is o st _ st' a' S Hs ES) as [t' [T1 [T2 T3]]]. rewrite T1. destruct b as [m|m|]; try discriminate Hh. cbn [bytes_of] in *.
    assert (T4 : forall q, has (Heap (tg_mem t')) (OStack q (tg_pos t') (tg_size t')) (VStack st')) by (intro q; destruct t' as [m1 p1 s1]; cbn [has bytes_of isHeap tg_mem tg_pos tg_size]; auto).
    destruct (Nat.eqb _ _).
    + eexists. split; [reflexivity|]. unfold store, set_obj. cbn [h_blks h_objs]. rewrite H3.
      apply (rel_change lost lend h V k (VStack st) (OStack p pos size) (Heap m) (OStack p (tg_pos t') (tg_size t')) (VStack st') (Heap (tg_mem t')) R EV H2 H3); try reflexivity. apply T4.
    + unfold free. rewrite H3. cbn [bind alloc h_blks h_objs]. eexists. split; [reflexivity|]. unfold set_obj. cbn [h_blks h_objs]. rewrite upd_length.
      apply (rel_move lost lend h V k (VStack st) (OStack p pos size) m (tg_mem t') (OStack (length (h_blks h)) (tg_pos t') (tg_size t')) (VStack st') R EV H2 H3); try reflexivity. apply T4.
  - destruct (value V k) as [[cap l d own|st|bs' data q]|] eqn:EV; try discriminate. injection E as <- <- <-.
    destruct (rel_get _ _ _ _ _ _ R EV) as (x & b & H1 & H2 & H3 & H4 & H5). rewrite H1. rewrite !Nat.add_0_r.
    destruct x as [p pos size al ov|p pos size|p bs rs rp ap|]; cbn [has] in H4; try contradiction. destruct H4 as (-> & S1 & -> & S3 & S4 & -> & S6). cbn [ptr_of] in *. rewrite H5.
    exists h. split; [|exact R]. rewrite Nat2N.id. destruct (_ <? _) eqn:EL.
    + assert (X : nth_error (bytes_of b) q = Some (nth q data 0)); [|rewrite X; reflexivity]. rewrite <- (firstn_skipn (length data) (bytes_of b)), S4. rewrite nth_error_app1 by lia. apply nth_error_nth'. lia.
    + rewrite nth_overflow by lia. reflexivity.
  - destruct (value V k) as [[cap l d own|st|bs' data q]|] eqn:EV; try discriminate.
    destruct (rel_get _ _ _ _ _ _ R EV) as (x & b & H1 & H2 & H3 & H4 & H5). rewrite H1. apply value_some in EV.
    destruct x as [p pos size al ov|p pos size|p bs rs rp ap|]; cbn [has] in H4; try contradiction. destruct H4 as (-> & S1 & -> & S3 & S4 & -> & S6). cbn [ptr_of] in *.
    destruct (Nat.ltb (q + 1) (length data)) eqn:EL.
    + injection E as <- <- <-. rewrite !Nat.add_0_r. apply Nat.ltb_lt in EL. replace (_ <=? _) with false by lia. eexists. split; [reflexivity|].
      unfold set_obj. rewrite <- (upd_self p b (h_blks h) H3).
      apply (rel_change lost lend h V k (VIter bs data q) (OIter p bs (N.of_nat (length data)) (N.of_nat q) ap) b (OIter p bs (N.of_nat (length data)) (N.of_nat q + 1) ap) (VIter bs data (q + 1)) b R EV H2 H3); try reflexivity.
      cbn [has]. repeat split; auto. lia.
    + apply Nat.ltb_ge in EL. destruct (_ <=? bs) eqn:EB; [|discriminate]. injection E as <- <- <-. rewrite !Nat.add_0_r. apply N.leb_le in EB. replace (_ <=? _) with true by lia.
      unfold fill. replace (bs <? _) with false by lia. rewrite H5. rewrite mem_write_ok by lia. eexists. split; [reflexivity|].
      unfold store, set_obj. cbn [h_blks h_objs]. rewrite H3. destruct b as [m|m|]; try discriminate S6. cbn [bytes_of] in *. cbn [N.to_nat firstn app Nat.add].
      match goal with |- Rel _ _ (mkHp (upd _ (Heap ?m') _) (upd _ (Some ?o') _)) _ =>
        apply (rel_change lost lend h V k (VIter bs data q) (OIter p bs (N.of_nat (length data)) (N.of_nat q) ap) (Heap m) o' (VIter bs (rd_data r) 0) (Heap m') R EV H2 H3); try reflexivity end.
      cbn [has bytes_of isHeap]. split; [reflexivity|]. split; [rewrite app_length, skipn_length; lia|]. split; [reflexivity|]. split; [exact EB|].
      split; [rewrite firstn_app, Nat.sub_diag, firstn_all; cbn; apply app_nil_r|]. auto.
Qed.
Lemma calls_sim cs lost lend h V V' l n : Rel lost lend h V -> calls_spec cs V = Some (V', l, n) ->
  exists h', mem_calls cs h = Ret h' l /\ Rel (lost + n) (lend + length (filter lends cs)) h' V'.
Proof.
  revert lost lend h V V' l n. induction cs as [|c cs IH]; intros lost lend h V V' l n R E; cbn [calls_spec mem_calls filter] in *.
  - injection E as <- <- <-. exists h. cbn. rewrite !Nat.add_0_r. auto.
  - destruct (call_spec c V) as [[[V1 a] n1]|] eqn:E1; [|discriminate]. destruct (calls_spec cs V1) as [[[V2 l2] n2]|] eqn:E2; [|discriminate]. injection E as <- <- <-.
    destruct (call_sim c _ _ _ _ _ _ _ R E1) as [h1 [H1 R1]]. rewrite H1. cbn [bind]. destruct (IH _ _ _ _ _ _ _ R1 E2) as [h2 [H2 R2]]. rewrite H2. cbn [bind]. exists h2.
    split; [reflexivity|]. replace (lost + (n1 + n2))%nat with (lost + n1 + n2)%nat by lia. destruct (lends c); cbn [length b2n] in *; [|rewrite Nat.add_0_r in R2; exact R2].
    replace (lend + S (length (filter lends cs)))%nat with (lend + 1 + length (filter lends cs))%nat by lia. exact R2.
Qed.
