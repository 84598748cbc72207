(** Proofs on the static buffer and the tag stack. *)
From Verif Require Import Base StaticBuffer TagStack.
Ltac Zify.zify_post_hook ::= Z.div_mod_to_equations.

Lemma u64_small : forall n, n < 2 ^ 64 -> u64 n = n.
Proof. intros n H. unfold u64. apply N.mod_small. exact H. Qed.
Lemma sub64_small : forall x y, y <= x -> x < 2 ^ 64 -> sub64 x y = x - y.
Proof.
  intros x y H1 H2. unfold sub64. rewrite (u64_small y) by lia. unfold u64.
  replace (x + (2 ^ 64 - y)) with ((x - y) + 1 * 2 ^ 64) by lia. rewrite N.mod_add by discriminate. apply N.mod_small. lia.
Qed.

Lemma mem_write_ok : forall mem pos bytes, pos + N.of_nat (length bytes) <= N.of_nat (length mem) ->
  mem_write mem pos bytes = Some (firstn (N.to_nat pos) mem ++ bytes ++ skipn (N.to_nat pos + length bytes) mem).
Proof. intros mem pos bytes H. unfold mem_write. replace (_ <=? _) with true by lia. reflexivity. Qed.
Lemma written_length : forall (mem bytes : list N) pos, (pos + length bytes <= length mem)%nat ->
  length (firstn pos mem ++ bytes ++ skipn (pos + length bytes) mem) = length mem.
Proof. intros. rewrite !app_length, firstn_length, skipn_length. lia. Qed.
Lemma written_firstn : forall (mem bytes : list N) pos, (pos + length bytes <= length mem)%nat ->
  firstn (pos + length bytes) (firstn pos mem ++ bytes ++ skipn (pos + length bytes) mem) = firstn pos mem ++ bytes.
Proof.
  intros. rewrite app_assoc, firstn_app, app_length, firstn_length, Nat.min_l by lia. rewrite Nat.sub_diag. cbn [firstn]. rewrite app_nil_r.
  apply firstn_all2. rewrite app_length, firstn_length. lia.
Qed.
Lemma written_before : forall (mem bytes : list N) pos n, (pos + length bytes <= length mem)%nat -> (n <= pos)%nat ->
  firstn n (firstn pos mem ++ bytes ++ skipn (pos + length bytes) mem) = firstn n mem.
Proof.
  intros. rewrite firstn_app, firstn_length, Nat.min_l by lia. replace (n - pos)%nat with 0%nat by lia. cbn [firstn]. rewrite app_nil_r.
  rewrite firstn_firstn, Nat.min_l by lia. reflexivity.
Qed.

(** ** Static buffer *)
(** a buffer with capacity [cap], the content [l] and the overflow flag [o] *)
Definition sb_is (cap : N) (l : list N) (o : bool) (b : sbuf) : Prop :=
  sb_size b = cap /\ cap <= N.of_nat (length (sb_mem b)) /\ sb_pos b = N.of_nat (length l) /\ sb_pos b <= cap /\ sb_content b = l /\ sb_over b = o.

Lemma sb_new_is : forall cap, sb_is cap [] false (sb_new cap).
Proof. intros cap. unfold sb_is, sb_new, sb_content. cbn [sb_size sb_mem sb_pos sb_over]. rewrite repeat_length. cbn [length firstn N.to_nat]. repeat split; lia. Qed.

Lemma firstn_length_eq : forall (l mem : list N) n, firstn n mem = l -> (n <= length mem)%nat -> length l = n.
Proof. intros l mem n <- H. rewrite firstn_length. lia. Qed.

Lemma sb_push_is : forall cap l o b c, cap < 2 ^ 64 -> sb_is cap l o b ->
  exists b', sb_push c b = Ret b' tt /\
    (if N.of_nat (length l) <? cap then sb_is cap (l ++ [c]) o b' else sb_is cap l true b') /\ (N.of_nat (length l) <? cap) = (sb_pos b <? sb_size b).
Proof.
  intros cap l o [pos size mem over] c Hc (H1 & H2 & H3 & H4 & H5 & H6). unfold sb_content in H5. cbn [sb_size sb_mem sb_pos sb_over] in *. subst size over.
  unfold sb_push. cbn [sb_size sb_mem sb_pos sb_over]. rewrite <- H3. destruct (pos <? cap) eqn:E.
  - rewrite mem_write_ok by (cbn [length]; lia). eexists. split; [reflexivity|]. split; [|reflexivity]. rewrite u64_small by lia.
    unfold sb_is, sb_content. cbn [sb_size sb_mem sb_pos sb_over].
    assert (Hl : (N.to_nat pos + length [c] <= length mem)%nat) by (cbn [length]; lia).
    rewrite written_length by exact Hl. rewrite app_length. cbn [length]. repeat split; try lia.
    replace (N.to_nat (pos + 1)) with (N.to_nat pos + length [c])%nat by (cbn [length]; lia). rewrite written_firstn by exact Hl. rewrite H5. reflexivity.
  - eexists. split; [reflexivity|]. split; [|reflexivity]. unfold sb_is, sb_content. cbn [sb_size sb_mem sb_pos sb_over]. repeat split; auto; lia.
Qed.

Lemma sb_pushes_is : forall k cap l o b c, cap < 2 ^ 64 -> sb_is cap l o b -> (N.of_nat (length l) + N.of_nat k <= cap) ->
  exists b', sb_pushes k c b = Ret b' tt /\ sb_is cap (l ++ repeat c k) o b'.
Proof.
  induction k as [|k IH]; intros cap l o b c Hc Hb Hk; cbn [sb_pushes repeat].
  - exists b. rewrite app_nil_r. auto.
  - destruct (sb_push_is cap l o b c Hc Hb) as [b1 [E [H _]]]. replace (_ <? _) with true in H by lia.
    destruct (IH cap (l ++ [c]) o b1 c Hc H) as [b2 [E2 H2]]; [rewrite app_length; cbn [length]; lia|].
    exists b2. rewrite E. cbn [bind]. rewrite E2. split; [reflexivity|]. rewrite <- app_assoc in H2. exact H2.
Qed.

Lemma sb_append_is : forall cap l o b cc, cap < 2 ^ 63 -> N.of_nat (length cc) < 2 ^ 63 -> sb_is cap l o b ->
  exists b', sb_append cc b = Ret b' tt /\
    sb_is cap (l ++ firstn (N.to_nat cap - length l) cc) (o || (cap <? N.of_nat (length l + length cc))) b'.
Proof.
  intros cap l o [pos size mem over] cc Hc Hcc (H1 & H2 & H3 & H4 & H5 & H6). unfold sb_content in H5. cbn [sb_size sb_mem sb_pos sb_over] in *. subst size over.
  unfold sb_append. cbn [sb_size sb_mem sb_pos sb_over]. rewrite (u64_small (pos + _)) by lia.
  replace (cap <? N.of_nat (length l + length cc)) with (cap <? pos + N.of_nat (length cc)) by lia.
  set (n' := if cap <? pos + N.of_nat (length cc) then sub64 cap pos else N.of_nat (length cc)).
  assert (Hn : n' = N.of_nat (length (firstn (N.to_nat cap - length l) cc))).
  { rewrite firstn_length. unfold n'. destruct (cap <? _) eqn:E; [rewrite sub64_small by lia|]; lia. }
  assert (Hf : firstn (N.to_nat n') cc = firstn (N.to_nat cap - length l) cc).
  { rewrite Hn, Nat2N.id. rewrite firstn_length. destruct (Nat.le_ge_cases (N.to_nat cap - length l) (length cc)).
    - rewrite Nat.min_l by lia. reflexivity.
    - rewrite Nat.min_r by lia. rewrite firstn_all. symmetry. apply firstn_all2. lia. }
  assert (Hle : n' <= N.of_nat (length cc)) by (rewrite Hn, firstn_length; lia).
  replace (_ <? n') with false by lia. rewrite Hf. set (w := firstn (N.to_nat cap - length l) cc) in *.
  assert (Hw : pos + N.of_nat (length w) <= cap). { unfold w. rewrite firstn_length. lia. }
  rewrite mem_write_ok by lia. eexists. split; [reflexivity|]. unfold sb_is, sb_content. cbn [sb_size sb_mem sb_pos sb_over]. rewrite u64_small by lia.
  assert (Hl : (N.to_nat pos + length w <= length mem)%nat) by lia. rewrite written_length by exact Hl. rewrite app_length.
  repeat split; try lia. replace (N.to_nat (pos + n')) with (N.to_nat pos + length w)%nat by lia. rewrite written_firstn by exact Hl. rewrite H5. reflexivity.
Qed.

Lemma sb_resize_is : forall cap l o b n c, cap < 2 ^ 64 -> sb_is cap l o b ->
  exists b', sb_resize n c b = Ret b' tt /\
    sb_is cap (firstn (N.to_nat n) l ++ repeat c (Nat.min (N.to_nat n) (N.to_nat cap) - length l)) o b'.
Proof.
  intros cap l o b n c Hc Hb. pose proof Hb as Hb0. destruct Hb as (H1 & H2 & H3 & H4 & H5 & H6). unfold sb_resize. destruct (n <? sb_pos b) eqn:E.
  - eexists. split; [reflexivity|]. unfold sb_content in H5. replace (Nat.min _ _ - length l)%nat with 0%nat by lia. cbn [repeat]. rewrite app_nil_r.
    assert (Hl : length (firstn (N.to_nat n) l) = N.to_nat n) by (rewrite firstn_length; lia).
    unfold sb_is, sb_content. cbn [sb_size sb_mem sb_pos sb_over]. rewrite Hl. repeat split; try assumption; try lia.
    rewrite <- H5, firstn_firstn. f_equal. lia.
  - rewrite (firstn_all2 l) by lia. rewrite H1. replace (if cap <? n then cap else n) with (N.min n cap) by (destruct (cap <? n) eqn:E2; lia).
    replace (N.to_nat (N.min n cap - sb_pos b)) with (Nat.min (N.to_nat n) (N.to_nat cap) - length l)%nat by lia.
    apply sb_pushes_is; auto. lia.
Qed.

(** ** Tag stack *)
Lemma le_value_bytes : forall k n, n < 256 ^ N.of_nat k -> le_value (le_bytes k n) = n.
Proof.
  induction k as [|k IH]; intros n H; cbn [le_bytes le_value].
  - change (256 ^ N.of_nat 0) with 1 in H. lia.
  - rewrite IH; [|rewrite Nat2N.inj_succ, N.pow_succ_r' in H; apply N.div_lt_upper_bound; lia]. lia.
Qed.
Lemma le_bytes_length : forall k n, length (le_bytes k n) = k.
Proof. induction k; intros; cbn [le_bytes length]; congruence. Qed.

Lemma getAlign_spec : forall n, getAlign n <= 7 /\ (n + getAlign n) mod 8 = 0.
Proof.
  intros n. unfold getAlign.
  assert (E : forall x, N.land x 7 = x mod 8) by (intros x; change 7 with (N.ones 3); apply N.land_ones).
  rewrite !E. set (r := n mod 8). assert (Hr : r < 8) by (unfold r; lia). rewrite sub64_small by lia. unfold r in *. lia.
Qed.

(** space taken by a string *)
Definition padding (s : list N) : nat := N.to_nat (getAlign (N.of_nat (length s))).
Definition entry_size (s : list N) : nat := (length s + padding s + 8)%nat.
Lemma entry_size_mod : forall s, (N.of_nat (entry_size s)) mod 8 = 0.
Proof. intros s. unfold entry_size, padding. pose proof (getAlign_spec (N.of_nat (length s))). lia. Qed.
Lemma entry_size_bounds : forall s, (length s + 8 <= entry_size s <= length s + 15)%nat.
Proof. intros s. unfold entry_size, padding. pose proof (getAlign_spec (N.of_nat (length s))). lia. Qed.

(** the bytes of a stack, top first *)
Inductive packed : list (list N) -> list N -> Prop :=
| packed_nil : packed [] []
| packed_cons : forall s stack mem pad, packed stack mem -> length pad = padding s ->
    packed (s :: stack) (mem ++ s ++ pad ++ le_bytes 8 (N.of_nat (length s))).

Lemma packed_inv : forall s stack mem', packed (s :: stack) mem' -> exists mem pad,
  packed stack mem /\ length pad = padding s /\ mem' = mem ++ s ++ pad ++ le_bytes 8 (N.of_nat (length s)).
Proof. intros s stack mem' H. remember (s :: stack) as l eqn:E. destruct H as [|s1 stack1 mem pad H Hp]; [discriminate|]. injection E as -> ->. exists mem, pad. auto. Qed.
Lemma packed_length : forall stack mem, packed stack mem -> length mem = list_sum (map entry_size stack).
Proof.
  intros stack mem H. induction H as [|s stack mem pad H IH Hp]; [reflexivity|].
  rewrite !app_length, le_bytes_length, IH, Hp. cbn [map list_sum fold_right]. unfold list_sum, entry_size. lia.
Qed.
Lemma packed_mod : forall stack mem, packed stack mem -> (N.of_nat (length mem)) mod 8 = 0.
Proof.
  intros stack mem H. rewrite (packed_length _ _ H). clear H. induction stack as [|s stack IH]; [reflexivity|].
  cbn [map list_sum fold_right]. pose proof (entry_size_mod s). unfold list_sum in IH. rewrite Nat2N.inj_add. lia.
Qed.

Definition tg_is (stack : list (list N)) (t : tagstack) : Prop :=
  length (tg_mem t) = N.to_nat (tg_size t) /\ 256 <= tg_size t < 2 ^ 63 /\ (tg_pos t <= tg_size t) /\ packed stack (firstn (N.to_nat (tg_pos t)) (tg_mem t)).

Lemma tg_new_is : tg_is [] tg_new.
Proof. unfold tg_is, tg_new. cbn [tg_mem tg_size tg_pos N.to_nat firstn]. rewrite repeat_length. repeat split; try lia. constructor. Qed.

Lemma tg_pos_eq : forall stack t, tg_is stack t -> tg_pos t = N.of_nat (list_sum (map entry_size stack)).
Proof. intros stack t (H1 & H2 & H3 & H4). apply packed_length in H4. rewrite firstn_length, Nat.min_l in H4 by lia. lia. Qed.

Lemma tg_grow_ok : forall f need size, 0 < size < 2 ^ 63 -> need <= 2 ^ 62 -> need <= size * 2 ^ N.of_nat f ->
  exists size', tg_grow f need size = Some size' /\ need <= size' /\ size <= size' < 2 ^ 63.
Proof.
  induction f as [|f IH]; intros need size Hs Hn Hf.
  - cbn [tg_grow]. change (2 ^ N.of_nat 0) with 1 in Hf. replace (need <=? size) with true by lia. exists size. split; [reflexivity|lia].
  - cbn [tg_grow]. destruct (need <=? size) eqn:E; [exists size; split; [reflexivity|lia]|].
    rewrite u64_small by lia. destruct (IH need (size * 2)) as [s' [E' H']].
    + lia.
    + lia.
    + rewrite Nat2N.inj_succ, N.pow_succ_r' in Hf. lia.
    + exists s'. split; [exact E'|lia].
Qed.

(** memory [mem] with [s] copied to [p] and the size written behind the padding *)
Lemma tg_put_packed : forall stack mem p s,
  packed stack (firstn p mem) -> (p <= length mem)%nat -> (p + entry_size s <= length mem)%nat ->
  exists mem', mem_write mem (N.of_nat p) s = Some (firstn p mem ++ s ++ skipn (p + length s) mem) /\
    write_size (firstn p mem ++ s ++ skipn (p + length s) mem) (N.of_nat (p + entry_size s) - 8) (N.of_nat (length s)) = Some mem' /\
    length mem' = length mem /\ packed (s :: stack) (firstn (p + entry_size s) mem').
Proof.
  intros stack mem p s Hp Hle Hl. pose proof (entry_size_bounds s) as Hb.
  rewrite mem_write_ok by lia. rewrite Nat2N.id. set (m1 := firstn p mem ++ s ++ skipn (p + length s) mem).
  assert (L1 : length m1 = length mem) by (apply written_length; lia).
  set (q := (p + length s + padding s)%nat). assert (Hq : N.of_nat (p + entry_size s) - 8 = N.of_nat q) by (unfold q, entry_size; lia). rewrite Hq.
  unfold write_size. assert (Hm : (N.of_nat q mod 8 =? 0) = true).
  { pose proof (packed_mod _ _ Hp) as M. rewrite firstn_length, Nat.min_l in M by lia. pose proof (entry_size_mod s) as M2. unfold q.
    unfold entry_size in M2. lia. }
  rewrite Hm. rewrite mem_write_ok by (rewrite le_bytes_length; unfold q, entry_size in *; lia). rewrite Nat2N.id.
  set (bs := le_bytes 8 (N.of_nat (length s))). assert (Lb : length bs = 8%nat) by apply le_bytes_length.
  exists (firstn q m1 ++ bs ++ skipn (q + length bs) m1). split; [reflexivity|]. split; [reflexivity|].
  assert (Hql : (q + length bs <= length m1)%nat) by (rewrite Lb, L1; unfold q, entry_size in *; lia).
  split; [rewrite written_length by exact Hql; exact L1|].
  replace (p + entry_size s)%nat with (q + length bs)%nat by (rewrite Lb; unfold q, entry_size; lia).
  rewrite written_firstn by exact Hql.
  assert (E : firstn q m1 = firstn p mem ++ s ++ firstn (padding s) (skipn (p + length s) mem)).
  { unfold m1. rewrite app_assoc, firstn_app, app_length, firstn_length, Nat.min_l by lia.
    rewrite firstn_all2 by (rewrite app_length, firstn_length; unfold q; lia). rewrite <- app_assoc.
    replace (q - (p + length s))%nat with (padding s) by (unfold q; lia). reflexivity. }
  rewrite E. rewrite <- !app_assoc. apply packed_cons; [exact Hp|]. rewrite firstn_length, skipn_length. unfold q, entry_size in *. lia.
Qed.

Lemma tg_push_is : forall stack t s, tg_is stack t -> N.of_nat (list_sum (map entry_size (s :: stack))) <= 2 ^ 62 ->
  exists t', tg_push s t = Ret t' tt /\ tg_is (s :: stack) t'.
Proof.
  intros stack [mem pos size] s Hi Hb. pose proof (tg_pos_eq _ _ Hi) as Hpos. destruct Hi as (H1 & H2 & H3 & H4). cbn [tg_mem tg_pos tg_size] in *.
  unfold tg_push. cbn [tg_mem tg_pos tg_size]. set (nn := N.of_nat (length s)). cbn [map list_sum fold_right] in Hb. fold (list_sum (map entry_size stack)) in Hb.
  pose proof (entry_size_bounds s) as Hes. assert (Hofs : u64 (nn + getAlign nn + 8) = N.of_nat (entry_size s)).
  { assert (Hpd : N.of_nat (padding s) = getAlign nn) by (unfold padding, nn; lia). unfold entry_size in Hes, Hb |- *. rewrite u64_small; unfold nn in *; lia. }
  rewrite Hofs. rewrite (u64_small (pos + _)) by lia.
  assert (Hcommon : forall mem' size', length mem' = N.to_nat size' -> 256 <= size' < 2 ^ 63 -> pos + N.of_nat (entry_size s) <= size' ->
      firstn (N.to_nat pos) mem' = firstn (N.to_nat pos) mem ->
      exists t', match mem_write mem' pos s with None => Undef | Some m1 => match write_size m1 (sub64 (pos + N.of_nat (entry_size s)) 8) nn with None => Undef | Some m2 => Ret (mkTs m2 (pos + N.of_nat (entry_size s)) size') tt end end = Ret t' tt /\ tg_is (s :: stack) t').
  { intros mem' size' L1 L2 L3 L4. rewrite sub64_small by lia. rewrite <- L4 in H4.
    destruct (tg_put_packed stack mem' (N.to_nat pos) s H4) as [mem2 [E1 [E2 [E3 E4]]]]; [lia|lia|].
    rewrite N2Nat.id in E1. rewrite E1. replace (pos + N.of_nat (entry_size s) - 8) with (N.of_nat (N.to_nat pos + entry_size s) - 8) by lia.
    unfold nn. rewrite E2. eexists. split; [reflexivity|]. unfold tg_is. cbn [tg_mem tg_pos tg_size]. repeat split; try lia.
    replace (N.to_nat (pos + N.of_nat (entry_size s))) with (N.to_nat pos + entry_size s)%nat by lia. exact E4. }
  destruct (size <? pos + N.of_nat (entry_size s)) eqn:E.
  - destruct (tg_grow_ok 64 (pos + N.of_nat (entry_size s)) size) as [size' [Eg [G1 G2]]]; [lia|lia|change (2 ^ N.of_nat 64) with (2 ^ 64); lia|].
    rewrite Eg. replace (N.of_nat (entry_size s) <? nn) with false by (unfold nn; lia). cbn [tg_mem tg_pos tg_size].
    apply Hcommon; [rewrite app_length, repeat_length; lia|lia|lia|].
    rewrite firstn_app. replace (N.to_nat pos - length mem)%nat with 0%nat by lia. cbn [firstn]. apply app_nil_r.
  - cbn [tg_mem tg_pos tg_size]. apply Hcommon; auto. lia.
Qed.

Lemma tg_topofs_is : forall stack t, tg_is stack t -> N.of_nat (list_sum (map entry_size stack)) <= 2 ^ 62 ->
  tg_topofs t = Some (match stack with [] => (0, 0) | s :: _ => (N.of_nat (entry_size s), N.of_nat (length s)) end) /\
  (forall s r, stack = s :: r -> N.of_nat (entry_size s) <= tg_pos t /\
      firstn (length s) (skipn (N.to_nat (tg_pos t - N.of_nat (entry_size s))) (tg_mem t)) = s /\
      packed r (firstn (N.to_nat (tg_pos t - N.of_nat (entry_size s))) (tg_mem t))).
Proof.
  intros stack t Hi Hb. pose proof (tg_pos_eq _ _ Hi) as Hpos. destruct t as [mem pos size]. destruct Hi as (H1 & H2 & H3 & H4). cbn [tg_mem tg_pos tg_size] in *.
  unfold tg_topofs. cbn [tg_mem tg_pos tg_size]. destruct stack as [|s stack].
  - cbn [map list_sum fold_right] in Hpos. replace (pos <? 8) with true by lia. split; [reflexivity|]. intros s r H. discriminate.
  - cbn [map list_sum fold_right] in Hpos, Hb. fold (list_sum (map entry_size stack)) in Hpos, Hb. pose proof (entry_size_bounds s) as Hes. replace (pos <? 8) with false by lia.
    destruct (packed_inv _ _ _ H4) as [m [pad [Hp [Hpad E2]]]].
    assert (Lm : length m = (N.to_nat pos - entry_size s)%nat). { pose proof (packed_length _ _ Hp) as L. lia. }
    assert (Em : mem = (m ++ s ++ pad ++ le_bytes 8 (N.of_nat (length s))) ++ skipn (N.to_nat pos) mem).
    { rewrite <- E2. symmetry. apply firstn_skipn. }
    assert (Er : read_size mem (pos - 8) = Some (N.of_nat (length s))).
    { unfold read_size. pose proof (packed_mod _ _ H4) as M. rewrite firstn_length, Nat.min_l in M by lia.
      replace ((pos - 8) mod 8 =? 0) with true by lia. replace (_ <=? _) with true by lia. cbn [andb]. f_equal.
      rewrite Em. replace ((m ++ s ++ pad ++ le_bytes 8 (N.of_nat (length s))) ++ skipn (N.to_nat pos) mem)
        with ((m ++ s ++ pad) ++ le_bytes 8 (N.of_nat (length s)) ++ skipn (N.to_nat pos) mem) by (rewrite <- !app_assoc; reflexivity).
      rewrite skipn_app. rewrite skipn_all2 by (rewrite !app_length; unfold entry_size in *; lia). cbn [app].
      replace (N.to_nat (pos - 8) - length (m ++ s ++ pad))%nat with 0%nat by (rewrite !app_length; unfold entry_size in *; lia). cbn [skipn].
      rewrite firstn_app, le_bytes_length. rewrite firstn_all2 by (rewrite le_bytes_length; lia). rewrite Nat.sub_diag. change (firstn 0 (skipn (N.to_nat pos) mem)) with (@nil N). rewrite app_nil_r.
      apply le_value_bytes. change (256 ^ N.of_nat 8) with (2 ^ 64). lia. }
    rewrite Er. assert (Hofs : u64 (N.of_nat (length s) + getAlign (N.of_nat (length s)) + 8) = N.of_nat (entry_size s)).
    { rewrite u64_small; unfold entry_size, padding in *; lia. }
    rewrite Hofs. replace (pos <? N.of_nat (entry_size s)) with false by lia. split; [reflexivity|].
    intros s0 r Hsr. injection Hsr as <- <-. split; [lia|]. replace (N.to_nat (pos - N.of_nat (entry_size s))) with (length m) by lia. split.
    + rewrite Em, <- !app_assoc. rewrite skipn_app, skipn_all, Nat.sub_diag. cbn [app skipn]. rewrite firstn_app, Nat.sub_diag, firstn_all. cbn [firstn]. apply app_nil_r.
    + rewrite Em, <- !app_assoc. rewrite firstn_app, Nat.sub_diag, firstn_all. cbn [firstn]. rewrite app_nil_r. exact Hp.
Qed.

Lemma tg_top_is : forall stack t, tg_is stack t -> N.of_nat (list_sum (map entry_size stack)) <= 2 ^ 62 ->
  tg_top t = Ret t (hd_error stack).
Proof.
  intros stack t Hi Hb. destruct (tg_topofs_is stack t Hi Hb) as [E H]. unfold tg_top. rewrite E. destruct stack as [|s stack]; [reflexivity|].
  destruct (H s stack eq_refl) as [H1 [H2 _]]. pose proof (entry_size_bounds s). replace (_ =? 0) with false by lia.
  destruct Hi as (H3 & H4 & H5 & _). replace (_ <=? _) with true by lia. rewrite Nat2N.id, H2. reflexivity.
Qed.
Lemma tg_pop_is : forall stack t, tg_is stack t -> N.of_nat (list_sum (map entry_size stack)) <= 2 ^ 62 ->
  exists t', tg_pop t = Ret t' tt /\ tg_is (tl stack) t'.
Proof.
  intros stack t Hi Hb. destruct (tg_topofs_is stack t Hi Hb) as [E H]. unfold tg_pop. rewrite E. destruct stack as [|s stack].
  - replace (tg_pos t <? 0) with false by lia. eexists. split; [reflexivity|]. replace (tg_pos t - 0) with (tg_pos t) by lia. exact Hi.
  - destruct (H s stack eq_refl) as [H1 [_ H2]]. replace (tg_pos t <? N.of_nat (entry_size s)) with false by lia. eexists. split; [reflexivity|].
    destruct Hi as (H3 & H4 & H5 & _). unfold tg_is. cbn [tg_mem tg_pos tg_size tl]. repeat split; auto; lia.
Qed.
Lemma tg_clear_is : forall stack t, tg_is stack t -> tg_is [] (tg_clear t).
Proof. intros stack t (H1 & H2 & H3 & H4). unfold tg_is, tg_clear. cbn [tg_mem tg_pos tg_size N.to_nat firstn]. repeat split; try tauto; try lia. constructor. Qed.
Lemma tg_copy_is : forall stack t, tg_is stack t -> exists t', tg_copy t = Ret t t' /\ tg_is stack t'.
Proof.
  intros stack t (H1 & H2 & H3 & H4). unfold tg_copy. replace (_ && _) with true by lia. eexists. split; [reflexivity|].
  unfold tg_is. cbn [tg_mem tg_pos tg_size]. rewrite app_length, repeat_length, firstn_length. repeat split; try lia.
  rewrite firstn_app, firstn_length. replace (N.to_nat (tg_pos t) - _)%nat with 0%nat by lia. cbn [firstn]. rewrite app_nil_r, firstn_firstn, Nat.min_id. exact H4.
Qed.
Lemma tg_empty_is : forall stack t, tg_is stack t -> tg_empty t = match stack with [] => true | _ => false end.
Proof.
  intros stack t Hi. unfold tg_empty. rewrite (tg_pos_eq _ _ Hi). destruct stack as [|s stack]; [reflexivity|].
  cbn [map list_sum fold_right]. pose proof (entry_size_bounds s). lia.
Qed.
