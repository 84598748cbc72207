(** The paths of an automaton: decoding of the states and of the tokens. *)
From Coq Require Import Permutation.
From Verif Require Import Base XmlScanner PathAtm PathSelect PathSpec.
From Coq Require Import Lia.

Definition op_of (o : sop) : pop := match o with SOpen => OpOpenTag | SClose => OpCloseTag | SAttr => OpAttribute | SValue => OpThisValue end.
Definition rep_mask (r : rep) : mask := match r with RNow => m_zero | RContent => m_op OpContent | RAttr => m_op OpThisValue end.
Definition sop_of (m : mask) : sop :=
  if m_eqb m (m_op OpOpenTag) then SOpen else if m_eqb m (m_op OpCloseTag) then SClose
  else if m_eqb m (m_op OpAttribute) then SAttr else SValue.
Definition rep_of (m : mask) : rep := if m_empty m then RNow else if m_eqb m (m_op OpContent) then RContent else RAttr.

Lemma sop_of_op o : sop_of (m_op (op_of o)) = o.
Proof. destruct o; reflexivity. Qed.
Lemma rep_of_mask r : rep_of (rep_mask r) = r.
Proof. destruct r; reflexivity. Qed.

Definition range_of (c : core) : option (Z * Z) := if (c_end c =? -1)%Z then None else Some (c_start c, c_end c).
Definition add_edge (ed : edge) (x : expr) : expr := rest_of x (ed :: x_edges x).
Definition edge_of (st : pstate) : edge := mkEdge (sop_of (c_mask (st_core st))) (c_follow (st_core st)) (st_key st).
Definition out_of (st : pstate) (c : core) : expr :=
  mkExpr [] (rep_of (c_mask (st_core st))) (c_follow (st_core st)) (range_of c) (c_type (st_core st)).
Definition alts (L : nat -> list expr) (st : pstate) (c : core) : list expr :=
  if (c_type (st_core st) =? 0)%Z
  then match st_next st with Some n => map (add_edge (edge_of st)) (L n) | None => [] end
  else [out_of st c].
Fixpoint lang_f (f : nat) (a : atm) (i : nat) : list expr :=
  match f with
  | O => []
  | S f => match nth_error a i with
           | None => []
           | Some st => alts (lang_f f a) st (st_core st) ++ match st_link st with Some j => lang_f f a j | None => [] end
           end
  end.
Definition lang (a : atm) (i : nat) : list expr := lang_f (length a) a i.

Inductive st_shape (n : nat) (i : nat) (st : pstate) : Prop :=
| sh_dummy : st_core st = core_new -> st_key st = None -> st_next st = None -> st_shape n i st
| sh_edge o f j : st_core st = mkCore (m_op (op_of o)) f 0 0 (-1) -> st_next st = Some j -> (i < j < n)%nat -> st_shape n i st
| sh_out r f t b e : st_core st = mkCore (rep_mask r) f t b e -> t <> 0%Z -> st_key st = None -> st_next st = None -> st_shape n i st
| sh_dead o : st_core st = mkCore (m_op (op_of o)) false 0 0 (-1) -> st_next st = None -> st_shape n i st.
Definition st_wf (n i : nat) (st : pstate) : Prop :=
  st_shape n i st /\ (forall j, st_link st = Some j -> (i < j < n)%nat).
Definition atm_wf (a : atm) : Prop := forall i st, nth_error a i = Some st -> st_wf (length a) i st.

Lemma alts_ext L L' st c : (forall j, st_next st = Some j -> L j = L' j) -> alts L st c = alts L' st c.
Proof. intro H. unfold alts. destruct (_ =? _)%Z; [|reflexivity]. destruct (st_next st); [|reflexivity]. rewrite (H n eq_refl). reflexivity. Qed.

Lemma lang_f_enough a (W : atm_wf a) : forall n i f f',
  (length a - i <= n)%nat -> (length a - i <= f)%nat -> (length a - i <= f')%nat -> lang_f f a i = lang_f f' a i.
Proof.
  induction n; intros i f f' Hn Hf Hf'.
  - assert (Hi : nth_error a i = None) by (apply nth_error_None; lia).
    destruct f, f'; cbn [lang_f]; try rewrite Hi; reflexivity.
  - destruct (nth_error a i) as [st|] eqn:Hi.
    2:{ destruct f, f'; cbn [lang_f]; try rewrite Hi; reflexivity. }
    assert (i < length a)%nat by (apply nth_error_Some; congruence).
    destruct f as [|f]; [lia|]. destruct f' as [|f']; [lia|]. cbn [lang_f]. rewrite Hi.
    destruct (W _ _ Hi) as [Sh Lk].
    f_equal.
    + apply alts_ext. intros j Hj. destruct Sh; try congruence.
      assert (j0 = j) by congruence. subst. apply IHn; lia.
    + destruct (st_link st) as [j|] eqn:Hj; [|reflexivity]. specialize (Lk j eq_refl). apply IHn; lia.
Qed.

Lemma lang_eq a (W : atm_wf a) i st : nth_error a i = Some st ->
  lang a i = alts (lang a) st (st_core st) ++ match st_link st with Some j => lang a j | None => [] end.
Proof.
  intro Hi. assert (i < length a)%nat by (apply nth_error_Some; congruence).
  unfold lang at 1. rewrite (lang_f_enough a W (length a) i (length a) (S (length a))); try lia.
  cbn [lang_f]. rewrite Hi. reflexivity.
Qed.

(** ** masks *)
Lemma etype_bit m e : m_matches m e = N.testbit (m_pos m) (etype_idx e).
Proof.
  unfold m_matches. destruct (N.testbit (m_pos m) (etype_idx e)) eqn:B.
  - apply negb_true_iff, N.eqb_neq. intro H. assert (T := N.land_spec (m_pos m) (2 ^ etype_idx e) (etype_idx e)).
    rewrite H, B, N.pow2_bits_true, N.bits_0 in T. discriminate.
  - apply negb_false_iff, N.eqb_eq. apply N.bits_inj. intro k. rewrite N.land_spec, N.bits_0.
    destruct (N.eq_dec k (etype_idx e)) as [->|Hk]; [rewrite B; reflexivity|].
    rewrite N.pow2_bits_false by congruence. apply andb_false_r.
Qed.
Definition m_sub (m m' : mask) : Prop := forall e, m_matches m e = true -> m_matches m' e = true.
Lemma m_sub_refl m : m_sub m m. Proof. intros e H; exact H. Qed.
Lemma m_sub_trans a b c : m_sub a b -> m_sub b c -> m_sub a c. Proof. intros H1 H2 e H. auto. Qed.
Lemma m_join_l a b : m_sub a (m_join a b).
Proof. intro e. rewrite !etype_bit. cbn [m_join m_pos]. rewrite N.lor_spec. intros ->. reflexivity. Qed.
Lemma m_join_r a b : m_sub b (m_join a b).
Proof. intro e. rewrite !etype_bit. cbn [m_join m_pos]. rewrite N.lor_spec. intros ->. apply orb_true_r. Qed.
Lemma m_match_sub e m : m_sub m (m_match e m).
Proof. intro f. rewrite !etype_bit. cbn [m_match m_pos]. rewrite N.lor_spec. intros ->. reflexivity. Qed.
Lemma m_match_self e m : m_matches (m_match e m) e = true.
Proof. rewrite etype_bit. cbn [m_match m_pos]. rewrite N.lor_spec, N.pow2_bits_true. apply orb_true_r. Qed.
Lemma m_sub_zero m : m_sub m_zero m. Proof. intros e H. rewrite etype_bit in H. cbn in H. destruct (etype_idx e); discriminate. Qed.
Lemma m_zero_matches e : m_matches m_zero e = false. Proof. destruct e; reflexivity. Qed.
Lemma m_zero_rejects e : m_rejects m_zero e = false. Proof. destruct e; reflexivity. Qed.

Lemma op_matches o e : m_matches (m_op (op_of o)) e = sees o (kind_of e).
Proof. destruct o, e; reflexivity. Qed.
Lemma op_rejects o e : m_rejects (m_op (op_of o)) e =
  match o, kind_of e with SAttr, KContent => true | SValue, (KName | KContent | KOpen) => true | _, _ => false end.
Proof. destruct o, e; reflexivity. Qed.
Lemma rep_matches r e : m_matches (rep_mask r) e = reports r (kind_of e).
Proof. destruct r, e; reflexivity. Qed.
Lemma rep_rejects r e : m_rejects (rep_mask r) e =
  match r, kind_of e with RAttr, (KName | KContent | KOpen) => true | _, _ => false end.
Proof. destruct r, e; reflexivity. Qed.
Lemma key_eqb_same a b : key_eqb a b = same_name a b.
Proof. revert b. induction a as [|x a IH]; intros [|y b]; cbn; try reflexivity. all: rewrite ?IH; reflexivity. Qed.
