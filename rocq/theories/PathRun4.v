(** The contributions of a token that matches. *)
From Coq Require Import Lia ZifyBool ZifyNat.
From Verif Require Import Base XmlScanner PathAtm PathSelect PathSpec PathDesc PathTrie PathKill PathRun1 PathRun2 PathRun3.

Definition range_same (r r' : option (Z * Z)) : Prop :=
  match r, r' with
  | None, None => True
  | Some (b, e), Some (b', e') => e = e' /\ (b = b' \/ (b <= 1 /\ b' <= 1)%Z)
  | _, _ => False
  end.
Lemma hits_range_same kb evs : forall q f r r' t d i, range_same r r' -> hitsk kb (mkExpr [] q f r t) d evs i = hitsk kb (mkExpr [] q f r' t) d evs i.
Proof.
  induction evs as [|ev l IH]; intros q f r r' t d i H; cbn [hitsk x_edges]; [reflexivity|].
  assert (Hn : range_now r = range_now r').
  { destruct r as [[b e]|], r' as [[b' e']|]; cbn in *; try contradiction; try reflexivity. destruct H as [-> [->|[H1 H2]]]; [reflexivity|].
    replace (b <=? 1)%Z with true by lia. replace (b' <=? 1)%Z with true by lia. reflexivity. }
  assert (Hx : range_same (range_next r) (range_next r')).
  { destruct r as [[b e]|], r' as [[b' e']|]; cbn in *; try contradiction; try exact I. lia. }
  destruct i.
  - unfold now, report_at. cbn [x_edges x_range x_follow x_rep]. rewrite Hn. reflexivity.
  - f_equal. rewrite !refused_out by reflexivity. rewrite andb_false_r, !orb_false_r. destruct (depth_after d ev) as [d'|]; [|reflexivity]. unfold transient. cbn [x_edges x_rep].
    unfold wait_on, report_at. cbn [x_edges x_range x_follow x_rep x_type].
    destruct (_ && _); destruct q; try reflexivity; apply IH; assumption.
Qed.

Definition kclose (k : kind) : bool := match k with KClose => true | _ => false end.

Section Run.
Variables kb ub : bool.
Variable a : atm.
Hypothesis W : atm_wf a.
Notation exprs := (tok_exprs a).
Notation hits := (hitsk kb).
Notation contr := (contr kb ub a).
Notation cx := (cx kb ub).

Lemma contr_edge t fr d ev l tk st n :
  nth_error a (t_state tk) = Some st -> c_type (st_core st) = 0%Z -> st_next st = Some n -> dead tk = false ->
  step_at (edge_of st) d ev = true -> ((exists y, In y (lang a n)) -> e_op (edge_of st) = SValue -> fr = true) ->
  contr t fr (Some d) (ev :: l) 0 tk = list_sum (map (fun x => if is_now x && (x_type x =? t)%Z then 1%nat else O) (lang a n)) /\
  forall i, contr t fr (Some d) (ev :: l) (S i) tk =
    (contr t false (depth_after d ev) l i tk +
     if kclose (kind_of (fst ev)) then O else list_sum (map (fun y => if (x_type y =? t)%Z then hits (lift ub y) 0 l i else O) (lang a n)))%nat.
Proof.
  intros H1 T Hn D St Fr. unfold PathRun2.contr. rewrite (not_dead ub a tk D), (tok_expr_edge a _ _ H1 T), Hn. split.
  - rewrite map_map. apply list_sum_ext. intros y Hy. unfold PathRun2.cx. cbn [hitsk].
    assert (Htr : transient (add_edge (edge_of st) y) && negb fr = false).
    { unfold transient, add_edge, rest_of. cbn [x_edges]. destruct (e_op (edge_of st)) eqn:Eo; try reflexivity. rewrite (Fr (ex_intro _ y Hy) eq_refl). reflexivity. }
    rewrite Htr. unfold now. rewrite lift_edges, lift_rep. unfold add_edge, rest_of. cbn [x_type]. unfold is_now. cbn [x_edges x_rep].
    destruct (x_edges y), (x_rep y); rewrite ?St; cbn [andb]; destruct (x_type y =? t)%Z; reflexivity.
  - intro i.
    assert (Hterm : forall y, In y (lang a n) -> cx t fr d (ev :: l) (S i) (add_edge (edge_of st) y) =
       (match depth_after d ev with Some d' => cx t false d' l i (add_edge (edge_of st) y) | None => O end +
        if kclose (kind_of (fst ev)) then O else if (x_type y =? t)%Z then hits (lift ub y) 0 l i else O)%nat).
    { intros y Hy. unfold PathRun2.cx. cbn [hitsk].
      assert (Htr : transient (add_edge (edge_of st) y) && negb fr = false).
      { unfold transient, add_edge, rest_of. cbn [x_edges]. destruct (e_op (edge_of st)) eqn:Eo; try reflexivity. rewrite (Fr (ex_intro _ y Hy) eq_refl). reflexivity. }
      rewrite Htr.
      assert (Hw : wait_on (lift ub (add_edge (edge_of st) y)) d ev = lift ub (add_edge (edge_of st) y)) by (unfold wait_on; rewrite lift_edges; reflexivity).
      assert (Hrf : refused (add_edge (edge_of st) y) ev = false).
      { unfold refused, add_edge, rest_of. cbn [x_edges]. unfold step_at in St. destruct (kind_of (fst ev)); try reflexivity.
        destruct (e_op (edge_of st)); try reflexivity. cbn [sees] in St. rewrite andb_false_r in St. discriminate. }
      rewrite Hw, lift_edges, lift_transient, lift_refused, Hrf, andb_false_r, orb_false_r.
      assert (He : x_edges (add_edge (edge_of st) y) = edge_of st :: x_edges y) by reflexivity. rewrite He, St.
      assert (Ht : x_type (add_edge (edge_of st) y) = x_type y) by reflexivity. rewrite Ht.
      assert (Hr : rest_of (add_edge (edge_of st) y) (x_edges y) = y) by (destruct y; reflexivity). rewrite lift_rest, Hr.
      destruct (x_type y =? t)%Z.
      - destruct (depth_after d ev), (transient (add_edge (edge_of st) y)); cbn [andb negb]; destruct (kind_of (fst ev)); cbn [kclose]; lia.
      - destruct (depth_after d ev), (kclose (kind_of (fst ev))); reflexivity. }
    rewrite map_map, (list_sum_ext _ _ _ Hterm), list_sum_plus. f_equal.
    + destruct (depth_after d ev) as [d'|].
      * rewrite map_map. reflexivity.
      * apply list_sum_0. reflexivity.
    + destruct (kclose (kind_of (fst ev))); [|reflexivity]. apply list_sum_0. reflexivity.
Qed.

Definition twice (c : core) : core := fst (count_down (fst (count_down c))).
Lemma count_twice c : snd (count_down (fst (count_down c))) = range_now (range_of c).
Proof.
  destruct c as [m f t b e]. unfold count_down, range_of. cbn [c_end c_start c_mask c_follow c_type].
  destruct (Z.eqb_spec e (-1)); [subst; reflexivity|].
  destruct (Z.ltb_spec 0 e).
  - destruct (Z.leb_spec b 0); cbn [fst c_end c_start c_mask c_follow c_type]; cbn [range_now];
      replace (e - 1 =? -1)%Z with false by lia; destruct (Z.ltb_spec 0 (e - 1)).
    + replace (b <=? 0)%Z with true by lia. cbn [snd]. lia.
    + cbn [snd]. lia.
    + destruct (Z.leb_spec (b - 1) 0); cbn [snd]; lia.
    + cbn [snd]. lia.
  - cbn [fst c_end]. replace (e =? -1)%Z with false by lia. replace (0 <? e)%Z with false by lia. cbn [snd range_now]. lia.
Qed.
Lemma twice_props c : c_follow (twice c) = c_follow c /\ c_type (twice c) = c_type c /\
  (c_mask (twice c) = c_mask c \/ c_mask (twice c) = m_zero) /\
  ((c_mask (twice c) = c_mask c /\ range_same (range_of (twice c)) (range_next (range_of c)))
   \/ exhausted (range_next (range_of c)) /\ (exhausted (range_of (twice c)))).
Proof.
  destruct c as [m f t b e]. unfold twice, count_down, range_of. cbn [c_end c_start c_mask c_follow c_type].
  destruct (Z.eqb_spec e (-1)).
  { subst. cbn [fst c_end Z.eqb Pos.eqb c_follow c_type c_mask]. splits; try reflexivity; [left; reflexivity|]. left. split; [reflexivity|exact I]. }
  destruct (Z.ltb_spec 0 e).
  - destruct (Z.leb_spec b 0); cbn [fst c_end c_start c_mask c_follow c_type]; 
      replace (e - 1 =? -1)%Z with false by lia; destruct (Z.ltb_spec 0 (e - 1)).
    + replace (b <=? 0)%Z with true by lia. cbn [fst c_end c_start c_mask c_follow c_type]. replace (e - 1 =? 0)%Z with false by lia.
      splits; try reflexivity. { destruct (_ =? _)%Z; auto. }
      replace (e - 1 - 1 =? -1)%Z with false by lia. cbn [range_next].
      destruct (Z.eqb_spec (e - 1 - 1) 0); [right; cbn [exhausted]; lia|left]. split; [reflexivity|]. cbn [range_same]. lia.
    + cbn [fst c_end c_start c_mask c_follow c_type]. assert (e = 1)%Z by lia. subst. cbn. splits; try reflexivity; [right; reflexivity|]. right. lia.
    + destruct (Z.leb_spec (b - 1) 0); cbn [fst c_end c_start c_mask c_follow c_type]; replace (e - 1 =? 0)%Z with false by lia;
      (splits; try reflexivity; [destruct (_ =? _)%Z; auto|]);
      replace (e - 1 - 1 =? -1)%Z with false by lia; cbn [range_next];
      (destruct (Z.eqb_spec (e - 1 - 1) 0); [right; cbn [exhausted]; lia|left]); (split; [reflexivity|]); cbn [range_same]; lia.
    + cbn [fst c_end c_start c_mask c_follow c_type]. assert (e = 1)%Z by lia. subst. cbn. splits; try reflexivity; [right; reflexivity|]. right. lia.
  - cbn [fst c_end c_follow c_type c_mask c_start]. replace (e =? -1)%Z with false by lia. replace (0 <? e)%Z with false by lia. 
    cbn [fst c_end c_follow c_type c_mask c_start]. replace (e =? -1)%Z with false by lia. splits; try reflexivity; [left; reflexivity|]. right. cbn [range_next exhausted]. lia.
Qed.

(** a token for content, the range left out *)
Lemma contr_content t fr d ev l tk tk' st :
  nth_error a (t_state tk) = Some st -> c_type (st_core st) <> 0%Z -> ub = true -> content a tk = true -> t_state tk' = t_state tk ->
  forall i, contr t fr (Some d) (ev :: l) (S i) tk = contr t false (depth_after d ev) l i tk'.
Proof.
  intros H1 T U C E i.
  assert (G : forall u, t_state u = t_state tk -> gone ub a u = false).
  { intros u Hu. unfold gone, content, smask in *. rewrite U, Hu. cbn [andb]. rewrite C. cbn [negb]. apply andb_false_r. }
  unfold PathRun2.contr. rewrite (G tk eq_refl), (G tk' E), (tok_expr_out a _ _ H1 T).
  assert (H1' : nth_error a (t_state tk') = Some st) by congruence. rewrite (tok_expr_out a _ _ H1' T).
  assert (Hr : rep_of (c_mask (st_core st)) = RContent).
  { unfold content, smask in C. rewrite H1 in C. destruct (proj1 (W _ _ H1)) as [X _ _|o f j X _ _|r f t0 b ee X _ _ _|od X Hn]; rewrite X in *; cbn [core_new c_mask c_type] in *; try contradiction.
    rewrite rep_of_mask. rewrite rep_matches in C. destruct r; try discriminate; reflexivity. }
  set (x := out_of st (t_core tk)). set (x' := out_of st (t_core tk')).
  set (y := mkExpr [] RContent (c_follow (st_core st)) None (c_type (st_core st))).
  assert (L : lift ub x = y /\ lift ub x' = y).
  { unfold lift, unrange, x, x', out_of. rewrite U. cbn [x_rep]. rewrite Hr. split; reflexivity. }
  destruct L as [L L'].
  cbn [map]. rewrite !list_sum_cons. unfold PathRun2.cx. rewrite L.
  assert (Tx : transient x = false) by (unfold transient, x, out_of; cbn [x_edges x_rep]; rewrite Hr; reflexivity).
  assert (Tx' : transient x' = false) by (unfold transient, x', out_of; cbn [x_edges x_rep]; rewrite Hr; reflexivity).
  rewrite Tx. cbn [andb list_sum fold_right]. rewrite Nat.add_0_r.
  change (x_type x) with (c_type (st_core st)).
  assert (Hy : hits y d (ev :: l) (S i) = match depth_after d ev with Some d' => hits y d' l i | None => O end).
  { cbn [hitsk]. rewrite refused_out, andb_false_r by reflexivity. change (transient y) with false. cbn [orb]. change (x_edges y) with (@nil edge). cbn iota. rewrite Nat.add_0_r.
    replace (wait_on y d ev) with y; [reflexivity|]. unfold wait_on. change (x_edges y) with (@nil edge). destruct (report_at y d ev); reflexivity. }
  rewrite Hy. destruct (depth_after d ev) as [d'|].
  - rewrite L', Tx'. cbn [andb negb]. rewrite Nat.add_0_r. reflexivity.
  - destruct (_ =? _)%Z; reflexivity.
Qed.

Lemma contr_out t fr d ev l tk st :
  nth_error a (t_state tk) = Some st -> c_type (st_core st) <> 0%Z -> dead tk = false ->
  c_mask (t_core tk) = c_mask (st_core st) ->
  let x := out_of st (t_core tk) in
  report_at x d ev = true -> (x_rep x = RAttr -> fr = true) ->
  (ub = false -> contr t fr (Some d) (ev :: l) 0 tk = (if range_now (range_of (t_core tk)) && (c_type (st_core st) =? t)%Z then 1%nat else O)) /\
  forall i, contr t fr (Some d) (ev :: l) (S i) tk = contr t false (depth_after d ev) l i (mkTok (twice (t_core tk)) (t_state tk)).
Proof.
  intros H1 T D M x R Fr.
  destruct (ub && content a tk) eqn:Uc.
  { apply andb_prop in Uc. destruct Uc as [U C]. split; [congruence|]. apply (contr_content t fr d ev l tk (mkTok (twice (t_core tk)) (t_state tk)) st H1 T U C eq_refl). }
  assert (Lx : forall c, lift ub (out_of st c) = out_of st c).
  { intro c. unfold lift. destruct ub; [|reflexivity]. cbn [andb] in Uc. unfold unrange, out_of. cbn [x_rep].
    unfold content, smask in Uc. rewrite H1 in Uc. destruct (proj1 (W _ _ H1)) as [X _ _|o f j X _ _|r f t0 b ee X _ _ _|od X Hn]; rewrite X in *; cbn [core_new c_mask c_type] in *; try contradiction.
    rewrite rep_of_mask. rewrite rep_matches in Uc. destruct r; try discriminate; reflexivity. }
  assert (Gn : forall c, gone ub a (mkTok c (t_state tk)) = dead (mkTok c (t_state tk))).
  { intro c. unfold gone, content, smask in *. cbn [t_state]. rewrite Uc. apply andb_true_r. }
  unfold PathRun2.contr. rewrite (not_dead ub a tk D), (tok_expr_out a _ _ H1 T).
  assert (Htr : transient x && negb fr = false).
  { unfold transient. cbn [x out_of x_edges x_rep] in *. destruct (rep_of _) eqn:Er; try reflexivity. rewrite (Fr eq_refl). reflexivity. }
  split.
  - intros _. cbn [map]. rewrite list_sum_cons. fold x. unfold PathRun2.cx. rewrite Htr. unfold x at 2. rewrite Lx. fold x. cbn [hitsk]. unfold now. cbn [x_edges x out_of].
    change (report_at {| x_edges := []; x_rep := rep_of (c_mask (st_core st)); x_follow := c_follow (st_core st); x_range := range_of (t_core tk);
      x_type := c_type (st_core st) |} d ev) with (report_at x d ev). rewrite R. cbn [x_range x_type andb].
    destruct (range_now _), (_ =? _)%Z; reflexivity.
  - intro i. rewrite (tok_expr_out a (mkTok (twice (t_core tk)) (t_state tk)) st H1 T).
    cbn [map]. rewrite !list_sum_cons. fold x. cbn [t_core].
    rewrite Gn.
    set (x' := out_of st (twice (t_core tk))).
    assert (Hx : cx t fr d (ev :: l) (S i) x = match depth_after d ev with Some d' => if (x_type x =? t)%Z then if transient x then O else hits (wait_on x d ev) d' l i else O | None => O end).
    { unfold PathRun2.cx. rewrite Htr. unfold x at 2. rewrite Lx. fold x. cbn [hitsk]. rewrite refused_out, andb_false_r, orb_false_r by reflexivity. cbn [x out_of x_edges]. rewrite Nat.add_0_r.
      destruct (_ =? _)%Z, (depth_after d ev); reflexivity. }
    rewrite Hx. clear Hx. cbn [list_sum fold_right]. rewrite !Nat.add_0_r.
    destruct (depth_after d ev) as [d'|]; [|destruct (dead (mkTok (twice (t_core tk)) (t_state tk))); reflexivity].
    destruct (twice_props (t_core tk)) as (_ & _ & P3 & P4).
    assert (Hw : wait_on x d ev = mkExpr [] (x_rep x) (x_follow x) (range_next (x_range x)) (x_type x)).
    { unfold wait_on. cbn [x out_of x_edges]. change (report_at (mkExpr [] _ _ _ _) d ev) with (report_at x d ev). rewrite R. reflexivity. }
    assert (Htt : transient x' = transient x) by reflexivity.
    assert (Hty : x_type x' = x_type x) by reflexivity.
    rewrite Hw. unfold PathRun2.cx. unfold x' at 3. rewrite Lx. fold x'. rewrite Htt, Hty, andb_true_r.
    destruct P4 as [[P4 P5]|[P4 P5]].
    + unfold dead. cbn [t_core]. rewrite P4. unfold dead in D. rewrite D.
      destruct (x_type x =? t)%Z; [|reflexivity]. destruct (transient x); [reflexivity|].
      symmetry. rewrite ?Nat.add_0_r. apply (hits_range_same kb l (x_rep x) (x_follow x) _ _ (x_type x)). exact P5.
    + assert (H0 : hits {| x_edges := []; x_rep := x_rep x; x_follow := x_follow x; x_range := range_next (x_range x); x_type := x_type x |} d' l i = O)
        by (apply hits_exhausted; [reflexivity|exact P4]).
      assert (H2 : hits x' d' l i = O) by (apply hits_exhausted; [reflexivity|exact P5]).
      rewrite H0, H2. destruct (dead (mkTok (twice (t_core tk)) (t_state tk))), (x_type x =? t)%Z, (transient x); reflexivity.
Qed.
End Run.
