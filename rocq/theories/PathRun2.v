(** The contribution of a token to the results and the effect of match on it. *)
From Coq Require Import Lia ZifyBool ZifyNat.
From Verif Require Import Base XmlScanner PathAtm PathSelect PathSpec PathDesc PathTrie PathKill PathRun1.

(** the range of an output for content may be left out *)
Definition lift (ub : bool) (x : expr) : expr := if ub then unrange x else x.
Lemma lift_edges ub x : x_edges (lift ub x) = x_edges x.
Proof. unfold lift, unrange. destruct ub; [|reflexivity]. destruct (x_rep x); reflexivity. Qed.
Lemma lift_rep ub x : x_rep (lift ub x) = x_rep x.
Proof. unfold lift, unrange. destruct ub; [|reflexivity]. destruct (x_rep x) eqn:E; cbn [x_rep]; congruence. Qed.
Lemma lift_follow ub x : x_follow (lift ub x) = x_follow x.
Proof. unfold lift, unrange. destruct ub; [|reflexivity]. destruct (x_rep x); reflexivity. Qed.
Lemma lift_type ub x : x_type (lift ub x) = x_type x.
Proof. unfold lift, unrange. destruct ub; [|reflexivity]. destruct (x_rep x); reflexivity. Qed.
Lemma lift_transient ub x : transient (lift ub x) = transient x.
Proof. unfold transient. rewrite lift_edges, lift_rep. reflexivity. Qed.
Lemma lift_refused ub x ev : refused (lift ub x) ev = refused x ev.
Proof. unfold refused. rewrite lift_edges. reflexivity. Qed.
Lemma lift_report ub x d ev : report_at (lift ub x) d ev = report_at x d ev.
Proof. unfold report_at. rewrite lift_rep, lift_follow. reflexivity. Qed.
Lemma lift_rest ub x es : rest_of (lift ub x) es = lift ub (rest_of x es).
Proof. destruct x as [e r f g t]. unfold lift, unrange, rest_of. destruct ub; [|reflexivity]. destruct r; reflexivity. Qed.

Section Run.
Variables kb ub : bool.
Variable a : atm.
Hypothesis W : atm_wf a.
Notation hits := (hitsk kb).

Definition tok_exprs (tk : tok) : list expr :=
  match nth_error a (t_state tk) with Some st => alts (lang a) st (t_core tk) | None => [] end.
Definition smask (tk : tok) : mask := match nth_error a (t_state tk) with Some st => c_mask (st_core st) | None => m_zero end.
Definition dead (tk : tok) : bool := m_empty (c_mask (t_core tk)).
Definition tok_ok (tk : tok) : Prop :=
  exists st, nth_error a (t_state tk) = Some st
    /\ c_follow (t_core tk) = c_follow (st_core st) /\ c_type (t_core tk) = c_type (st_core st)
    /\ (c_mask (t_core tk) = c_mask (st_core st) \/ c_mask (t_core tk) = m_zero)
    /\ (c_type (st_core st) = 0%Z -> c_end (t_core tk) = (-1)%Z)
    /\ (c_type (st_core st) <> 0%Z -> m_empty (c_mask (st_core st)) = false).

Definition content (tk : tok) : bool := m_matches (smask tk) EContent.
Definition gone (tk : tok) : bool := dead tk && negb (ub && content tk).
Definition cx (t : Z) (fresh : bool) (d : nat) (evs : list event) (i : nat) (x : expr) : nat :=
  if (x_type x =? t)%Z then (if transient x && negb fresh then O else hits (lift ub x) d evs i) else O.
Definition contr (t : Z) (fresh : bool) (d : option nat) (evs : list event) (i : nat) (tk : tok) : nat :=
  if gone tk then O else match d with None => O | Some d => list_sum (map (cx t fresh d evs i) (tok_exprs tk)) end.

Lemma list_sum_cons n l : list_sum (n :: l) = (n + list_sum l)%nat.
Proof. reflexivity. Qed.
Lemma list_sum_ext {A} (f g : A -> nat) l : (forall x, In x l -> f x = g x) -> list_sum (map f l) = list_sum (map g l).
Proof. intro H. f_equal. apply map_ext_in. exact H. Qed.
Lemma list_sum_0 {A} (f : A -> nat) l : (forall x, In x l -> f x = O) -> list_sum (map f l) = O.
Proof. induction l as [|x l IH]; intro H; cbn [map]; [reflexivity|]. rewrite list_sum_cons, H, IH; auto with datatypes. Qed.
Lemma list_sum_plus {A} (f g : A -> nat) l : list_sum (map (fun x => f x + g x)%nat l) = (list_sum (map f l) + list_sum (map g l))%nat.
Proof. induction l as [|x l IH]; cbn [map]; [reflexivity|]. rewrite !list_sum_cons, IH. lia. Qed.

Definition quiet (x : expr) (d : nat) (ev : event) : Prop :=
  match x_edges x with [] => report_at x d ev = false | ed :: _ => step_at ed d ev = false end.
Lemma quiet_now x d ev : quiet x d ev -> now x d ev = O.
Proof.
  unfold quiet, now. destruct (x_edges x) as [|ed [|? ?]]; intro H; rewrite ?H; try reflexivity.
  destruct (x_rep x); reflexivity.
Qed.
Lemma quiet_lift x d ev : quiet x d ev -> quiet (lift ub x) d ev.
Proof. unfold quiet. rewrite lift_edges, lift_report. auto. Qed.
Lemma quiet_later x d ev l i : quiet x d ev ->
  hits x d (ev :: l) (S i) = match depth_after d ev with Some d' => if transient x || (kb && refused x ev) then O else hits x d' l i | None => O end.
Proof.
  unfold quiet. intro H. cbn [hitsk]. unfold wait_on. destruct (x_edges x) eqn:E; rewrite H, ?Nat.add_0_r; reflexivity.
Qed.
Lemma gone_dead tk : gone tk = true -> dead tk = true.
Proof. unfold gone. destruct (dead tk); [reflexivity|discriminate]. Qed.
Lemma not_dead tk : dead tk = false -> gone tk = false.
Proof. unfold gone. intros ->. reflexivity. Qed.

Lemma contr_now0 t fr d ev l tk : (forall x, In x (tok_exprs tk) -> quiet x d ev) -> contr t fr (Some d) (ev :: l) 0 tk = O.
Proof.
  intro Q. unfold contr. destruct (gone tk); [reflexivity|]. apply list_sum_0. intros x Hx. unfold cx. cbn [hitsk]. rewrite (quiet_now _ _ _ (quiet_lift _ _ _ (Q x Hx))).
  destruct (_ =? _)%Z; [destruct (_ && _)|]; reflexivity.
Qed.
Definition kept (x : expr) (ev : event) : Prop := kb && refused x ev = false.
Lemma contr_quiet t fr d ev l tk : (forall x, In x (tok_exprs tk) -> quiet x d ev) -> (forall x, In x (tok_exprs tk) -> kept x ev) ->
  contr t fr (Some d) (ev :: l) 0 tk = O /\
  forall i, contr t fr (Some d) (ev :: l) (S i) tk = contr t false (depth_after d ev) l i tk.
Proof.
  intros Q K. unfold contr. destruct (gone tk); [split; reflexivity|]. split.
  - apply list_sum_0. intros x Hx. unfold cx. cbn [hitsk]. rewrite (quiet_now _ _ _ (quiet_lift _ _ _ (Q x Hx))).
    destruct (_ =? _)%Z; [destruct (_ && _)|]; reflexivity.
  - intro i. destruct (depth_after d ev) as [d'|] eqn:E.
    + apply list_sum_ext. intros x Hx. unfold cx. rewrite (quiet_later _ _ _ _ _ (quiet_lift _ _ _ (Q x Hx))), E.
      rewrite lift_transient, lift_refused, (K x Hx), orb_false_r.
      destruct (_ =? _)%Z; [|reflexivity]. destruct (transient x), fr; reflexivity.
    + apply list_sum_0. intros x Hx. unfold cx. rewrite (quiet_later _ _ _ _ _ (quiet_lift _ _ _ (Q x Hx))), E.
      destruct (_ =? _)%Z; [destruct (_ && _)|]; reflexivity.
Qed.

(** ** the expressions of a token *)
Lemma tok_expr_edge tk st : nth_error a (t_state tk) = Some st -> c_type (st_core st) = 0%Z ->
  tok_exprs tk = match st_next st with Some n => map (add_edge (edge_of st)) (lang a n) | None => [] end.
Proof. intros H T. unfold tok_exprs, alts. rewrite H, T. reflexivity. Qed.
Lemma tok_expr_out tk st : nth_error a (t_state tk) = Some st -> c_type (st_core st) <> 0%Z -> tok_exprs tk = [out_of st (t_core tk)].
Proof. intros H T. unfold tok_exprs, alts. rewrite H. destruct (Z.eqb_spec (c_type (st_core st)) 0); [contradiction|reflexivity]. Qed.

Lemma rejects_sub tk e : tok_ok tk -> m_rejects (c_mask (t_core tk)) e = true -> m_rejects (smask tk) e = true.
Proof.
  intros (st & H1 & H2 & H3 & H4 & H5) R. unfold smask. rewrite H1. destruct H4 as [H4|H4]; rewrite H4 in R; [exact R|].
  rewrite m_zero_rejects in R. discriminate.
Qed.

(** a token that does not match: nothing is reported *)
Lemma quiet_mask tk e key d : tok_ok tk -> m_matches (smask tk) e = false ->
  forall x, In x (tok_exprs tk) -> quiet x d (e, key).
Proof.
  intros (st & H1 & H2 & H3 & H4 & H5) M x Hx. unfold smask in M. rewrite H1 in M.
  destruct (proj1 (W _ _ H1)) as [C _ Hn|o f j C Hn Hj|r f t b ee C Ht _ Hn|od C Hn].
  - rewrite (tok_expr_edge _ _ H1) in Hx by (rewrite C; reflexivity). rewrite Hn in Hx. destruct Hx.
  - rewrite (tok_expr_edge _ _ H1) in Hx by (rewrite C; reflexivity). rewrite Hn in Hx.
    apply in_map_iff in Hx. destruct Hx as (y & <- & Hy). unfold quiet. cbn [add_edge rest_of x_edges]. unfold step_at, edge_of. cbn [e_op e_follow e_name].
    rewrite C in *. cbn [c_mask] in *. rewrite sop_of_op. rewrite op_matches in M. cbn [fst]. rewrite M, andb_false_r. reflexivity.
  - rewrite (tok_expr_out _ _ H1) in Hx by (rewrite C; exact Ht). destruct Hx as [<-|[]]. unfold quiet. cbn [out_of x_edges]. unfold report_at, out_of.
    cbn [x_rep]. rewrite C in *. cbn [c_mask] in *. rewrite rep_of_mask. rewrite rep_matches in M. cbn [fst]. rewrite M, andb_false_r. reflexivity.
  - rewrite (tok_expr_edge _ _ H1) in Hx by (rewrite C; reflexivity). rewrite Hn in Hx. destruct Hx.
Qed.
Lemma quiet_far tk ev d : tok_ok tk -> t_follow tk = false -> forall x, In x (tok_exprs tk) -> quiet x (S d) ev.
Proof.
  intros (st & H1 & H2 & H3 & H4 & H5) F x Hx. unfold t_follow in F. rewrite F in H2. symmetry in H2.
  destruct (Z.eq_dec (c_type (st_core st)) 0) as [T|T].
  - rewrite (tok_expr_edge _ _ H1 T) in Hx. destruct (st_next st); [|destruct Hx].
    apply in_map_iff in Hx. destruct Hx as (y & <- & Hy). unfold quiet. cbn [add_edge rest_of x_edges]. unfold step_at, edge_of. cbn [e_op e_follow e_name].
    rewrite H2. reflexivity.
  - rewrite (tok_expr_out _ _ H1 T) in Hx. destruct Hx as [<-|[]]. unfold quiet. cbn [out_of x_edges]. unfold report_at, out_of. cbn [x_follow]. rewrite H2. reflexivity.
Qed.
Lemma quiet_key tk st e key d : nth_error a (t_state tk) = Some st -> c_type (st_core st) = 0%Z ->
  match st_key st with Some k => key_eqb k key | None => true end = false ->
  forall x, In x (tok_exprs tk) -> quiet x d (e, key).
Proof.
  intros H1 T K x Hx. rewrite (tok_expr_edge _ _ H1 T) in Hx. destruct (st_next st); [|destruct Hx].
  apply in_map_iff in Hx. destruct Hx as (y & <- & Hy). unfold quiet. cbn [add_edge rest_of x_edges]. unfold step_at, edge_of. cbn [e_op e_follow e_name snd].
  unfold names. destruct (st_key st); [|discriminate]. rewrite <- key_eqb_same, K, andb_false_r. reflexivity.
Qed.

(** ** the effect of match on a selector *)
Lemma sel_set_toks_same s : sel_set_toks (s_toks s) s = s.
Proof. destruct s; reflexivity. Qed.
Lemma upd_same {A} (x : A) : forall l i, nth_error l i = Some x -> upd i x l = l.
Proof.
  induction l as [|y l IH]; intros [|i] H; cbn [upd nth_error] in *; try discriminate; [congruence|]. rewrite IH; auto.
Qed.
Lemma sel_set_tok_same s j tk : nth_error (s_toks s) j = Some tk -> sel_set_tok j (t_core tk) s = s.
Proof. intro H. unfold sel_set_tok. rewrite H. destruct tk as [c i]. cbn [t_core t_state]. rewrite upd_same by exact H. apply sel_set_toks_same. Qed.

Definition c_reset (c : core) : core := mkCore m_zero (c_follow c) (c_type c) (c_start c) (c_end c).

Section Match.
Variables (s : sel) (j : nat) (tk : tok) (st : pstate) (key : list N).
Hypothesis Hk : s_key s = Some key.
Hypothesis Hj : (j < sc_to (s_scope s))%nat.
Hypothesis Ht : nth_error (s_toks s) j = Some tk.
Hypothesis Hs : nth_error a (t_state tk) = Some st.

Lemma match_quiet :
  m_matches (c_mask (t_core tk)) (s_type s) = false \/
  (c_type (t_core tk) = 0%Z /\ match st_key st with Some k => key_eqb k key | None => true end = false) ->
  sel_match a j s = Ret (if m_rejects (c_mask (t_core tk)) (s_type s) then sel_set_tok j (c_reset (t_core tk)) s else s) 0%Z.
Proof.
  intros [H|[H1 H2]]; unfold sel_match; rewrite Hk; replace (Nat.leb (sc_to (s_scope s)) j) with false by lia; rewrite Ht.
  - rewrite H. cbn [bind]. rewrite Ht. reflexivity.
  - rewrite Hs, H2. cbn [bind]. rewrite Ht, H1. cbn [Z.eqb]. destruct (m_matches _ _); cbn [bind]; rewrite Ht; reflexivity.
Qed.

Lemma match_edge s' :
  m_matches (c_mask (t_core tk)) (s_type s) = true -> m_rejects (c_mask (t_core tk)) (s_type s) = false ->
  c_type (t_core tk) = 0%Z -> c_end (t_core tk) = (-1)%Z ->
  match st_key st with Some k => key_eqb k key | None => true end = true ->
  sel_expand a (st_next st) s = Ret s' tt -> nth_error (s_toks s') j = Some tk -> s_type s' = s_type s ->
  sel_match a j s = Ret s' 0%Z.
Proof.
  intros M R T E K X Ht' Hty. unfold sel_match; rewrite Hk; replace (Nat.leb (sc_to (s_scope s)) j) with false by lia; rewrite Ht, M, Hs, K.
  unfold sel_produce. rewrite Ht. unfold count_down. rewrite E. cbn [Z.eqb Pos.eqb]. rewrite (sel_set_tok_same _ _ _ Ht), X. cbn [bind].
  rewrite Ht', T. cbn [Z.eqb bind]. rewrite Ht', Hty, R. reflexivity.
Qed.

Lemma sel_set_tok_nth c : nth_error (s_toks (sel_set_tok j c s)) j = Some (mkTok c (t_state tk)).
Proof.
  unfold sel_set_tok. rewrite Ht. cbn [sel_set_toks s_toks]. rewrite nth_upd, Nat.eqb_refl, Ht. reflexivity.
Qed.
Lemma sel_set_tok_twice c c' : sel_set_tok j c' (sel_set_tok j c s) = sel_set_tok j c' s.
Proof.
  unfold sel_set_tok at 1. rewrite sel_set_tok_nth. cbn [t_state]. unfold sel_set_tok. rewrite Ht.
  unfold sel_set_toks. cbn [s_stk s_follows s_trig s_toks s_type s_key s_scope s_iter]. f_equal.
  assert (G : forall (l : list tok) k x y, upd k x (upd k y l) = upd k x l).
  { induction l as [|z l IH]; intros [|k] x y; cbn [upd]; try reflexivity. rewrite IH. reflexivity. }
  apply G.
Qed.

Definition after_out : core :=
  let c := fst (count_down (fst (count_down (t_core tk)))) in
  if m_rejects (c_mask c) (s_type s) then c_reset c else c.
Lemma count_down_type c : c_type (fst (count_down c)) = c_type c.
Proof. unfold count_down. destruct (_ =? _)%Z; [reflexivity|]. destruct (_ <? _)%Z; [|reflexivity]. destruct (_ <=? _)%Z; reflexivity. Qed.

Lemma match_out :
  m_matches (c_mask (t_core tk)) (s_type s) = true -> c_type (t_core tk) <> 0%Z -> st_key st = None -> st_next st = None ->
  sel_match a j s = Ret (sel_set_tok j after_out s) (if snd (count_down (fst (count_down (t_core tk)))) then c_type (t_core tk) else 0%Z).
Proof.
  intros M T K X. unfold sel_match; rewrite Hk; replace (Nat.leb (sc_to (s_scope s)) j) with false by lia; rewrite Ht, M, Hs, K.
  unfold sel_produce. rewrite Ht, X. destruct (count_down (t_core tk)) as [c1 g1] eqn:E1.
  assert (T1 : c_type c1 = c_type (t_core tk)) by (rewrite <- (count_down_type (t_core tk)), E1; reflexivity).
  replace (if g1 then sel_expand a None (sel_set_tok j c1 s) else Ret (sel_set_tok j c1 s) tt) with (Ret (sel_set_tok j c1 s) tt)
    by (destruct g1; reflexivity).
  cbn [bind]. rewrite sel_set_tok_nth. cbn [t_core]. rewrite T1. destruct (Z.eqb_spec (c_type (t_core tk)) 0); [contradiction|].
  unfold after_out. rewrite E1. cbn [fst]. destruct (count_down c1) as [c2 g2] eqn:E2. cbn [bind fst snd].
  rewrite sel_set_tok_twice, sel_set_tok_nth. cbn [t_core].
  assert (HT : s_type (sel_set_tok j c2 s) = s_type s) by (unfold sel_set_tok; rewrite Ht; reflexivity).
  rewrite HT. destruct (m_rejects (c_mask c2) (s_type s)); [|reflexivity].
  change (mkCore m_zero (c_follow c2) (c_type c2) (c_start c2) (c_end c2)) with (c_reset c2). rewrite sel_set_tok_twice. reflexivity.
Qed.
End Match.
End Run.
