(** What is reported after a whole element, and for outputs with a range (proofs about the specification of paths). *)
From Coq Require Import Lia ZifyBool ZifyNat.
From Verif Require Import Base XmlScanner PathAtm PathSelect PathSpec PathContext.

(** ** After a whole element *)
Definition unranged (x : expr) : Prop := x_range x = None.
Lemma wait_unranged x d ev : unranged x -> wait_on x d ev = x.
Proof. intro H. unfold wait_on. destruct x as [es r f rg t]. unfold unranged in H. cbn [x_range x_edges] in *. subst rg. destruct es; [|reflexivity]. destruct (report_at _ _ _); reflexivity. Qed.
Lemma rest_unranged x es : unranged x -> unranged (rest_of x es).
Proof. intro H. exact H. Qed.
(** what is reported behind the element for paths that arrive inside *)
Lemma hits_dead : forall l n y k c post j, levels n l = Some 0%nat -> (k <= n)%nat -> kind_of (fst c) = KClose ->
  hits y k (l ++ c :: post) (length l + S j) = 0%nat.
Proof.
  induction l as [|ev l IH]; intros n y k c post j Hl Hk Hc; cbn [levels app length Nat.add hits] in *.
  - injection Hl as ->. assert (k = O) by lia. subst k. unfold depth_after. rewrite Hc. destruct (x_edges y); [reflexivity|]. destruct (step_at _ _ _); reflexivity.
  - destruct (level_after n (kind_of (fst ev))) as [n'|] eqn:E; [|discriminate].
    assert (H1 : match depth_after k ev with Some d' => if transient y then 0 else hits (wait_on y k ev) d' (l ++ c :: post) (length l + S j) | None => 0 end%nat = 0%nat).
    { destruct (depth_after k ev) as [d'|] eqn:Ed; [|reflexivity]. destruct (transient y); [reflexivity|]. apply (IH n'); auto.
      unfold depth_after in Ed. destruct (kind_of (fst ev)); cbn [level_after] in E; try (injection E as <-; injection Ed as <-; lia).
      destruct n; [discriminate|]. injection E as <-. destruct k; [discriminate|]. injection Ed as <-. lia. }
    rewrite H1. destruct (x_edges y) as [|ed es]; [reflexivity|]. destruct (step_at _ _ _); [|reflexivity]. destruct (kind_of (fst ev)); try reflexivity; (rewrite (IH n'); [reflexivity|exact Hl|lia|exact Hc]).
Qed.
Lemma hits_over : forall l n x d c post j, unranged x -> transient x = false -> levels n l = Some 0%nat -> kind_of (fst c) = KClose ->
  hits x (S d + n) (l ++ c :: post) (length l + S j) = hits x d post j.
Proof.
  induction l as [|ev l IH]; intros n x d c post j Hu Ht Hl Hc; cbn [levels app length Nat.add hits] in *.
  - injection Hl as ->. rewrite Nat.add_0_r. unfold depth_after. rewrite Hc, Ht, wait_unranged by exact Hu. destruct (x_edges x); [apply Nat.add_0_r|]. destruct (step_at _ _ _); apply Nat.add_0_r.
  - destruct (level_after n (kind_of (fst ev))) as [n'|] eqn:E; [|discriminate]. rewrite Ht, wait_unranged by exact Hu.
    assert (H2 : match x_edges x with ed :: es => if step_at ed (S (d + n)) ev then match kind_of (fst ev) with KClose => 0 | _ => hits (rest_of x es) 0 (l ++ c :: post) (length l + S j) end else 0 | [] => 0 end%nat = 0%nat).
    { destruct (x_edges x) as [|ed es]; [reflexivity|]. destruct (step_at _ _ _); [|reflexivity]. rewrite (hits_dead l n' _ O c post j Hl (Nat.le_0_l n') Hc). destruct (kind_of (fst ev)); reflexivity. }
    rewrite H2, Nat.add_0_r. unfold depth_after. destruct (kind_of (fst ev)); cbn [level_after] in E; try (injection E as <-; apply (IH n); auto).
    + injection E as <-. rewrite <- (IH (S n) x d c post j) by auto. rewrite (Nat.add_succ_r d n). reflexivity.
    + destruct n; [discriminate|]. injection E as <-. rewrite Nat.add_succ_r. apply IH; auto.
Qed.
Definition no_value (evs : list event) : Prop := match evs with ev :: _ => kind_of (fst ev) <> KValue | [] => True end.
Lemma hits_transient x d evs i : transient x = true -> no_value evs -> hits x d evs i = 0%nat.
Proof.
  intros Ht Hn. destruct evs as [|ev l]; [reflexivity|]. cbn [no_value] in Hn. unfold transient in Ht. cbn [hits].
  assert (Hs : forall ed, e_op ed = SValue -> step_at ed d ev = false).
  { intros ed He. unfold step_at. rewrite He. destruct (kind_of (fst ev)); try contradiction; cbn [sees]; rewrite andb_false_r; reflexivity. }
  destruct (x_edges x) as [|ed es] eqn:E.
  - destruct (x_rep x) eqn:R; try discriminate. destruct i as [|i].
    + unfold now, report_at. rewrite E, R. cbn [reports]. destruct (kind_of (fst ev)); try contradiction; rewrite ?andb_false_r; reflexivity.
    + unfold transient. rewrite E, R. destruct (depth_after d ev); reflexivity.
  - destruct (e_op ed) eqn:O; try discriminate. destruct i as [|i].
    + unfold now. rewrite E. destruct es; [|reflexivity]. rewrite (Hs ed O). destruct (x_rep x); reflexivity.
    + unfold transient. rewrite E, O, (Hs ed O). destruct (depth_after d ev); reflexivity.
Qed.
Lemma hits_without x sub post j d : unranged x -> whole sub -> no_value post -> hits x d (sub ++ post) (length sub + j) = hits x d post j.
Proof.
  intros Hu (o & body & c & -> & Ho & Hc & Hb) Hv. rewrite <- app_comm_cons, <- app_assoc. cbn [app].
  replace (length (o :: body ++ [c]) + j)%nat with (S (length body + S j)) by (cbn [length]; rewrite app_length; cbn [length]; lia).
  destruct (transient x) eqn:T.
  - rewrite !hits_transient; auto. cbn [no_value]. rewrite Ho. discriminate.
  - cbn [hits]. rewrite T, wait_unranged by exact Hu. unfold depth_after at 1. rewrite Ho.
    rewrite <- (hits_over body 0 x d c post j) by auto. rewrite Nat.add_0_r.
    assert (H2 : match x_edges x with ed :: es => if step_at ed d o then hits (rest_of x es) 0 (body ++ c :: post) (length body + S j) else 0 | [] => 0 end%nat = 0%nat).
    { destruct (x_edges x) as [|ed es]; [reflexivity|]. destruct (step_at _ _ _); [|reflexivity]. apply (hits_dead body 0); auto. }
    rewrite H2. apply Nat.add_0_r.
Qed.
Lemma hits_removed : forall pre x d sub post j, unranged x -> whole sub -> no_value post ->
  hits x d (pre ++ sub ++ post) (length pre + (length sub + j)) = hits x d (pre ++ post) (length pre + j).
Proof.
  induction pre as [|ev pre IH]; intros x d sub post j Hu Hw Hv; cbn [app length Nat.add]; [apply hits_without; assumption|]. cbn [hits]. rewrite wait_unranged by exact Hu.
  assert (IH1 : forall y d', unranged y -> hits y d' (pre ++ sub ++ post) (length pre + (length sub + j)) = hits y d' (pre ++ post) (length pre + j)) by (intros; apply IH; assumption).
  f_equal.
  - destruct (depth_after d ev); [|reflexivity]. destruct (transient x); [reflexivity|]. apply IH1. exact Hu.
  - destruct (x_edges x); [reflexivity|]. destruct (step_at _ _ _); [|reflexivity]. destruct (kind_of (fst ev)); try reflexivity; apply IH1; exact Hu.
Qed.

(** the order of the elements without the whole element *)
Lemma ordered_app : forall l l' p n, ordered p n (l ++ l') = true ->
  exists p' n', ordered p' n' l' = true /\ levels n l = Some n' /\ (forall l'', ordered p' n' l'' = true -> ordered p n (l ++ l'') = true)
    /\ (match rev l with ev :: _ => match kind_of (fst ev) with KClose => p' = PBody | _ => True end | [] => p' = p end).
Proof.
  induction l as [|ev l IH]; intros l' p n H; cbn [app ordered levels rev] in *.
  - exists p, n. auto.
  - destruct (phase_after p (kind_of (fst ev))) as [p1|] eqn:Ep; [|discriminate]. destruct (level_after n (kind_of (fst ev))) as [n1|] eqn:En; [|discriminate].
    destruct (IH l' p1 n1 H) as (p' & n' & H1 & H2 & H3 & H4). exists p', n'. split; [exact H1|]. split; [exact H2|]. split; [exact H3|].
    destruct (rev l) as [|e r] eqn:Er; cbn [app].
    + subst p'. destruct (kind_of (fst ev)) eqn:K; try exact Logic.I. destruct p; cbn in Ep; congruence.
    + exact H4.
Qed.
Lemma ordered_weak p n l : p <> PVal -> ordered PBody n l = true -> ordered p n l = true.
Proof.
  revert p n. induction l as [|ev l IH]; intros p n Hp H; [reflexivity|]. cbn [ordered] in *. destruct p; try contradiction; try exact H;
    destruct (kind_of (fst ev)) eqn:K; cbn [phase_after] in *; try discriminate H; try exact H; destruct (level_after n _); try discriminate H; apply IH; try exact H; discriminate.
Qed.
Lemma levels_app : forall l l' n, levels n (l ++ l') = match levels n l with Some m => levels m l' | None => None end.
Proof. induction l as [|ev l IH]; intros l' n; cbn [levels app]; [reflexivity|]. destruct (level_after n _); [apply IH|reflexivity]. Qed.
Lemma levels_up : forall l n m, levels 0 l = Some m -> levels n l = Some (m + n)%nat.
Proof.
  assert (G : forall l k n m, levels k l = Some m -> levels (k + n) l = Some (m + n)%nat).
  { induction l as [|ev l IH]; intros k n m H; cbn [levels] in *; [congruence|]. destruct (kind_of (fst ev)); cbn [level_after] in *; try (apply IH; exact H).
    - change (S (k + n)) with (S k + n)%nat. apply IH. exact H.
    - destruct k as [|k]; [discriminate|]. cbn [Nat.add]. apply IH. exact H. }
  intros l n m H. apply (G l O n m H).
Qed.
Lemma whole_levels sub n : whole sub -> levels n sub = Some n.
Proof.
  intros (o & body & c & -> & Ho & Hc & Hb). cbn [levels]. rewrite Ho. cbn [level_after]. rewrite levels_app, (levels_up body (S n) O Hb). cbn [Nat.add levels]. rewrite Hc. reflexivity.
Qed.
Lemma ordered_removed pre sub post : whole sub -> ordered PStart 0 (pre ++ sub ++ post) = true -> ordered PStart 0 (pre ++ post) = true /\ no_value post.
Proof.
  intros Hw H. destruct (ordered_app _ _ _ _ H) as (p1 & n1 & H1 & L1 & G1 & _). destruct (ordered_app _ _ _ _ H1) as (p2 & n2 & H2 & L2 & G2 & R2).
  pose proof (whole_levels sub n1 Hw) as Lw. assert (n2 = n1) by congruence. subst n2.
  assert (Ep : p2 = PBody). { destruct Hw as (o & body & c & -> & Ho & Hc & Hb). change (o :: body ++ [c]) with ((o :: body) ++ [c]) in R2. rewrite rev_app_distr in R2. cbn [rev app] in R2. rewrite Hc in R2. exact R2. }
  subst p2. split.
  - apply G1. apply ordered_weak; [|exact H2]. intros ->. destruct Hw as (o & body & c & -> & Ho & Hc & Hb). cbn [app ordered] in H1. rewrite Ho in H1. cbn in H1. discriminate.
  - destruct post as [|ev post]; [exact Logic.I|]. cbn [no_value ordered] in *. intros K. rewrite K in H2. cbn in H2. discriminate.
Qed.

(** ** Ranges. [content_at]: the [i]-th element is content of the element at level 0 (or [deep], of its descendants) *)
Definition content_at (deep : bool) (d : nat) (evs : list event) (i : nat) : bool :=
  match nth_error evs i, levels d (firstn i evs) with
  | Some ev, Some k => near k deep && reports RContent (kind_of (fst ev))
  | _, _ => false
  end.
(** the number of such elements before *)
Definition before (deep : bool) (d : nat) (evs : list event) (i : nat) : nat := length (filter (content_at deep d evs) (seq 0 i)).

Lemma filter_seq_S (f : nat -> bool) n : length (filter f (seq 0 (S n))) = ((if f O then 1 else 0) + length (filter (fun i => f (S i)) (seq 0 n)))%nat.
Proof.
  cbn [seq filter]. rewrite <- seq_shift. assert (E : forall l, length (filter f (map S l)) = length (filter (fun i => f (S i)) l)).
  { induction l as [|x l IH]; [reflexivity|]. cbn [map filter]. destruct (f (S x)); cbn [length]; rewrite IH; reflexivity. }
  destruct (f O); cbn [length]; rewrite E; reflexivity.
Qed.
Lemma filter_none (f : nat -> bool) l : (forall x, f x = false) -> length (filter f l) = O.
Proof. intro H. induction l as [|x l IH]; [reflexivity|]. cbn [filter]. rewrite H. exact IH. Qed.
Lemma content_S deep d ev l i : content_at deep d (ev :: l) (S i) = match level_after d (kind_of (fst ev)) with Some d' => content_at deep d' l i | None => false end.
Proof. unfold content_at. cbn [nth_error firstn levels]. destruct (level_after d _); [reflexivity|]. destruct (nth_error l i); reflexivity. Qed.
Lemma depth_level d ev : depth_after d ev = level_after d (kind_of (fst ev)).
Proof. unfold depth_after, level_after. destruct (kind_of (fst ev)); reflexivity. Qed.
Lemma hits_range t deep : forall l i d b e, (i < length l)%nat ->
  hits (mkExpr [] RContent deep (Some (b, e)) t) d l i
  = if content_at deep d l i && (b - 2 * Z.of_nat (before deep d l i) <=? 1)%Z && (2 <=? e - 2 * Z.of_nat (before deep d l i))%Z then 1%nat else 0%nat.
Proof.
  induction l as [|ev l IH]; intros i d b e Hi; [cbn in Hi; lia|]. destruct i as [|i].
  - cbn [hits]. unfold now, report_at. cbn [x_edges x_follow x_rep x_range range_now]. unfold content_at, before. cbn [nth_error firstn levels seq filter length].
    change (Z.of_nat 0) with 0%Z. rewrite !Z.sub_0_r, andb_assoc. reflexivity.
  - cbn [length] in Hi. cbn [hits]. unfold transient. cbn [x_edges x_rep]. rewrite Nat.add_0_r, depth_level. rewrite content_S. unfold before. rewrite filter_seq_S.
    destruct (level_after d (kind_of (fst ev))) as [d'|] eqn:E; [|reflexivity].
    rewrite (filter_ext _ (content_at deep d' l)) by (intro; rewrite content_S, E; reflexivity).
    assert (Ec : content_at deep d (ev :: l) 0 = near d deep && reports RContent (kind_of (fst ev))) by reflexivity.
    unfold wait_on. cbn [x_edges]. unfold report_at. cbn [x_follow x_rep x_range x_type]. rewrite Ec.
    destruct (near d deep && reports RContent (kind_of (fst ev))); cbn [range_next]; rewrite IH by lia; unfold before; [|reflexivity].
    rewrite Nat2Z.inj_add. change (Z.of_nat 1) with 1%Z.
    replace (b - 2 * (1 + Z.of_nat (length (filter (content_at deep d' l) (seq 0 i)))))%Z with (b - 2 - 2 * Z.of_nat (length (filter (content_at deep d' l) (seq 0 i))))%Z by lia.
    replace (e - 2 * (1 + Z.of_nat (length (filter (content_at deep d' l) (seq 0 i)))))%Z with (e - 2 - 2 * Z.of_nat (length (filter (content_at deep d' l) (seq 0 i))))%Z by lia.
    reflexivity.
Qed.
(** a path with one step that waits for another root element *)
Lemma hits_waiting m deep rg t : forall l i d, levels d (firstn i l) <> None -> hits (mkExpr [mkEdge SOpen false m] RContent deep rg t) (S d) l i = 0%nat.
Proof.
  induction l as [|ev l IH]; intros i d Hl; [reflexivity|]. cbn [hits]. destruct i as [|i].
  - unfold now. cbn [x_edges]. reflexivity.
  - unfold wait_on, transient. cbn [x_edges e_op]. unfold step_at. cbn [e_follow e_op e_name near orb andb]. rewrite Nat.add_0_r, depth_level.
    cbn [firstn levels] in Hl. destruct (kind_of (fst ev)); cbn [level_after] in *; try (apply IH; exact Hl). destruct d; [contradiction|]. apply IH. exact Hl.
Qed.
Lemma hits_root m deep rg t o l i : kind_of (fst o) = KOpen -> levels 0 (firstn i l) <> None ->
  hits (mkExpr [mkEdge SOpen false m] RContent deep rg t) 0 (o :: l) (S i) = if names m (snd o) then hits (mkExpr [] RContent deep rg t) 0 l i else 0%nat.
Proof.
  intros Ho Hl. cbn [hits]. unfold depth_after, wait_on, transient, step_at. cbn [x_edges e_op e_follow e_name near orb andb]. rewrite Ho. cbn [sees]. rewrite hits_waiting by exact Hl.
  cbn [andb]. unfold rest_of. reflexivity.
Qed.
