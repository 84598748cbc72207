(** Building the automaton: every path added to it is one path more of the automaton. *)
From Coq Require Import Lia ZifyBool ZifyNat.
From Verif Require Import Base XmlScanner PathAtm PathSelect PathSpec PathTrie PathRun1 PathRun2 PathRun8.

Definition sm {A} (h : A -> nat) (l : list A) : nat := list_sum (map h l).
Lemma sm_app {A} (h : A -> nat) l l' : sm h (l ++ l') = (sm h l + sm h l')%nat.
Proof. unfold sm. induction l as [|x l IH]; cbn [map app]; [reflexivity|]. rewrite !list_sum_cons, IH. lia. Qed.
Lemma sm_map {A B} (h : B -> nat) (g : A -> B) l : sm h (map g l) = sm (fun x => h (g x)) l.
Proof. unfold sm. rewrite map_map. reflexivity. Qed.
Lemma sm_nil {A} (h : A -> nat) : sm h [] = O. Proof. reflexivity. Qed.
Lemma sm_cons {A} (h : A -> nat) x l : sm h (x :: l) = (h x + sm h l)%nat. Proof. reflexivity. Qed.
Lemma sm_ext {A} (h g : A -> nat) l : (forall x, In x l -> h x = g x) -> sm h l = sm g l.
Proof. apply list_sum_ext. Qed.

(** ** the steps that lead from the state [i] to the state [K] *)
Fixpoint paths_f (f : nat) (a : atm) (K i : nat) : list (list edge) :=
  match f with
  | O => []
  | S f =>
      (if Nat.eqb i K then [[]] else []) ++
      match nth_error a i with
      | None => []
      | Some st =>
          match st_link st with Some j => paths_f f a K j | None => [] end ++
          match st_next st with Some j => map (cons (edge_of st)) (paths_f f a K j) | None => [] end
      end
  end.
Definition paths (a : atm) (K i : nat) : list (list edge) := paths_f (S (length a)) a K i.

Lemma next_up a i st j : atm_wf a -> nth_error a i = Some st -> st_next st = Some j -> (i < j < length a)%nat.
Proof. intros W H E. destruct (W i st H) as [Sh _]. destruct Sh as [|o f j' H1 H2 H3| |]; congruence. Qed.
Lemma link_up a i st j : atm_wf a -> nth_error a i = Some st -> st_link st = Some j -> (i < j < length a)%nat.
Proof. intros W H E. destruct (W i st H) as [_ L]. apply L. exact E. Qed.

Lemma paths_f_enough a (W : atm_wf a) K : forall n i f f', (length a - i <= n)%nat -> (length a - i < f)%nat -> (length a - i < f')%nat -> paths_f f a K i = paths_f f' a K i.
Proof.
  induction n; intros i f f' Hn Hf Hf'; (destruct f as [|f]; [lia|]); (destruct f' as [|f']; [lia|]); cbn [paths_f]; f_equal.
  - replace (nth_error a i) with (@None pstate) by (symmetry; apply nth_error_None; lia). reflexivity.
  - destruct (nth_error a i) as [st|] eqn:E; [|reflexivity]. f_equal.
    + destruct (st_link st) as [j|] eqn:L; [|reflexivity]. pose proof (link_up a i st j W E L). apply IHn; lia.
    + destruct (st_next st) as [j|] eqn:L; [|reflexivity]. pose proof (next_up a i st j W E L). f_equal. apply IHn; lia.
Qed.
Lemma paths_eq a (W : atm_wf a) K i : paths a K i =
  (if Nat.eqb i K then [[]] else []) ++
  match nth_error a i with
  | None => []
  | Some st => match st_link st with Some j => paths a K j | None => [] end ++ match st_next st with Some j => map (cons (edge_of st)) (paths a K j) | None => [] end
  end.
Proof.
  unfold paths at 1. rewrite (paths_f_enough a W K (length a) i (S (length a)) (S (S (length a)))) by lia. reflexivity.
Qed.
Lemma paths_up a (W : atm_wf a) K : forall n i, (length a - i <= n)%nat -> (K < i)%nat -> paths a K i = [].
Proof.
  induction n; intros i Hn Hk; rewrite (paths_eq a W); replace (Nat.eqb i K) with false by lia; cbn [app].
  - replace (nth_error a i) with (@None pstate) by (symmetry; apply nth_error_None; lia). reflexivity.
  - destruct (nth_error a i) as [st|] eqn:E; [|reflexivity].
    destruct (st_link st) as [j|] eqn:L; [pose proof (link_up a i st j W E L); rewrite (IHn j) by lia|];
      (destruct (st_next st) as [j'|] eqn:L'; [pose proof (next_up a i st j' W E L'); rewrite (IHn j') by lia|]); reflexivity.
Qed.

(** ** new states at the end of the list of [L] *)
Section Grow.
Variables (a : atm) (L : nat) (stL : pstate) (tl : list pstate).
Hypothesis W : atm_wf a.
Hypothesis HL : nth_error a L = Some stL.
Hypothesis HLl : st_link stL = None.
Hypothesis Htl : tl <> [].
Let len := length a.
Definition grown : atm := atm_upd L (st_setLink len) a ++ tl.

Lemma L_lt : (L < len)%nat. Proof. apply nth_error_Some. congruence. Qed.
Lemma upd_len {A} (x : A) : forall l i, length (upd i x l) = length l.
Proof. intros l i. apply upd_length. Qed.
Lemma grown_len : length grown = (len + length tl)%nat.
Proof. unfold grown, atm_upd. rewrite HL, app_length, upd_len. reflexivity. Qed.
Lemma grown_old i : (i < len)%nat -> i <> L -> nth_error grown i = nth_error a i.
Proof. intros H N. unfold grown, atm_upd. rewrite HL, nth_error_app1 by (rewrite upd_len; exact H). rewrite nth_upd. replace (Nat.eqb L i) with false by lia. reflexivity. Qed.
Lemma grown_L : nth_error grown L = Some (st_setLink len stL).
Proof.
  pose proof L_lt as HLt. unfold grown, atm_upd. rewrite HL, nth_error_app1 by (rewrite upd_len; exact HLt). rewrite nth_upd. rewrite Nat.eqb_refl, HL. reflexivity.
Qed.
Lemma grown_new k : nth_error grown (len + k) = nth_error tl k.
Proof. unfold grown, atm_upd. rewrite HL, nth_error_app2; rewrite upd_len; [f_equal; unfold len; lia|unfold len; lia]. Qed.

Hypothesis Wtl : forall k st, nth_error tl k = Some st -> st_wf (len + length tl) (len + k) st.
Lemma grown_wf : atm_wf grown.
Proof.
  pose proof L_lt as HLt. pose proof grown_len as GL.
  assert (Hp : (0 < length tl)%nat) by (destruct tl; [contradiction|cbn [length]; lia]).
  intros i st Hi. rewrite grown_len. assert (Hlt : (i < length grown)%nat) by (apply nth_error_Some; congruence). rewrite GL in Hlt.
  destruct (Nat.ltb_spec i len) as [Hil|Hil].
  - assert (G : forall st0, nth_error a i = Some st0 -> st_core st = st_core st0 -> st_key st = st_key st0 -> st_next st = st_next st0 ->
                st_shape (len + length tl) i st).
    { intros st0 H0 E1 E2 E3. destruct (W i st0 H0) as [Sh _]. destruct Sh as [|o f j H1 H2 H3|r f t b e H1 H2 H3 H4|od H1 H2].
      - apply sh_dummy; congruence.
      - eapply (sh_edge _ _ _ o f j); try congruence. unfold len in *. lia.
      - eapply (sh_out _ _ _ r f t b e); congruence.
      - eapply (sh_dead _ _ _ od); congruence. }
    destruct (Nat.eq_dec i L) as [->|N].
    + rewrite grown_L in Hi. injection Hi as <-. split; [apply (G stL HL); reflexivity|]. intros j Hj. cbn [st_setLink st_link] in Hj. injection Hj as <-. lia.
    + rewrite grown_old in Hi by assumption. split; [apply (G st Hi); reflexivity|]. intros j Hj. pose proof (link_up a i st j W Hi Hj). fold len in H. lia.
  - replace i with (len + (i - len))%nat in * by lia. rewrite grown_new in Hi. replace (len + (i - len) - len)%nat with (i - len)%nat in * by lia. apply (Wtl _ _ Hi).
Qed.

Definition pre (es : list edge) (x : expr) : expr := rest_of x (es ++ x_edges x).
Lemma pre_nil x : pre [] x = x. Proof. destruct x; reflexivity. Qed.
Lemma pre_add ed es x : add_edge ed (pre es x) = pre (ed :: es) x. Proof. destruct x; reflexivity. Qed.

Lemma sm_alts h LL st c : sm h (alts LL st c) =
  if (c_type (st_core st) =? 0)%Z then match st_next st with Some n => sm (fun x => h (add_edge (edge_of st) x)) (LL n) | None => O end else h (out_of st c).
Proof.
  unfold alts. destruct (_ =? _)%Z; [|unfold sm; cbn [map]; rewrite list_sum_cons; cbn; lia]. destruct (st_next st); [apply sm_map|reflexivity].
Qed.
Lemma edge_type i st j : nth_error a i = Some st -> st_next st = Some j -> (c_type (st_core st) =? 0)%Z = true.
Proof. intros H E. destruct (W i st H) as [Sh _]. destruct Sh as [|o f j' H1 H2 H3|r f t b e H1 H2 H3 H4|]; try congruence. rewrite H1. reflexivity. Qed.

Lemma sum_grow : forall n i h, (len - i <= n)%nat -> (i < len)%nat ->
  sm h (lang grown i) = (sm (fun es => sm (fun x => h (pre es x)) (lang grown len)) (paths a L i) + sm h (lang a i))%nat.
Proof.
  pose proof L_lt as HLt. pose proof grown_wf as GW.
  induction n; intros i h Hn Hi; [lia|].
  destruct (nth_error a i) as [st|] eqn:E; [|apply nth_error_None in E; fold len in E; lia].
  assert (Nx : sm h (alts (lang grown) st (st_core st)) =
     (sm (fun es => sm (fun x => h (pre es x)) (lang grown len)) match st_next st with Some j => map (cons (edge_of st)) (paths a L j) | None => [] end
      + sm h (alts (lang a) st (st_core st)))%nat).
  { rewrite !sm_alts. destruct (st_next st) as [j|] eqn:Ej; [|destruct (_ =? _)%Z; reflexivity].
    rewrite (edge_type i st j E Ej). pose proof (next_up a i st j W E Ej) as Hj. fold len in Hj. rewrite (IHn j) by lia. rewrite sm_map. reflexivity. }
  rewrite (paths_eq a W L i), E, (lang_eq a W i st E).
  destruct (Nat.eqb_spec i L) as [->|Ne].
  - assert (stL = st) by congruence. subst st. rewrite (lang_eq grown GW L _ grown_L). cbn [st_setLink st_core st_key st_next st_link].
    rewrite HLl, !sm_app. change (alts (lang grown) (st_setLink len stL) (st_core stL)) with (alts (lang grown) stL (st_core stL)). rewrite Nx.
    cbn [app]. rewrite sm_cons, !sm_nil. rewrite (sm_ext (fun x => h (pre [] x)) h) by (intros x _; rewrite pre_nil; reflexivity). lia.
  - rewrite (lang_eq grown GW i st) by (rewrite grown_old; assumption). rewrite !sm_app, Nx, sm_nil.
    destruct (st_link st) as [j|] eqn:Ej.
    + pose proof (link_up a i st j W E Ej) as Hj. fold len in Hj. rewrite (IHn j) by lia. lia.
    + rewrite !sm_nil. lia.
Qed.

(** the steps that lead to the old states and to the new ones *)
Lemma paths_old K : (K < len)%nat -> forall n i, (len - i <= n)%nat -> (i < len)%nat -> paths grown K i = paths a K i.
Proof.
  pose proof L_lt as HLt. pose proof grown_wf as GW. intro HK. 
  induction n; intros i Hn Hi; [lia|].
  rewrite (paths_eq a W K i), (paths_eq grown GW K i). f_equal.
  assert (Nx : forall st, nth_error a i = Some st -> match st_next st with Some j => map (cons (edge_of st)) (paths grown K j) | None => [] end =
     match st_next st with Some j => map (cons (edge_of st)) (paths a K j) | None => [] end).
  { intros st E. destruct (st_next st) as [j|] eqn:Ej; [|reflexivity]. pose proof (next_up a i st j W E Ej) as Hj. fold len in Hj. rewrite IHn by lia. reflexivity. }
  destruct (Nat.eq_dec i L) as [->|Ne].
  - rewrite grown_L, HL. cbn [st_setLink st_core st_key st_next st_link]. rewrite HLl.
    rewrite (paths_up grown GW K (length grown) len) by lia. cbn [app]. apply (Nx stL HL).
  - rewrite grown_old by assumption. destruct (nth_error a i) as [st|] eqn:E; [|reflexivity]. f_equal; [|apply (Nx st eq_refl)].
    destruct (st_link st) as [j|] eqn:Ej; [|reflexivity]. pose proof (link_up a i st j W E Ej) as Hj. fold len in Hj. apply IHn; lia.
Qed.
Lemma paths_new K : (len <= K)%nat -> forall n i, (len - i <= n)%nat -> (i < len)%nat ->
  paths grown K i = flat_map (fun es => map (app es) (paths grown K len)) (paths a L i).
Proof.
  pose proof L_lt as HLt. pose proof grown_wf as GW. intro HK. 
  induction n; intros i Hn Hi; [lia|].
  rewrite (paths_eq a W L i), (paths_eq grown GW K i). replace (Nat.eqb i K) with false by lia. cbn [app].
  assert (Nx : forall st, nth_error a i = Some st -> match st_next st with Some j => map (cons (edge_of st)) (paths grown K j) | None => [] end =
     flat_map (fun es => map (app es) (paths grown K len)) match st_next st with Some j => map (cons (edge_of st)) (paths a L j) | None => [] end).
  { intros st E. destruct (st_next st) as [j|] eqn:Ej; [|reflexivity]. pose proof (next_up a i st j W E Ej) as Hj. fold len in Hj. rewrite IHn by lia.
    generalize (paths a L j). induction l as [|es q IHq]; [reflexivity|]. cbn [map flat_map]. rewrite map_app, IHq, map_map. reflexivity. }
  destruct (Nat.eqb_spec i L) as [->|Ne].
  - rewrite grown_L, HL. cbn [st_setLink st_core st_key st_next st_link]. rewrite HLl. cbn [app flat_map]. 
    f_equal; [symmetry; apply map_id|]. exact (Nx stL HL).
  - rewrite grown_old by assumption. destruct (nth_error a i) as [st|] eqn:E; [|reflexivity]. cbn [app]. rewrite flat_map_app. f_equal; [|apply (Nx st eq_refl)].
    destruct (st_link st) as [j|] eqn:Ej; [|reflexivity]. pose proof (link_up a i st j W E Ej) as Hj. fold len in Hj. apply IHn; lia.
Qed.
End Grow.
