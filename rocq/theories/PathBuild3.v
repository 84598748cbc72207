(** Building the automaton with programs of method calls. *)
From Coq Require Import Lia ZifyBool ZifyNat.
From Verif Require Import Base Charset XmlScanner PathAtm PathSelect PathSpec PathProg PathTrie PathRun1 PathRun2 PathRun3 PathRun4 PathRun5 PathRun6 PathRun7 PathRun8 PathRun9 PathBuild PathBuild2.

(** a name that is used as it is *)
Definition usable (cs : charset) (n : list N) : Prop := n <> [] /\ static_key cs n = Ret tt n.
Definition opt_names (n : option (list N)) : list (list N) := match n with Some n => [n] | None => [] end.

Definition range_is (p : pelem) (r : option (Z * Z)) : Prop :=
  match r with None => pe_end p = (-1)%Z | Some (b, e) => pe_start p = b /\ pe_end p = e /\ e <> (-1)%Z end.
Record at_pos (a : atm) (p : pelem) (q : ppos) : Prop := {
  ap_good : good (norm a);
  ap_idx : (pe_idx p < length (norm a))%nat;
  ap_path : paths (norm a) (pe_idx p) 0 = [pp_edges q];
  ap_rep : pe_print p = rep_mask (pp_rep q);
  ap_follow : pe_follow p = pp_follow q;
  ap_range : range_is p (pp_range q) }.
Definition sums (a a' : atm) (E : list expr) : Prop := forall h, sm h (lang (norm a') 0) = (sm h E + sm h (lang (norm a) 0))%nat.

Lemma norm_ne a : a <> [] -> norm a = a.
Proof. destruct a; [contradiction|reflexivity]. Qed.

Lemma doSelect_spec cs o n p q a : at_pos a p q -> (forall m, In m (opt_names n) -> usable cs m) ->
  exists a' p', pe_doSelect cs (op_of o) n p a = Ret a' p' /\ at_pos a' p' (pp_step o n q) /\ sums a a' [] /\ pe_print p' = pe_print p.
Proof.
  intros [A1 A2 A3 A4 A5 A6] Hn.
  assert (K : n <> Some []).
  { destruct n as [m|]; [|discriminate]. destruct (Hn m (or_introl eq_refl)) as [H _]. congruence. }
  assert (E : pe_doSelect cs (op_of o) n p a = let! (a, i) := atm_defineNext (pe_idx p) (op_of o) n (pe_follow p) a in Ret a (pe_selected i p)).
  { unfold pe_doSelect. destruct n as [m|]; [|reflexivity]. destruct (Hn m (or_introl eq_refl)) as [_ ->]. reflexivity. }
  rewrite E.
  destruct (defineNext_spec a (pe_idx p) o n (pe_follow p) (pp_edges q) A1 A2 A3 K) as (a' & i & E' & Ne & S & Hi & Hp).
  rewrite E'. cbn [bind]. exists a', (pe_selected i p). split; [reflexivity|]. destruct S as [S1 S2 S3 S4].
  split; [constructor|split; [|reflexivity]]; rewrite ?(norm_ne a' Ne); auto.
  - cbn [pe_idx pe_selected]. rewrite Hp, A5. reflexivity.
  - intro h. rewrite (norm_ne a' Ne). apply S4.
Qed.
Lemma sums_0 a : sums a a []. Proof. intro h. reflexivity. Qed.
Lemma sums_trans a a' a'' E E' : sums a a' E -> sums a' a'' E' -> sums a a'' (E ++ E').
Proof. intros H1 H2 h. rewrite H2, H1, sm_app. lia. Qed.

Lemma range_spec a p q b e : at_pos a p q -> at_pos a (pe_doRange b e p) (pp_ranged b e q).
Proof.
  intros [A1 A2 A3 A4 A5 A6].
  assert (R : range_is (pe_doRange b e p) (pp_range (pp_ranged b e q))).
  { unfold pp_ranged. cbn [pp_range]. unfold pe_doRange. destruct (pp_range q) as [[b1 e1]|]; cbn [range_is] in A6.
    - destruct A6 as (H1 & H2 & H3). rewrite H1, H2. replace (e1 =? -1)%Z with false by lia. destruct (e <? e1)%Z eqn:L.
      + destruct (e =? -1)%Z eqn:M; cbn [range_is pe_start pe_end]; [lia|splits; lia].
      + destruct (b1 <? b)%Z eqn:B; cbn [range_is pe_start pe_end]; splits; lia.
    - rewrite A6. rewrite Z.eqb_refl. destruct (e =? -1)%Z eqn:M; cbn [range_is pe_start pe_end]; [lia|splits; lia]. }
  assert (F : pe_idx (pe_doRange b e p) = pe_idx p /\ pe_print (pe_doRange b e p) = pe_print p /\ pe_follow (pe_doRange b e p) = pe_follow p)
    by (unfold pe_doRange; destruct (_ =? _)%Z; [|destruct (_ <? _)%Z; [|destruct (_ <? _)%Z]]; splits; reflexivity).
  destruct F as (F1 & F2 & F3). constructor; rewrite ?F1, ?F2, ?F3; auto.
Qed.

Lemma op_spec cs o p q q' E a : at_pos a p q -> (forall m, In m (op_names o) -> usable cs m) -> pp_op o q = Some (q', E) ->
  exists a' p', pe_op cs o p a = Ret a' p' /\ at_pos a' p' q' /\ sums a a' E.
Proof.
  intros A Hn H. destruct o as [n| |n|n v| | |i|i|i j|i|t]; cbn [pp_op pe_op op_names] in *.
  - injection H as <- <-. destruct (doSelect_spec cs SOpen n p q a A Hn) as (a' & p' & E1 & E2 & E3 & _). eauto.
  - injection H as <- <-. destruct (doSelect_spec cs SClose None p q a A (fun m F => match F with end)) as (a' & p' & E1 & E2 & E3 & _). eauto.
  - injection H as <- <-. unfold pe_selectAttribute. destruct (doSelect_spec cs SAttr n p q a A Hn) as (a' & p' & E1 & E2 & E3 & E4). cbn [op_of] in E1. rewrite E1. cbn [bind].
    exists a', (pe_output OpThisValue p'). split; [reflexivity|]. split; [|exact E3]. destruct E2 as [A1 A2 A3 A4 A5 A6]. constructor; auto.
  - injection H as <- <-. unfold pe_ifAttribute.
    destruct (doSelect_spec cs SAttr n p q a A) as (a' & p' & E1 & E2 & E3 & E4); [intros m Hm; apply Hn; apply in_or_app; left; exact Hm|]. cbn [op_of] in E1. rewrite E1. cbn [bind].
    destruct (doSelect_spec cs SValue v p' _ a' E2) as (a'' & p'' & F1 & F2 & F3 & F4); [intros m Hm; apply Hn; apply in_or_app; right; exact Hm|]. cbn [op_of] in F1. rewrite F1.
    exists a'', p''. split; [reflexivity|]. split; [exact F2|]. exact (sums_trans _ _ _ _ _ E3 F3).
  - injection H as <- <-. exists a, (pe_selectContent p). split; [reflexivity|]. split; [|apply sums_0]. destruct A as [A1 A2 A3 A4 A5 A6]. constructor; auto.
  - injection H as <- <-. exists a, (pe_doFollow p). split; [reflexivity|]. split; [|apply sums_0]. destruct A as [A1 A2 A3 A4 A5 A6]. constructor; auto.
  - destruct (_ <? _)%Z eqn:C; [|discriminate]. injection H as <- <-. eexists. eexists.
    unfold pe_TO, int_max. replace (i =? 2147483647)%Z with false by lia. split; [|split; [apply (range_spec a p q _ _ A)|apply sums_0]]. destruct (0 <=? i)%Z; reflexivity.
  - injection H as <- <-. unfold pe_FROM. cbn [pe_opt]. eexists. eexists. split; [reflexivity|]. split; [apply (range_spec a p q _ _ A)|apply sums_0].
  - destruct (_ <? _)%Z eqn:C; [|discriminate]. injection H as <- <-. eexists. eexists.
    unfold pe_RANGE, int_max. replace (j =? 2147483647)%Z with false by lia. split; [|split; [apply (range_spec a p q _ _ A)|apply sums_0]]. destruct (0 <=? j)%Z; reflexivity.
  - destruct (_ <? _)%Z eqn:C; [|discriminate]. injection H as <- <-.
    unfold pe_INDEX, int_max. replace (i =? 2147483647)%Z with false by lia. cbn [pe_opt].
    eexists. eexists. split; [reflexivity|]. split; [apply (range_spec a p q _ _ A)|apply sums_0].
  - destruct (Z.eqb_spec t 0) as [|Ht]; [discriminate|]. injection H as <- <-. destruct A as [A1 A2 A3 A4 A5 A6]. unfold pe_assignType. rewrite A4, A5.
    destruct (defineOutput_spec a (pe_idx p) (pp_rep q) t (pp_follow q) (pe_start p) (pe_end p) (pp_edges q) A1 A2 A3 Ht) as (a' & i & E1 & Ne & S & Hi & Hp).
    rewrite E1. cbn [bind]. eexists. eexists. split; [reflexivity|]. destruct S as [S1 S2 S3 S4]. split.
    + constructor; rewrite ?(norm_ne a' Ne); auto.
    + intro h. rewrite (norm_ne a' Ne), S4. f_equal. f_equal. f_equal. unfold pre, out_expr, rest_of. cbn [x_edges x_rep x_follow x_range x_type]. rewrite app_nil_r. f_equal.
      destruct (pp_range q) as [[b e]|]; cbn [range_is] in A6.
      * destruct A6 as (-> & -> & A7). replace (e =? -1)%Z with false by lia. reflexivity.
      * rewrite A6. reflexivity.
Qed.

Lemma ops_spec cs : forall os p q E a, at_pos a p q -> (forall m, In m (flat_map op_names os) -> usable cs m) -> pp_ops os q = Some E ->
  exists a' p', pe_ops cs os p a = Ret a' p' /\ good (norm a') /\ sums a a' E.
Proof.
  induction os as [|o os IH]; intros p q E a A Hn H; cbn [pp_ops pe_ops flat_map] in *.
  - injection H as <-. exists a, p. split; [reflexivity|]. split; [apply (ap_good _ _ _ A)|apply sums_0].
  - destruct (pp_op o q) as [[q' E1]|] eqn:H1; [|discriminate]. destruct (pp_ops os q') as [E2|] eqn:H2; [|discriminate]. injection H as <-.
    destruct (op_spec cs o p q q' E1 a A) as (a1 & p1 & F1 & F2 & F3); [intros m Hm; apply Hn, in_or_app; left; exact Hm|exact H1|]. rewrite F1. cbn [bind].
    destruct (IH p1 q' E2 a1 F2) as (a2 & p2 & G1 & G2 & G3); [intros m Hm; apply Hn, in_or_app; right; exact Hm|exact H2|].
    exists a2, p2. split; [exact G1|]. split; [exact G2|]. exact (sums_trans _ _ _ _ _ F3 G3).
Qed.
Lemma root_pos a : good (norm a) -> at_pos a pe_root pp_root.
Proof. intro G. constructor; auto; [apply (gd_pos _ G)|apply (gd_root _ G)|reflexivity]. Qed.
Lemma add_spec cs : forall ps E a, good (norm a) -> (forall m, In m (prog_names ps) -> usable cs m) -> paths_of ps = Some E ->
  exists a', add_paths cs ps a = Ret a' tt /\ good (norm a') /\ sums a a' E.
Proof.
  induction ps as [|os ps IH]; intros E a G Hn H; cbn [paths_of add_paths] in *.
  - injection H as <-. exists a. split; [reflexivity|]. split; [exact G|apply sums_0].
  - unfold prog_names in Hn. cbn [flat_map] in Hn. destruct (pp_ops os pp_root) as [E1|] eqn:H1; [|discriminate]. destruct (paths_of ps) as [E2|]; [|discriminate]. injection H as <-.
    destruct (ops_spec cs os pe_root pp_root E1 a (root_pos a G)) as (a1 & p1 & F1 & F2 & F3); [intros m Hm; apply Hn, in_or_app; left; exact Hm|exact H1|]. rewrite F1. cbn [bind].
    destruct (IH E2 a1 F2) as (a2 & G1 & G2 & G3); [intros m Hm; apply Hn, in_or_app; right; exact Hm|reflexivity|].
    exists a2. split; [exact G1|]. split; [exact G2|]. exact (sums_trans _ _ _ _ _ F3 G3).
Qed.

(** the automaton without states behaves as the one with a state for the root only *)
Lemma new_inv_nil kb ub s : sel_new [] = Ret s tt -> Inv kb [] s PStart /\ s_stk s = [] /\ forall evs t i, tot kb ub [] s PStart evs t i = O.
Proof.
  intro H. injection H as <-. split; [|split; [reflexivity|]].
  - constructor; cbn [s_trig s_stk s_toks s_scope s_follows]; auto; try discriminate; try (cbn; lia); try constructor; try (intros [|k]; discriminate); try reflexivity; try (intros tk x []); try (intros ev Hm; cbn in Hm; rewrite ?m_zero_matches in Hm; discriminate).
  - intros. reflexivity.
Qed.
Lemma select_nil evs : ordered PStart 0 evs = true ->
  exists N s rs, (forall f ff, (N <= f)%nat -> (N <= ff)%nat -> select f ff [] evs = Ret s rs) /\ length rs = length evs /\
    forall t i, (i < length evs)%nat -> cnt t (nth i rs []) = O.
Proof.
  intro Ho. assert (W : atm_wf []) by (intros [|i] st H; discriminate).
  destruct (sel_new []) as [s []| | | |] eqn:E; try discriminate E. destruct (new_inv_nil false false s E) as (I & Hs & Ht).
  destruct (run_spec false false [] W eq_refl eq_refl evs s PStart I) as (N & s' & rs & ER & L & H); [rewrite Hs; exact Ho|].
  exists N, s', rs. split; [|split; [exact L|]].
  - intros f ff Hf Hff. unfold select. rewrite E. cbn [bind]. apply ER; assumption.
  - intros t i Hi. rewrite H, Ht by exact Hi. reflexivity.
Qed.

Lemma sm_In {A} (h : A -> nat) : forall l x, sm h l = O -> In x l -> h x = O.
Proof. induction l as [|y l IH]; intros x H []; rewrite sm_cons in H; [subst; lia|apply IH; [lia|assumption]]. Qed.

Theorem paths_select cs ps E evs : (forall m, In m (prog_names ps) -> usable cs m) -> paths_of ps = Some E -> Forall (fun x => wf_expr x = true) E ->
  ordered PStart 0 evs = true ->
  exists a, add_paths cs ps [] = Ret a tt /\ exists N s rs, (forall f ff, (N <= f)%nat -> (N <= ff)%nat -> select f ff a evs = Ret s rs) /\ length rs = length evs /\
    forall t i, (i < length evs)%nat -> cnt t (nth i rs []) = hits_of t E 0 evs i.
Proof.
  intros Hn HE Hw Ho. destruct (add_spec cs ps E [] good_new Hn HE) as (a & A1 & A2 & A3). exists a. split; [exact A1|].
  assert (L0 : forall h : expr -> nat, sm h (lang (norm a) 0) = sm h E) by (intro h; rewrite (A3 h); change (lang (norm []) 0) with (@nil expr); rewrite sm_nil; lia).
  destruct a as [|st a0].
  - assert (L1 : forall h : expr -> nat, sm h E = O) by (intro h; rewrite <- (L0 h); reflexivity).
    destruct (select_nil evs Ho) as (N & s & rs & H1 & H2 & H3). exists N, s, rs. split; [exact H1|]. split; [exact H2|]. intros t i Hi. rewrite H3 by exact Hi. symmetry. apply (L1 (fun x => if (x_type x =? t)%Z then hits x 0 evs i else 0%nat)).
  - set (a := st :: a0) in *. change (norm a) with a in *.
    destruct (select_spec a evs (gd_wf _ A2) (gd_pos _ A2)) as (N & s & rs & H1 & H2 & H3); [|exact Ho|].
    + intros x Hx. destruct (wf_expr x) eqn:Wx; [reflexivity|exfalso]. 
      set (h := fun x => if wf_expr x then O else 1%nat).
      assert (Z0 : sm h E = O) by (apply (list_sum_0 h E); intros y Hy; unfold h; rewrite Forall_forall in Hw; rewrite (Hw y Hy); reflexivity).
      rewrite <- (L0 h) in Z0. pose proof (sm_In h (lang a 0) x Z0 Hx) as Hq. unfold h in Hq. rewrite Wx in Hq. discriminate.
    + exists N, s, rs. split; [exact H1|]. split; [exact H2|]. intros t i Hi. rewrite H3 by exact Hi. apply (L0 (fun x => if (x_type x =? t)%Z then hits x 0 evs i else 0%nat)).
Qed.
