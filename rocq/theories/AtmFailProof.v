(** Building the path automaton when memory cannot be allocated: the states that a call leaves behind without effect. *)
From Coq Require Import Lia ZifyBool ZifyNat.
From Verif Require Import Base Charset XmlScanner PathAtm PathSelect PathSpec PathProg PathTrie PathRun1 PathRun2 PathRun3 PathRun4 PathRun5 PathRun6 PathRun7 PathRun8 PathRun9 PathBuild PathBuild2 PathBuild3 PathContext AtmFail.

Definition harmless (m : option place) : Prop := m <> Some PlLink /\ m <> Some PlName.

Lemma grow_null a L stL tl : good a -> nth_error a L = Some stL -> st_link stL = None -> tl <> [] ->
  (forall st, In st tl -> st_link st = None /\ st_next st = None /\ st_key st = None /\ (st_core st = core_new \/ exists o, st_core st = mkCore (m_op (op_of o)) false 0 0 (-1))) ->
  step_to a (grown a L tl) [].
Proof.
  intros G HL HLl Htl H. set (a' := grown a L tl). pose proof (L_lt a L stL HL) as HLt. pose proof (gd_pos _ G) as Hp.
  assert (Wtl : forall k st, nth_error tl k = Some st -> st_wf (length a + length tl) (length a + k) st).
  { intros k st Hk. destruct (H st (nth_error_In _ _ Hk)) as (H1 & H2 & H3 & H4). split; [|rewrite H1; discriminate].
    destruct H4 as [H4|[o H4]]; [apply sh_dummy; assumption|apply (sh_dead _ _ _ o); assumption]. }
  pose proof (grown_wf a L stL tl (gd_wf _ G) HL Htl Wtl) as GW. fold a' in GW.
  assert (X : exists st0, nth_error tl 0 = Some st0) by (destruct tl as [|x l]; [contradiction|exists x; reflexivity]).
  destruct X as (st0 & Et). destruct (H st0 (nth_error_In _ _ Et)) as (H1 & H2 & H3 & H4).
  assert (N0 : nth_error a' (length a) = Some st0) by (pose proof (grown_new a L stL tl HL 0) as Q; rewrite Nat.add_0_r in Q; unfold a'; rewrite Q; exact Et).
  assert (P0 : paths a' (length a) (length a) = [[]]) by (rewrite (paths_eq a' GW), N0, Nat.eqb_refl, H1, H2; reflexivity).
  constructor.
  - apply (g_good a L stL G HL HLl tl Htl Wtl); [| | | |exact P0].
    + intros st Hs. destruct (H st Hs) as (_ & _ & Q & _). rewrite Q. discriminate.
    + intros st Hs _. apply (H st Hs).
    + intros st Hs. apply (H st Hs).
    + intros k st j Hk Hj. destruct (H st (nth_error_In _ _ Hk)) as (_ & Q & _). congruence.
  - unfold a'. rewrite (grown_len a L stL tl HL). lia.
  - intros K HK. apply (g_old a L stL G HL HLl tl Htl Wtl K HK).
  - intro h. unfold a'. rewrite (sum_grow a L stL tl (gd_wf _ G) HL HLl Htl Wtl (length a) 0) by lia. fold a'.
    replace (lang a' (length a)) with (@nil expr); [unfold sm at 1; rewrite list_sum_0 by reflexivity; reflexivity|].
    symmetry. rewrite (lang_eq a' GW _ _ N0), H1, app_nil_r. unfold alts. rewrite H2. destruct H4 as [->|[o ->]]; reflexivity.
Qed.

Lemma step_refl a : good a -> step_to a a []. Proof. intro G. constructor; auto. Qed.

Lemma to_sums a a' : a' <> [] -> step_to (norm a) a' [] -> good (norm a') /\ sums a a' [].
Proof. intros Ne [S1 S2 S3 S4]. unfold sums. rewrite (norm_ne a' Ne). split; [exact S1|]. intro h. apply S4. Qed.
Lemma grown_ne a L tl : tl <> [] -> grown a L tl <> [].
Proof. unfold grown. intros H E. apply app_eq_nil in E. tauto. Qed.

(** a call that fails without harm *)
Definition failed {A} (o : out atm A) (a : atm) : Prop := exists a', o = Throw a' /\ good (norm a') /\ sums a a' [].

Lemma f_next_spec m a i o key follow es : good (norm a) -> (i < length (norm a))%nat -> paths (norm a) i 0 = [es] -> key <> Some [] -> harmless m ->
  (exists a' n, f_defineNext m (Some i) (op_of o) key follow a = Ret a' (Some n) /\ atm_defineNext i (op_of o) key follow a = Ret a' n) \/
  (m <> None /\ failed (f_defineNext m (Some i) (op_of o) key follow a) a).
Proof.
  intros G Hi Hp Hk [M1 M2].
  destruct (fails PlFirst m && match a with [] => true | _ => false end) eqn:Ff.
  { apply andb_prop in Ff. destruct Ff as [Ff Fa]. destruct a; [|discriminate]. right. split; [destruct m; discriminate|]. exists []. split; [unfold f_defineNext, f_first, f_push; rewrite Ff; reflexivity|].
    split; [exact G|apply sums_0]. }
  assert (E : f_defineNext m (Some i) (op_of o) key follow a =
    let a := norm a in
    let! (a, found) := atm_find (S (length a)) (op_of o) key follow (Some i) a in
    match found with
    | Some n => Ret a n
    | None =>
          let! (a, i) := atm_last (S (length a)) i a in
          let! (a, j) := f_alt m i a in
          let! (a, _) := f_push (fails PlNext m) a in
          let n := (length a - 1)%nat in
          let! (a, _) := f_define m j (op_of o) key n follow a in
          Ret a (Some n)
    end).
  { unfold f_defineNext, f_first, f_push. destruct a as [|x a]; [|reflexivity]. rewrite andb_true_r in Ff. rewrite Ff. cbn [norm length app bind] in *. assert (i = O) by lia. subst i. reflexivity. }
  assert (E' : atm_defineNext i (op_of o) key follow a =
    let a := norm a in
    let! (a, found) := atm_find (S (length a)) (op_of o) key follow (Some i) a in
    match found with
    | Some (Some n) => Ret a n
    | Some None => Undef
    | None =>
        let! (a, i) := atm_last (S (length a)) i a in
        let! (a, j) := atm_alt i a in
        let a := a ++ [st_new] in
        let n := (length a - 1)%nat in
        Ret (atm_upd j (st_defineNext (op_of o) key n follow) a) n
    end).
  { unfold atm_defineNext. destruct a as [|x a]; [|reflexivity]. cbn [norm length] in *. assert (i = O) by lia. subst i. reflexivity. }
  rewrite E, E'. clear E E'. cbv zeta. set (b := norm a) in *.
  destruct (find_spec b (op_of o) key follow G Hk (length b) i (S (length b))) as [Fd|(j & st & n & k & Fd & _)]; try lia; rewrite Fd; cbn [bind]; [|left; eauto].
  destruct (last_spec b G (length b) i (S (length b))) as (L & stL & L1 & L2 & L3 & L4); try lia. rewrite L1. cbn [bind].
  unfold f_alt, atm_alt. rewrite L2, (isempty_never b L stL G L2). cbn [atm_last]. rewrite L2, L3. cbn [bind].
  unfold f_push at 1. replace (fails PlLink m) with false by (destruct m as [[]|]; try reflexivity; contradiction). cbn [bind].
  unfold f_push. destruct (fails PlNext m) eqn:Fn; cbn [bind].
  - right. split; [destruct m; discriminate|]. exists (grown b L [st_new]). split; [reflexivity|]. apply to_sums; [apply grown_ne; discriminate|].
    apply (grow_null b L stL [st_new] G L2 L3); [discriminate|]. intros st [<-|[]]. splits; try reflexivity. left. reflexivity.
  - unfold f_define. destruct key as [k|]; cbn [bind]; [|left; eauto].
    replace (fails PlName m) with false by (destruct m as [[]|]; try reflexivity; contradiction).
    destruct (fails PlKey m) eqn:Fk; cbn [bind]; [|left; eauto].
    right. split; [destruct m; discriminate|].
    set (dead := mkSt (mkCore (m_op (op_of o)) false 0 0 (-1)) None None None).
    exists (grown b L [dead; st_new]). split.
    + f_equal. rewrite <- app_assoc. cbn [app]. unfold grown. rewrite <- (atm_upd_len L (st_setLink (length b)) b) at 1. rewrite atm_upd_snoc. reflexivity.
    + apply to_sums; [apply grown_ne; discriminate|]. apply (grow_null b L stL _ G L2 L3); [discriminate|]. intros st [<-|[<-|[]]]; splits; try reflexivity; [right; exists o; reflexivity|left; reflexivity].
Qed.

Lemma f_output_spec m a i r t follow b e es : good (norm a) -> (i < length (norm a))%nat -> paths (norm a) i 0 = [es] -> harmless m ->
  (exists a' n, f_defineOutput m (Some i) (rep_mask r) t follow b e a = Ret a' (Some n) /\ atm_defineOutput i (rep_mask r) t follow b e a = Ret a' n) \/
  (m <> None /\ failed (f_defineOutput m (Some i) (rep_mask r) t follow b e a) a).
Proof.
  intros G Hi Hp [M1 M2].
  destruct (fails PlFirst m && match a with [] => true | _ => false end) eqn:Ff.
  { apply andb_prop in Ff. destruct Ff as [Ff Fa]. destruct a; [|discriminate]. right. split; [destruct m; discriminate|]. exists []. split; [unfold f_defineOutput, f_first, f_push; rewrite Ff; reflexivity|].
    split; [exact G|apply sums_0]. }
  left.
  assert (E : f_defineOutput m (Some i) (rep_mask r) t follow b e a =
    let a := norm a in
    if Nat.leb (length a) i then Throw a
    else let! (a, j) := f_alt m i a in Ret (atm_upd j (st_defineOutput (rep_mask r) t follow b e) a) (Some j)).
  { unfold f_defineOutput, f_first, f_push. destruct a as [|x a]; [|reflexivity]. rewrite andb_true_r in Ff. rewrite Ff. cbn [norm length app bind] in *. assert (i = O) by lia. subst i. reflexivity. }
  assert (E' : atm_defineOutput i (rep_mask r) t follow b e a =
    let a := norm a in
    if Nat.leb (length a) i then Throw a
    else let! (a, j) := atm_alt i a in Ret (atm_upd j (st_defineOutput (rep_mask r) t follow b e) a) j).
  { unfold atm_defineOutput. destruct a as [|x a]; [|reflexivity]. cbn [norm length] in *. assert (i = O) by lia. subst i. reflexivity. }
  rewrite E, E'. cbv zeta. set (q := norm a) in *. replace (Nat.leb (length q) i) with false by lia.
  destruct (nth_error q i) as [sti|] eqn:Ei; [|apply nth_error_None in Ei; lia].
  destruct (last_spec q G (length q) i (S (length q))) as (L & stL & L1 & L2 & L3 & L4); try lia.
  unfold f_alt, atm_alt. rewrite Ei, (isempty_never q i sti G Ei), L1. cbn [bind].
  unfold f_push. replace (fails PlLink m) with false by (destruct m as [[]|]; try reflexivity; contradiction). cbn [bind]. eauto.
Qed.

(** ** path elements *)
Definition with_idx (p : felem) (i : nat) : pelem := mkPe i (pe_start (fe_rest p)) (pe_end (fe_rest p)) (pe_follow (fe_rest p)) (pe_print (fe_rest p)).
Definition fat (a : atm) (p : felem) (q : ppos) : Prop := exists i, fe_idx p = Some i /\ at_pos a (with_idx p i) q.

(** what a call on a path element does to the memory: it is done as with enough memory, or it failed and has changed nothing of what is selected *)
Definition somes (l : list (option place)) : nat := length (filter (fun m => match m with Some _ => true | None => false end) l).
Definition done_or (s : fw) (o : out fw felem) (q' : ppos) (E : list expr) : Prop :=
  (exists s' p', o = Ret s' p' /\ fat (fw_atm s') p' q' /\ sums (fw_atm s) (fw_atm s') E /\ Forall harmless (fw_ans s') /\ (somes (fw_ans s') <= somes (fw_ans s))%nat) \/
  (exists s', o = Throw s' /\ good (norm (fw_atm s')) /\ sums (fw_atm s) (fw_atm s') [] /\ Forall harmless (fw_ans s') /\ (somes (fw_ans s') < somes (fw_ans s))%nat).

Lemma next_ans (l : list (option place)) : Forall harmless l -> exists m r, match l with [] => (None, []) | m :: r => (m, r) end = (m, r) /\ harmless m /\ Forall harmless r /\
  (m <> None -> somes r < somes l)%nat /\ (somes r <= somes l)%nat.
Proof.
  intro H. destruct l as [|m r].
  - exists None, []. splits; auto; [split; discriminate|contradiction].
  - inversion H; subst. exists m, r. unfold somes. destruct m; cbn [filter length]; splits; auto; try lia; intro Q; contradiction.
Qed.

Lemma f_doSelect_spec cs o n p q s : fat (fw_atm s) p q -> (forall m, In m (opt_names n) -> usable cs m) -> Forall harmless (fw_ans s) ->
  done_or s (fe_doSelect cs (op_of o) n p s) (pp_step o n q) [].
Proof.
  intros (i & Hi & A) Hn Ha.
  destruct (doSelect_spec cs o n (with_idx p i) q (fw_atm s) A Hn) as (a1 & p1 & E1 & E2 & E3 & E4).
  assert (K : n <> Some []).
  { destruct n as [m|]; [|discriminate]. destruct (Hn m (or_introl eq_refl)) as [H _]. congruence. }
  assert (E : fe_doSelect cs (op_of o) n p s = let! (s, i) := f_call (fun m => f_defineNext m (fe_idx p) (op_of o) n (pe_follow (fe_rest p))) s in
    Ret s (mkFe i (pe_selected 0 (fe_rest p)))).
  { unfold fe_doSelect. destruct n as [m|]; [|reflexivity]. destruct (Hn m (or_introl eq_refl)) as [_ ->]. reflexivity. }
  assert (E5 : pe_doSelect cs (op_of o) n (with_idx p i) (fw_atm s) = let! (a, j) := atm_defineNext i (op_of o) n (pe_follow (fe_rest p)) (fw_atm s) in Ret a (pe_selected j (with_idx p i))).
  { unfold pe_doSelect. destruct n as [m|]; [|reflexivity]. destruct (Hn m (or_introl eq_refl)) as [_ ->]. reflexivity. }
  rewrite E. unfold f_call. destruct (next_ans _ Ha) as (m & r & -> & Hm & Hr & Hlt & Hle). rewrite Hi.
  destruct A as [A1 A2 A3 A4 A5 A6]. cbn [with_idx pe_idx] in A2, A3.
  destruct (f_next_spec m (fw_atm s) i o n (pe_follow (fe_rest p)) (pp_edges q) A1 A2 A3 K Hm) as [(a' & j & F1 & F2)|[F0 (a' & F1 & F2 & F3)]]; rewrite F1; cbn [bind].
  - left. rewrite F2 in E5. cbn [bind] in E5. assert (Ea : a1 = a' /\ p1 = pe_selected j (with_idx p i)) by (split; congruence). destruct Ea as [-> ->].
    eexists. eexists. split; [reflexivity|]. cbn [fw_atm fw_ans]. split; [|splits; auto]. exists j. split; [reflexivity|exact E2].
  - right. exists (mkFw a' r). splits; auto.
Qed.

Lemma fat_same a p q p' q' : fat a p q -> (forall i, at_pos a (with_idx p i) q -> at_pos a (with_idx p' i) q') -> fe_idx p' = fe_idx p -> fat a p' q'.
Proof. intros (i & Hi & A) H E. exists i. split; [congruence|]. apply H, A. Qed.

Lemma with_range p b e i : pe_doRange b e (with_idx p i) = with_idx (mkFe None (pe_doRange b e (fe_rest p))) i.
Proof.
  destruct p as [ix [i0 b0 e0 f0 k0]]. unfold pe_doRange, with_idx. cbn [fe_rest pe_start pe_end pe_follow pe_print pe_idx].
  destruct (e0 =? -1)%Z; [reflexivity|]. destruct (e <? e0)%Z; [reflexivity|]. destruct (b0 <? b)%Z; reflexivity.
Qed.
Lemma f_op_spec cs o p q q' E s : fat (fw_atm s) p q -> (forall m, In m (op_names o) -> usable cs m) -> pp_op o q = Some (q', E) -> Forall harmless (fw_ans s) ->
  done_or s (fe_op cs o p s) q' E.
Proof.
  intros A Hn H Ha.
  assert (Pure : forall op r, op = Some r -> 
     (forall i, pe_op cs o (with_idx p i) (fw_atm s) = Ret (fw_atm s) (with_idx (mkFe None r) i)) -> done_or s (fe_with op p s) q' E).
  { intros op r -> Hr. destruct A as (i & Hi & A). destruct (op_spec cs o _ q q' E (fw_atm s) A Hn H) as (a1 & p1 & E1 & E2 & E3). rewrite Hr in E1. injection E1 as <- <-.
    left. exists s, (mkFe (fe_idx p) r). splits; auto. exists i. split; [exact Hi|exact E2]. }
  destruct o as [n| |n|n v| | |i|i|i j|i|t]; cbn [pp_op fe_op op_names fe_rest] in *.
  - injection H as <- <-. apply (f_doSelect_spec cs SOpen n); assumption.
  - injection H as <- <-. apply (f_doSelect_spec cs SClose None); try assumption; try (intros m []; fail).
  - injection H as <- <-. destruct (f_doSelect_spec cs SAttr n _ q s A Hn Ha) as [(s' & p' & E1 & E2 & E3 & E4 & E5)|(s' & E1 & E2 & E3 & E4 & E5)]; cbn [op_of] in E1; rewrite E1; cbn [bind].
    + left. eexists. eexists. split; [reflexivity|]. splits; auto. destruct E2 as (i & Hi & [A1 A2 A3 A4 A5 A6]). exists i. split; [exact Hi|]. constructor; auto.
    + right. exists s'. splits; auto.
  - injection H as <- <-.
    assert (Hn1 : forall m, In m (opt_names n) -> usable cs m) by (intros m Hm; apply Hn; apply in_or_app; left; exact Hm).
    assert (Hn2 : forall m, In m (opt_names v) -> usable cs m) by (intros m Hm; apply Hn; apply in_or_app; right; exact Hm).
    destruct (f_doSelect_spec cs SAttr n _ q s A Hn1 Ha) as [(s' & p' & E1 & E2 & E3 & E4 & E5)|(s' & E1 & E2 & E3 & E4 & E5)]; cbn [op_of] in E1; rewrite E1; cbn [bind].
    + destruct (f_doSelect_spec cs SValue v p' _ s' E2 Hn2 E4) as [(s2 & p2 & F1 & F2 & F3 & F4 & F5)|(s2 & F1 & F2 & F3 & F4 & F5)]; cbn [op_of] in F1; rewrite F1.
      * left. exists s2, p2. splits; auto; [exact (sums_trans _ _ _ _ _ E3 F3)|lia].
      * right. exists s2. splits; auto; [exact (sums_trans _ _ _ _ _ E3 F3)|lia].
    + right. exists s'. splits; auto.
  - eapply Pure; reflexivity.
  - eapply Pure; reflexivity.
  - destruct (_ <? _)%Z eqn:C; [|discriminate]. cbn [pe_op] in Pure. unfold pe_TO, pe_doCount, int_max in *. replace (i =? 2147483647)%Z with false in * by lia.
    destruct (0 <=? i)%Z; (eapply Pure; [reflexivity|]; intro k; cbn [pe_opt]; rewrite with_range; reflexivity).
  - eapply Pure; [reflexivity|]. intro k. cbn [pe_op]. unfold pe_FROM, pe_doStart. cbn [pe_opt]. rewrite with_range. reflexivity.
  - destruct (_ <? _)%Z eqn:C; [|discriminate]. cbn [pe_op] in Pure. unfold pe_RANGE, int_max in *. replace (j =? 2147483647)%Z with false in * by lia.
    destruct (0 <=? j)%Z; (eapply Pure; [reflexivity|]; intro k; cbn [pe_opt]; rewrite with_range; reflexivity).
  - destruct (_ <? _)%Z eqn:C; [|discriminate]. cbn [pe_op] in Pure. unfold pe_INDEX, int_max in *. replace (i =? 2147483647)%Z with false in * by lia.
    eapply Pure; [reflexivity|]; intro k; cbn [pe_opt]; rewrite with_range; reflexivity.
  - destruct p as [ix [i0 b0 e0 f0 k0]]. cbn [with_idx fe_rest fe_idx pe_start pe_end pe_follow pe_print] in *.
    destruct A as (i & Hi & A). pose proof A as [A1 A2 A3 A4 A5 A6]. cbn [fe_idx] in Hi. subst ix. cbn [with_idx fe_rest pe_idx pe_start pe_end pe_follow pe_print] in *.
    destruct (op_spec cs (BOut t) _ q q' E (fw_atm s) A Hn H) as (a1 & p1 & E1 & E2 & E3). cbn [pe_op] in E1. unfold pe_assignType in E1. cbn [with_idx fe_rest pe_idx pe_start pe_end pe_follow pe_print] in E1.
    unfold f_call. destruct (next_ans _ Ha) as (m & r & -> & Hm & Hr & Hlt & Hle). subst k0.
    destruct (f_output_spec m (fw_atm s) i (pp_rep q) t f0 b0 e0 (pp_edges q) A1 A2 A3 Hm) as [(a' & j & F1 & F2)|[F0 (a' & F1 & F2 & F3)]]; cbn [fe_idx]; rewrite F1; cbn [bind].
    + left. rewrite F2 in E1. cbn [bind] in E1. injection E1 as <- <-. eexists. eexists. split; [reflexivity|]. cbn [fw_atm fw_ans]. splits; auto. exists j. split; [reflexivity|]. exact E2.
    + right. exists (mkFw a' r). splits; auto.
Qed.

(** ** paths *)
Lemma pp_ops_firstn : forall os q E n, pp_ops os q = Some E -> exists E' E'', pp_ops (firstn n os) q = Some E' /\ E = E' ++ E''.
Proof.
  induction os as [|o os IH]; intros q E n H; destruct n as [|n]; cbn [firstn pp_ops] in *; try (exists [], E; split; reflexivity).
  - destruct (pp_op o q) as [[q' E1]|]; [|discriminate]. destruct (pp_ops os q') as [E2|] eqn:H2; [|discriminate]. injection H as <-.
    destruct (IH q' E2 n H2) as (E' & E'' & -> & ->). exists (E1 ++ E'), E''. split; [reflexivity|apply app_assoc].
Qed.

Lemma f_path_spec cs : forall os p q E s, fat (fw_atm s) p q -> (forall m, In m (flat_map op_names os) -> usable cs m) -> pp_ops os q = Some E -> Forall harmless (fw_ans s) ->
  exists s' n E', f_path cs os p s = Ret s' n /\ (n <= length os)%nat /\ pp_ops (firstn n os) q = Some E' /\ good (norm (fw_atm s')) /\ sums (fw_atm s) (fw_atm s') E' /\
    Forall harmless (fw_ans s') /\ ((if Nat.eqb n (length os) then 0 else 1) + somes (fw_ans s') <= somes (fw_ans s))%nat.
Proof.
  induction os as [|o os IH]; intros p q E s A Hn H Ha; cbn [pp_ops f_path flat_map] in *.
  - exists s, O, []. destruct A as (i & _ & A). splits; auto; [apply (ap_good _ _ _ A)|apply sums_0].
  - destruct (pp_op o q) as [[q' E1]|] eqn:H1; [|discriminate]. destruct (pp_ops os q') as [E2|] eqn:H2; [|discriminate].
    assert (Hn1 : forall m, In m (op_names o) -> usable cs m) by (intros m Hm; apply Hn, in_or_app; left; exact Hm).
    destruct (f_op_spec cs o p q q' E1 s A Hn1 H1 Ha) as [(s1 & p1 & F1 & F2 & F3 & F4 & F5)|(s1 & F1 & F2 & F3 & F4 & F5)]; rewrite F1.
    + destruct (IH p1 q' E2 s1 F2) as (s2 & n & E' & G1 & G2 & G3 & G4 & G5 & G6 & G7); [intros m Hm; apply Hn, in_or_app; right; exact Hm|exact H2|exact F4|].
      rewrite G1. cbn [bind]. exists s2, (S n), (E1 ++ E'). cbn [firstn pp_ops length]. rewrite H1, G3. splits; auto; [lia|exact (sums_trans _ _ _ _ _ F3 G5)|].
      change (Nat.eqb (S n) (S (length os))) with (Nat.eqb n (length os)). lia.
    + exists s1, O, []. cbn [firstn pp_ops length Nat.eqb]. splits; auto; lia.
Qed.

(** the calls that returned *)
Definition cut (ns : list nat) (ps : list (list pathop)) : list (list pathop) := map (fun x => firstn (fst x) (snd x)) (combine ns ps).
Definition unfinished (ns : list nat) (ps : list (list pathop)) : nat := length (filter (fun x => negb (Nat.eqb (fst x) (length (snd x)))) (combine ns ps)).
Lemma f_paths_spec cs : forall ps E s, good (norm (fw_atm s)) -> (forall m, In m (prog_names ps) -> usable cs m) -> paths_of ps = Some E -> Forall harmless (fw_ans s) ->
  exists s' ns E', f_paths cs ps s = Ret s' ns /\ length ns = length ps /\ paths_of (cut ns ps) = Some E' /\ incl E' E /\ good (norm (fw_atm s')) /\ sums (fw_atm s) (fw_atm s') E' /\
    Forall harmless (fw_ans s') /\ (unfinished ns ps + somes (fw_ans s') <= somes (fw_ans s))%nat.
Proof.
  induction ps as [|os ps IH]; intros E s G Hn H Ha; cbn [paths_of f_paths] in *.
  - exists s, [], []. splits; auto; [apply incl_nil_l|apply sums_0].
  - unfold prog_names in Hn. cbn [flat_map] in Hn. destruct (pp_ops os pp_root) as [E1|] eqn:H1; [|discriminate]. destruct (paths_of ps) as [E2|] eqn:H2; [|discriminate]. injection H as <-.
    assert (A : fat (fw_atm s) fe_root pp_root) by (exists O; split; [reflexivity|]; exact (root_pos _ G)).
    destruct (f_path_spec cs os fe_root pp_root E1 s A) as (s1 & n & E1' & F1 & F2 & F3 & F4 & F5 & F6 & F7); [intros m Hm; apply Hn, in_or_app; left; exact Hm|exact H1|exact Ha|].
    rewrite F1. cbn [bind].
    destruct (IH E2 s1 F4) as (s2 & ns & E2' & G1 & G2 & G3 & G4 & G5 & G6 & G7 & G8); [intros m Hm; apply Hn, in_or_app; right; exact Hm|reflexivity|exact F6|].
    rewrite G1. cbn [bind]. exists s2, (n :: ns), (E1' ++ E2'). unfold cut, unfinished in *. cbn [combine map fst snd paths_of length filter]. rewrite F3, G3. splits; auto.
    + destruct (pp_ops_firstn os pp_root E1 n H1) as (E' & E'' & Q1 & Q2). rewrite F3 in Q1. injection Q1 as <-. subst E1.
      apply incl_app; [apply incl_appl, incl_appl, incl_refl|apply incl_appr; exact G4].
    + exact (sums_trans _ _ _ _ _ F5 G6).
    + destruct (Nat.eqb n (length os)); cbn [negb length]; lia.
Qed.

Lemma select_sums a E evs : good (norm a) -> sums [] a E -> Forall (fun x => wf_expr x = true) E -> ordered PStart 0 evs = true ->
  exists N s rs, (forall f ff, (N <= f)%nat -> (N <= ff)%nat -> select f ff a evs = Ret s rs) /\ length rs = length evs /\
    forall t i, (i < length evs)%nat -> cnt t (nth i rs []) = hits_of t E 0 evs i.
Proof.
  intros A2 A3 Hw Ho.
  assert (L0 : forall h : expr -> nat, sm h (lang (norm a) 0) = sm h E) by (intro h; rewrite (A3 h); change (lang (norm []) 0) with (@nil expr); rewrite sm_nil; lia).
  destruct a as [|st a0].
  - assert (L1 : forall h : expr -> nat, sm h E = O) by (intro h; rewrite <- (L0 h); reflexivity).
    destruct (select_nil evs Ho) as (N & s & rs & H1 & H2 & H3). exists N, s, rs. split; [exact H1|]. split; [exact H2|]. intros t i Hi. rewrite H3 by exact Hi. symmetry. apply (L1 (fun x => if (x_type x =? t)%Z then hits x 0 evs i else 0%nat)).
  - set (a := st :: a0) in *. change (norm a) with a in *.
    destruct (select_spec a evs (gd_wf _ A2) (gd_pos _ A2)) as (N & s & rs & H1 & H2 & H3); [|exact Ho|].
    + intros x Hx. destruct (wf_expr x) eqn:Wx; [reflexivity|exfalso].
      set (h := fun x => if wf_expr x then O else 1%nat).
      assert (Z0 : sm h E = O) by (apply (list_sum_0 h E); intros y Hy; unfold h; rewrite Forall_forall in Hw; rewrite (Hw y Hy); reflexivity).
      rewrite <- (L0 h) in Z0. pose proof (sm_In h (lang a 0) x Z0 Hx) as Hq. unfold h in Hq. rewrite Wx in Hq. discriminate.
    + exists N, s, rs. split; [exact H1|]. split; [exact H2|]. intros t i Hi. rewrite H3 by exact Hi. apply (L0 (fun x => if (x_type x =? t)%Z then hits x 0 evs i else 0%nat)).
Qed.

(** ** the link to a state that is not there *)
Section Dangling.
Variables (a : atm) (L : nat) (stL : pstate).
Hypothesis G : good a.
Hypothesis HL : nth_error a L = Some stL.
Hypothesis HLl : st_link stL = None.
Definition dangling : atm := atm_upd L (st_setLink (length a)) a.
Lemma dang_len : length dangling = length a. Proof. apply atm_upd_len. Qed.
Lemma dang_old i : i <> L -> nth_error dangling i = nth_error a i.
Proof. intro N. unfold dangling, atm_upd. rewrite HL, nth_upd. replace (Nat.eqb L i) with false by lia. reflexivity. Qed.
Lemma dang_L : nth_error dangling L = Some (st_setLink (length a) stL).
Proof. unfold dangling, atm_upd. rewrite HL, nth_upd, Nat.eqb_refl, HL. reflexivity. Qed.

(** the list of [i] ends with [L] *)
Inductive ends : nat -> Prop :=
| ends_L : ends L
| ends_link i st j : i <> L -> nth_error a i = Some st -> st_link st = Some j -> ends j -> ends i.
Lemma ends_lt i : ends i -> (i < length a)%nat.
Proof. intros [|k st j _ H _ _]; apply nth_error_Some; congruence. Qed.
Lemma dang_last i : ends i -> forall f, (length a - i < f)%nat -> atm_last f i dangling = Undef.
Proof.
  induction 1 as [|i st j N E Ej He IH]; intros f Hf; (destruct f as [|f]; [lia|]); cbn [atm_last].
  - rewrite dang_L. cbn [st_setLink st_link]. pose proof (L_lt a L stL HL). destruct f as [|f]; [lia|]. cbn [atm_last]. rewrite (proj2 (nth_error_None dangling (length a))) by (rewrite dang_len; lia). reflexivity.
  - rewrite dang_old, E, Ej by exact N. pose proof (link_up a i st j (gd_wf _ G) E Ej). apply IH. lia.
Qed.
Lemma dang_expand i : ends i -> forall f s, (length a - i < f)%nat -> expand f dangling (Some i) s = Undef.
Proof.
  induction 1 as [|i st j N E Ej He IH]; intros f s Hf; (destruct f as [|f]; [lia|]); cbn [expand].
  - rewrite dang_L. cbn [st_setLink st_link]. pose proof (L_lt a L stL HL). destruct f as [|f]; [lia|]. cbn [expand]. rewrite (proj2 (nth_error_None dangling (length a))) by (rewrite dang_len; lia).
    reflexivity.
  - rewrite dang_old, E, Ej by exact N. pose proof (link_up a i st j (gd_wf _ G) E Ej). apply IH. lia.
Qed.
Lemma dang_find op key follow i : ends i -> forall f, (length a - i < f)%nat ->
  atm_find f op key follow (Some i) dangling = Undef \/ exists n, atm_find f op key follow (Some i) dangling = Ret dangling (Some n).
Proof.
  induction 1 as [|i st j N E Ej He IH]; intros f Hf; (destruct f as [|f]; [lia|]); cbn [atm_find].
  - rewrite dang_L. cbn [st_setLink st_link st_key st_core st_next]. pose proof (L_lt a L stL HL).
    assert (Q : atm_find f op key follow (Some (length a)) dangling = Undef).
    { destruct f as [|f]; [lia|]. cbn [atm_find]. rewrite (proj2 (nth_error_None dangling (length a))) by (rewrite dang_len; lia). reflexivity. }
    destruct (st_key stL) as [k|]; [|left; exact Q]. destruct (_ && _ && _); [right; eauto|left; exact Q].
  - rewrite dang_old, E by exact N. pose proof (link_up a i st j (gd_wf _ G) E Ej) as U. pose proof (IH f) as Q. rewrite Ej.
    destruct (st_key st) as [k|]; [|apply Q; lia]. destruct (_ && _ && _); [right; eauto|apply Q; lia].
Qed.
Lemma dang_isempty i st : ends i -> nth_error dangling i = Some st -> st_isempty st = false.
Proof.
  intros He H. destruct (Nat.eq_dec i L) as [->|N].
  - rewrite dang_L in H. injection H as <-. pose proof (isempty_never a L stL G HL) as Q. unfold st_isempty, st_setLink, is_zero in *. cbn [st_core st_key st_next st_link] in *.
    destruct (st_next stL) as [[|j]|] eqn:Ej; rewrite ?andb_false_r; try reflexivity. pose proof (next_up a L stL 0 (gd_wf _ G) HL Ej). lia.
  - rewrite dang_old in H by exact N. apply (isempty_never a i st G H).
Qed.
End Dangling.
Lemma ends_spec a : good a -> forall n i f, (length a - i <= n)%nat -> (i < length a)%nat -> (length a - i < f)%nat ->
  exists L stL, atm_last f i a = Ret a L /\ nth_error a L = Some stL /\ st_link stL = None /\ ends a L i.
Proof.
  intro G. induction n; intros i f Hn Hi Hf; [lia|]. destruct f as [|f]; [lia|]. cbn [atm_last].
  destruct (nth_error a i) as [st|] eqn:E; [|apply nth_error_None in E; lia].
  destruct (st_link st) as [j|] eqn:Ej.
  - pose proof (link_up a i st j (gd_wf _ G) E Ej) as U. destruct (IHn j f) as (L & stL & H1 & H2 & H3 & H4); try lia. exists L, stL. splits; auto.
    apply (ends_link a L i st j); auto. intros ->. congruence.
  - exists i, st. splits; auto. apply ends_L.
Qed.

(** ** the state that has its key but no state that follows *)
Lemma key_eqb_refl k : key_eqb k k = true.
Proof. induction k as [|x k IH]; [reflexivity|]. cbn [key_eqb]. rewrite N.eqb_refl, IH. reflexivity. Qed.
Lemma find_grown a L stL op k st tl : good a -> nth_error a L = Some stL -> st_link stL = None -> (forall x, In x a -> st_key x <> Some k) -> k <> [] ->
  st_core st = mkCore (m_op op) false 0 0 (-1) -> st_key st = Some k -> forall i, ends a L i -> forall f, (S (length a) - i < f)%nat ->
  atm_find f op (Some k) false (Some i) (grown a L (st :: tl)) = Ret (grown a L (st :: tl)) (Some (st_next st)).
Proof.
  intros G HL HLl Hk Hne Hc Hs.
  assert (Skip : forall x l, In x a -> match st_key x with Some k' => Bool.eqb (c_follow (st_core x)) false && m_eqb (m_op op) (c_mask (st_core x)) && key_eqb k' k | None => false end = false \/ l = true).
  { intros x l Hx. left. destruct (st_key x) as [k'|] eqn:E; [|reflexivity]. destruct (key_eqb k' k) eqn:Q; [|rewrite andb_false_r; reflexivity].
    exfalso. apply (Hk x Hx). rewrite E. f_equal. clear - Q. revert k Q. induction k' as [|u x IH]; intros [|v y] Hq; cbn [key_eqb] in Hq; try discriminate; [reflexivity|]. apply andb_prop in Hq. destruct Hq as [Hq1 Hq2].
    apply N.eqb_eq in Hq1. f_equal; [exact Hq1|apply IH; exact Hq2]. }
  assert (New : forall f, (0 < f)%nat -> atm_find f op (Some k) false (Some (length a)) (grown a L (st :: tl)) = Ret (grown a L (st :: tl)) (Some (st_next st))).
  { intros [|f] Hf; [lia|]. cbn [atm_find]. pose proof (grown_new a L stL (st :: tl) HL 0) as Q. rewrite Nat.add_0_r in Q. rewrite Q. cbn [nth_error]. rewrite Hs, Hc. cbn [c_follow c_mask].
    rewrite key_eqb_refl. replace (m_eqb (m_op op) (m_op op)) with true by (destruct op; reflexivity). reflexivity. }
  induction 1 as [|i x j N E Ej He IH]; intros f Hf; (destruct f as [|f]; [lia|]); cbn [atm_find].
  - pose proof (L_lt a L stL HL). rewrite (grown_L a L stL _ HL). cbn [st_setLink st_key st_core st_link st_next].
    destruct (Skip stL false (nth_error_In _ _ HL)) as [Q|Q]; [|discriminate]. rewrite Q. apply New. lia.
  - assert (i < length a)%nat by (apply nth_error_Some; congruence). rewrite (grown_old a L stL _ HL i) by assumption. rewrite E.
    destruct (Skip x false (nth_error_In _ _ E)) as [Q|Q]; [|discriminate]. rewrite Q, Ej. pose proof (link_up a i x j (gd_wf _ G) E Ej). apply IH. lia.
Qed.
Lemma find_none a op k follow : good a -> (forall x, In x a -> st_key x <> Some k) -> k <> [] -> forall i, (i < length a)%nat -> atm_find (S (length a)) op (Some k) follow (Some i) a = Ret a None.
Proof.
  intros G Hk Hne i Hi. destruct (find_spec a op (Some k) follow G) with (n := length a) (i := i) (f := S (length a)) as [H|(j & st & m & k' & _ & F2 & _ & _ & _ & F6 & F7 & _)]; try lia; [congruence|exact H|].
  exfalso. injection F6 as <-. apply (Hk st (nth_error_In _ _ F2)). exact F7.
Qed.

(** ** enough memory *)
Definition plenty (l : list (option place)) : Prop := Forall (fun m => m = None) l.
Lemma next_plenty l : plenty l -> exists r, match l with [] => (None, []) | m :: r => (m, r) end = (@None place, r) /\ plenty r.
Proof. intro H. destruct l as [|m r]; [exists []; split; [reflexivity|constructor]|]. inversion H; subst. exists r. split; [reflexivity|assumption]. Qed.
Lemma first_enough i a : f_first None (Some i) a = Ret (norm a) (Some (match a with [] => O | _ => i end)).
Proof. destruct a; reflexivity. Qed.
Lemma next_enough i op key follow a a' n : atm_defineNext i op key follow a = Ret a' n -> f_defineNext None (Some i) op key follow a = Ret a' (Some n).
Proof.
  unfold atm_defineNext, f_defineNext. intro H.
  rewrite first_enough. cbn [bind].
  assert (E : forall (X : nat -> atm -> out atm nat), (let (i, a) := match a with [] => (O, [st_new]) | _ => (i, a) end in X i a) = X (match a with [] => O | _ => i end) (norm a)) by (intro X; destruct a; reflexivity).
  rewrite E in H. clear E.
  generalize dependent (match a with [] => O | _ => i end). generalize (norm a). clear a i. intros a i H.
  destruct (atm_find _ _ _ _ _ _) as [a1 found| | | |]; try discriminate H. cbn [bind] in *. destruct found as [[n'|]|]; try discriminate H; [congruence|].
  destruct (atm_last _ _ _) as [a2 j| | | |]; try discriminate H. cbn [bind] in *. unfold f_alt, atm_alt in *. destruct (nth_error a2 j) as [st|]; [|discriminate H].
  assert (D : forall b l m, f_define None b op key m follow l = Ret (atm_upd b (st_defineNext op key m follow) l) tt) by (intros; unfold f_define; destruct key; reflexivity).
  destruct (st_isempty st).
  - unfold f_push in *. cbn [bind fails] in *. rewrite D. cbn [bind]. congruence.
  - destruct (atm_last _ _ _) as [a3 j3| | | |]; try discriminate H. unfold f_push in *. cbn [bind fails] in *. rewrite D. cbn [bind].
    rewrite ?atm_upd_len in *. congruence.
Qed.
Lemma output_enough i k t follow b e a a' n : atm_defineOutput i k t follow b e a = Ret a' n -> f_defineOutput None (Some i) k t follow b e a = Ret a' (Some n).
Proof.
  unfold atm_defineOutput, f_defineOutput. intro H.
  rewrite first_enough. cbn [bind].
  assert (E : forall (X : nat -> atm -> out atm nat), (let (i, a) := match a with [] => (O, [st_new]) | _ => (i, a) end in X i a) = X (match a with [] => O | _ => i end) (norm a)) by (intro X; destruct a; reflexivity).
  rewrite E in H. clear E.
  generalize dependent (match a with [] => O | _ => i end). generalize (norm a). clear a i. intros a i H.
  destruct (Nat.leb (length a) i); [discriminate H|]. unfold f_alt, atm_alt in *. destruct (nth_error a i) as [st|]; [|discriminate H]. destruct (st_isempty st); cbn [bind] in *; [congruence|].
  destruct (atm_last _ _ _) as [a3 j3| | | |]; try discriminate H. unfold f_push in *. cbn [bind fails] in *. rewrite ?atm_upd_len in *. congruence.
Qed.
Lemma doSelect_enough cs op v p i a a' p' ans : plenty ans -> fe_idx p = Some i -> pe_doSelect cs op v (with_idx p i) a = Ret a' p' ->
  exists r, fe_doSelect cs op v p (mkFw a ans) = Ret (mkFw a' r) (mkFe (Some (pe_idx p')) (pe_selected 0 (fe_rest p))) /\ plenty r /\ p' = pe_selected (pe_idx p') (with_idx p i).
Proof.
  intros Hp Hi H. unfold pe_doSelect, fe_doSelect in *.
  assert (K : forall key, (let! (a, j) := atm_defineNext i op key (pe_follow (fe_rest p)) a in Ret a (pe_selected j (with_idx p i))) = Ret a' p' ->
    exists r, (let! (s, j) := f_call (fun m => f_defineNext m (fe_idx p) op key (pe_follow (fe_rest p))) (mkFw a ans) in Ret s (mkFe j (pe_selected 0 (fe_rest p))))
      = Ret (mkFw a' r) (mkFe (Some (pe_idx p')) (pe_selected 0 (fe_rest p))) /\ plenty r /\ p' = pe_selected (pe_idx p') (with_idx p i)).
  { intros key Hk. destruct (atm_defineNext i op key (pe_follow (fe_rest p)) a) as [a1 j| | | |] eqn:E; try discriminate Hk. cbn [bind] in Hk. injection Hk as <- <-.
    unfold f_call. cbn [fw_ans fw_atm]. destruct (next_plenty _ Hp) as (r & -> & Hr). exists r. rewrite Hi, (next_enough _ _ _ _ _ _ _ E). cbn [bind]. splits; auto. }
  destruct v as [v|]; cbn [bind] in *.
  - destruct (static_key cs v); try discriminate H. cbn [bind] in *. apply K. exact H.
  - apply K. exact H.
Qed.
Definition like (p : felem) (p' : pelem) : Prop := fe_idx p = Some (pe_idx p') /\ with_idx p (pe_idx p') = p'.
Lemma op_enough cs o p p' a a' p2 ans : plenty ans -> like p p' -> pe_op cs o p' a = Ret a' p2 -> exists r q, fe_op cs o p (mkFw a ans) = Ret (mkFw a' r) q /\ plenty r /\ like q p2.
Proof.
  intros Hp [L1 L2] H.
  assert (Pure : forall op op', pe_opt op a = Ret a' p2 -> op' = match op with Some x => Some (mkPe (pe_idx (fe_rest p)) (pe_start x) (pe_end x) (pe_follow x) (pe_print x)) | None => None end ->
     match op with Some x => pe_idx x = pe_idx p' | None => True end ->
     exists r q, fe_with op' p (mkFw a ans) = Ret (mkFw a' r) q /\ plenty r /\ like q p2).
  { intros op op' H1 -> H2. destruct op as [x|]; [|discriminate H1]. cbn [pe_opt] in H1. injection H1 as <- <-. eexists. eexists. split; [reflexivity|]. split; [exact Hp|].
    split; [cbn [fe_idx]; congruence|]. destruct x. reflexivity. }
  assert (Rg : forall b e, pe_doRange b e (fe_rest p) = (let x := pe_doRange b e p' in mkPe (pe_idx (fe_rest p)) (pe_start x) (pe_end x) (pe_follow x) (pe_print x)) /\ pe_idx (pe_doRange b e p') = pe_idx p').
  { intros b e. rewrite <- L2. rewrite with_range. split; [|reflexivity]. unfold with_idx, pe_doRange. cbn [fe_rest pe_start pe_end pe_follow pe_print pe_idx].
    destruct (pe_end (fe_rest p) =? -1)%Z; [reflexivity|]. destruct (e <? _)%Z; [reflexivity|]. destruct (_ <? b)%Z; [reflexivity|]. destruct (fe_rest p); reflexivity. }
  destruct o as [n| |n|n v| | |i|i|i j|i|t]; cbn [pe_op fe_op] in *.
  - unfold pe_selectTag in H. rewrite <- L2 in H. destruct (doSelect_enough _ _ _ _ _ _ _ _ _ Hp L1 H) as (r & -> & Hr & E). eexists. eexists. split; [reflexivity|]. split; [exact Hr|]. split; [reflexivity|]. etransitivity; [|symmetry; exact E]. reflexivity.
  - unfold pe_selectCloseTag in H. rewrite <- L2 in H. destruct (doSelect_enough _ _ _ _ _ _ _ _ _ Hp L1 H) as (r & -> & Hr & E). eexists. eexists. split; [reflexivity|]. split; [exact Hr|]. split; [reflexivity|]. etransitivity; [|symmetry; exact E]. reflexivity.
  - unfold pe_selectAttribute in H. rewrite <- L2 in H. apply bind_ret in H. destruct H as (a1 & p1 & H & H2). destruct (doSelect_enough _ _ _ _ _ _ _ _ _ Hp L1 H) as (r & -> & Hr & E). injection H2 as <- <-.
    cbn [bind]. eexists. eexists. split; [reflexivity|]. split; [exact Hr|]. split; [reflexivity|]. transitivity (pe_output OpThisValue (pe_selected (pe_idx p1) (with_idx p (pe_idx p')))); [reflexivity|f_equal; symmetry; exact E].
  - unfold pe_ifAttribute in H. rewrite <- L2 in H. apply bind_ret in H. destruct H as (a1 & p1 & H & H2). destruct (doSelect_enough _ _ _ _ _ _ _ _ _ Hp L1 H) as (r & -> & Hr & E). cbn [bind].
    rewrite E in H2. set (j := pe_idx p1) in *.
    destruct (doSelect_enough cs OpThisValue v (mkFe (Some j) (pe_selected 0 (fe_rest p))) j a1 a' p2 r Hr eq_refl) as (r2 & -> & Hr2 & E2); [exact H2|].
    eexists. eexists. split; [reflexivity|]. split; [exact Hr2|]. split; [reflexivity|]. etransitivity; [|symmetry; exact E2]. reflexivity.
  - apply (Pure (Some (pe_selectContent p'))); [exact H| |reflexivity]. rewrite <- L2. reflexivity.
  - apply (Pure (Some (pe_doFollow p'))); [exact H| |reflexivity]. rewrite <- L2. reflexivity.
  - apply (Pure _ _ H); unfold pe_TO, pe_doCount; destruct (0 <=? i)%Z; try (destruct (i =? int_max)%Z); try reflexivity; try exact Logic.I; try apply Rg; f_equal; apply Rg.
  - apply (Pure _ _ H); unfold pe_FROM, pe_doStart; try apply Rg; f_equal; apply Rg.
  - apply (Pure _ _ H); unfold pe_RANGE; destruct (0 <=? j)%Z; try (destruct (j =? int_max)%Z); try reflexivity; try exact Logic.I; try apply Rg; f_equal; apply Rg.
  - apply (Pure _ _ H); unfold pe_INDEX; destruct (i =? int_max)%Z; try reflexivity; try exact Logic.I; try apply Rg; f_equal; apply Rg.
  - unfold pe_assignType in H. apply bind_ret in H. destruct H as (a1 & j & H & H2). injection H2 as <- <-. unfold f_call. cbn [fw_ans fw_atm]. destruct (next_plenty _ Hp) as (r & -> & Hr).
    rewrite L1. rewrite <- L2 in H at 2 3 4 5. cbn [with_idx pe_start pe_end pe_follow pe_print] in H. rewrite (output_enough _ _ _ _ _ _ _ _ _ H). cbn [bind]. eexists. eexists. split; [reflexivity|]. split; [exact Hr|].
    split; [reflexivity|]. rewrite <- L2. reflexivity.
Qed.
Lemma ops_enough cs : forall os p p' a a' p2 ans, plenty ans -> like p p' -> pe_ops cs os p' a = Ret a' p2 -> exists r, f_path cs os p (mkFw a ans) = Ret (mkFw a' r) (length os) /\ plenty r.
Proof.
  induction os as [|o os IH]; intros p p' a a' p2 ans Hp L H; cbn [pe_ops f_path length] in *.
  - injection H as <- <-. exists ans. split; [reflexivity|exact Hp].
  - apply bind_ret in H. destruct H as (a1 & p1 & H1 & H2). destruct (op_enough cs o p p' a a1 p1 ans Hp L H1) as (r & q & -> & Hr & Lq).
    destruct (IH q p1 a1 a' p2 r Hr Lq H2) as (r2 & -> & Hr2). exists r2. split; [reflexivity|exact Hr2].
Qed.
Lemma paths_enough cs : forall ps a a' ans, plenty ans -> add_paths cs ps a = Ret a' tt -> exists r, f_paths cs ps (mkFw a ans) = Ret (mkFw a' r) (map (@length _) ps) /\ plenty r.
Proof.
  induction ps as [|os ps IH]; intros a a' ans Hp H; cbn [add_paths f_paths map] in *.
  - injection H as <-. exists ans. split; [reflexivity|exact Hp].
  - apply bind_ret in H. destruct H as (a1 & p1 & H1 & H2). destruct (ops_enough cs os fe_root pe_root a a1 p1 ans Hp (conj eq_refl eq_refl) H1) as (r & -> & Hr). cbn [bind].
    destruct (IH a1 a' r Hr H2) as (r2 & -> & Hr2). exists r2. split; [reflexivity|exact Hr2].
Qed.
