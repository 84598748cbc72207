(** Building the automaton: the functions of the automaton and of its path elements. *)
From Coq Require Import Lia ZifyBool ZifyNat.
From Verif Require Import Base XmlScanner PathAtm PathSelect PathSpec PathTrie PathRun1 PathRun2 PathRun3 PathRun8 PathBuild.

Definition norm (a : atm) : atm := match a with [] => [st_new] | _ => a end.
Definition snoc {A} (x : A) (l : list A) : list A := l ++ [x].

Record good (a : atm) : Prop := {
  gd_wf : atm_wf a;
  gd_pos : (0 < length a)%nat;
  gd_root : paths a 0 0 = [[]];
  gd_link : forall i st j, nth_error a i = Some st -> st_link st = Some j -> paths a j 0 = paths a i 0;
  gd_next : forall i st j, nth_error a i = Some st -> st_next st = Some j -> paths a j 0 = map (snoc (edge_of st)) (paths a i 0);
  gd_key : forall i st, nth_error a i = Some st -> st_key st <> Some [];
  gd_dead : forall i st, nth_error a i = Some st -> st_next st = None -> st_key st = None }.

Lemma good_new : good [st_new].
Proof.
  assert (G : forall i st, nth_error [st_new] i = Some st -> st = st_new).
  { intros [|i] st H; cbn in H; [congruence|destruct i; discriminate]. }
  constructor.
  - intros i st H. rewrite (G i st H). split; [apply sh_dummy; reflexivity|discriminate].
  - cbn. lia.
  - reflexivity.
  - intros i st j H. rewrite (G i st H). discriminate.
  - intros i st j H. rewrite (G i st H). discriminate.
  - intros i st H. rewrite (G i st H). discriminate.
  - intros i st H. rewrite (G i st H). reflexivity.
Qed.

Lemma map_flat {A B} (g : A -> B) l : flat_map (fun x => [g x]) l = map g l.
Proof. induction l as [|x l IH]; cbn; [reflexivity|]. rewrite IH. reflexivity. Qed.

Section Grow2.
Variables (a : atm) (L : nat) (stL : pstate).
Hypothesis G : good a.
Hypothesis HL : nth_error a L = Some stL.
Hypothesis HLl : st_link stL = None.
Let len := length a.
Let W := gd_wf _ G.

Section Gen.
Variable tl : list pstate.
Hypothesis Htl : tl <> [].
Hypothesis Wtl : forall k st, nth_error tl k = Some st -> st_wf (len + length tl) (len + k) st.
Let a' := grown a L tl.

Lemma g_old K : (K < len)%nat -> paths a' K 0 = paths a K 0.
Proof. intro H. apply (paths_old a L stL tl W HL HLl Htl Wtl K H len 0); unfold len; pose proof (gd_pos _ G); lia. Qed.
Lemma g_first : paths a' len len = [[]] -> paths a' len 0 = paths a L 0.
Proof.
  intro H. unfold a', len in *. rewrite (paths_new a L stL tl W HL HLl Htl Wtl (length a) (Nat.le_refl _) (length a) 0) by (pose proof (gd_pos _ G); lia).
  rewrite H. cbn [map]. rewrite map_flat. rewrite (map_ext _ (fun x => x)); [apply map_id|]. intro x. apply app_nil_r.
Qed.
Hypothesis Ktl : forall st, In st tl -> st_key st <> Some [].
Hypothesis Dtl : forall st, In st tl -> st_next st = None -> st_key st = None.
Hypothesis Ltl : forall st, In st tl -> st_link st = None.
Hypothesis Ntl : forall k st j, nth_error tl k = Some st -> st_next st = Some j -> paths (grown a L tl) j 0 = map (snoc (edge_of st)) (paths (grown a L tl) (len + k) 0).
Lemma g_good : paths a' len len = [[]] -> good a'.
Proof.
  intro Hf. pose proof (L_lt a L stL HL) as HLt. pose proof (gd_pos _ G) as Hp. fold len in Hp, HLt.
  pose proof (grown_len a L stL tl HL) as GL. fold len a' in GL.
  assert (Cases : forall i st, nth_error a' i = Some st -> (i < len /\ i <> L /\ nth_error a i = Some st)%nat \/ (i = L /\ st = st_setLink len stL) \/
     exists k, i = (len + k)%nat /\ nth_error tl k = Some st).
  { intros i st H. destruct (Nat.ltb_spec i len) as [Hi|Hi].
    - destruct (Nat.eq_dec i L) as [->|N].
      + right. left. split; [reflexivity|]. unfold a' in H. rewrite (grown_L a L stL tl HL) in H. unfold len. congruence.
      + left. unfold a' in H. rewrite (grown_old a L stL tl HL) in H by assumption. splits; assumption.
    - right. right. exists (i - len)%nat. split; [lia|]. replace i with (len + (i - len))%nat in H by lia. unfold a', len in H. rewrite (grown_new a L stL tl HL) in H. exact H. }
  constructor.
  - apply (grown_wf a L stL tl W HL Htl Wtl).
  - rewrite GL. lia.
  - rewrite g_old by exact Hp. apply (gd_root _ G).
  - intros i st j Hi Hj. destruct (Cases i st Hi) as [(H1 & H2 & H3)|[[-> ->]|(k & -> & Hk)]].
    + pose proof (link_up a i st j W H3 Hj) as Hu. fold len in Hu. rewrite !g_old by lia. apply (gd_link _ G i st j H3 Hj).
    + cbn [st_setLink st_link] in Hj. injection Hj as <-. rewrite (g_first Hf), g_old by exact HLt. reflexivity.
    + rewrite (Ltl st (nth_error_In _ _ Hk)) in Hj. discriminate.
  - intros i st j Hi Hj. destruct (Cases i st Hi) as [(H1 & H2 & H3)|[[-> ->]|(k & -> & Hk)]].
    + pose proof (next_up a i st j W H3 Hj) as Hu. fold len in Hu. rewrite !g_old by lia. apply (gd_next _ G i st j H3 Hj).
    + cbn [st_setLink st_next] in Hj. pose proof (next_up a L stL j W HL Hj) as Hu. fold len in Hu. rewrite !g_old by lia. apply (gd_next _ G L stL j HL Hj).
    + apply (Ntl k st j Hk Hj).
  - intros i st Hi. destruct (Cases i st Hi) as [(H1 & H2 & H3)|[[-> ->]|(k & -> & Hk)]].
    + apply (gd_key _ G i st H3).
    + apply (gd_key _ G L stL HL).
    + apply Ktl. eapply nth_error_In; eauto.
  - intros i st Hi. destruct (Cases i st Hi) as [(H1 & H2 & H3)|[[-> ->]|(k & -> & Hk)]].
    + apply (gd_dead _ G i st H3).
    + apply (gd_dead _ G L stL HL).
    + apply Dtl. eapply nth_error_In; eauto.
Qed.
End Gen.

(** a new step *)
Definition edge_st (o : sop) (key : option (list N)) (follow : bool) : pstate := st_defineNext (op_of o) key (S len) follow st_new.
Lemma edge_of_st o key follow : edge_of (edge_st o key follow) = mkEdge o follow key.
Proof. unfold edge_of, edge_st, st_defineNext, st_new, core_new. cbn [st_core c_mask c_follow st_key]. change (m_seekop (op_of o) m_zero) with (m_op (op_of o)). rewrite sop_of_op. reflexivity. Qed.

Lemma grow_next o key follow : key <> Some [] -> let a' := grown a L [edge_st o key follow; st_new] in
  good a' /\ (forall K, (K < len)%nat -> paths a' K 0 = paths a K 0) /\ paths a' (S len) 0 = map (snoc (mkEdge o follow key)) (paths a L 0) /\
  forall h, sm h (lang a' 0) = sm h (lang a 0).
Proof.
  intros Hk a'. set (tl := [edge_st o key follow; st_new]) in *.
  pose proof (L_lt a L stL HL) as HLt. pose proof (gd_pos _ G) as Hp. fold len in Hp, HLt.
  assert (Htl : tl <> []) by discriminate.
  assert (Wtl : forall k st, nth_error tl k = Some st -> st_wf (len + length tl) (len + k) st).
  { intros [|[|k]] st H; cbn [tl nth_error] in H.
    - injection H as <-. split; [|discriminate]. eapply (sh_edge _ _ _ o follow (S len)); [reflexivity|reflexivity|]. cbn [tl length]. lia.
    - injection H as <-. split; [|discriminate]. apply sh_dummy; reflexivity.
    - destruct k; discriminate. }
  pose proof (grown_wf a L stL tl W HL Htl Wtl) as GW. fold a' in GW.
  assert (N0 : nth_error a' len = Some (edge_st o key follow)) by (replace len with (len + 0)%nat by lia; exact (grown_new a L stL tl HL 0)).
  assert (N1 : nth_error a' (S len) = Some st_new) by (replace (S len) with (len + 1)%nat by lia; exact (grown_new a L stL tl HL 1)).
  assert (P1 : paths a' (S len) (S len) = [[]]) by (rewrite (paths_eq a' GW), N1, Nat.eqb_refl; reflexivity).
  assert (P0 : paths a' len len = [[]]).
  { rewrite (paths_eq a' GW), N0, Nat.eqb_refl. cbn [edge_st st_defineNext st_link st_next st_new]. rewrite (paths_up a' GW len (length a') (S len)) by lia. reflexivity. }
  assert (P01 : paths a' (S len) len = [[mkEdge o follow key]]).
  { rewrite (paths_eq a' GW), N0. replace (Nat.eqb len (S len)) with false by lia. rewrite edge_of_st. cbn [edge_st st_defineNext st_link st_next st_new app]. rewrite P1. reflexivity. }
  assert (PS : paths a' (S len) 0 = map (snoc (mkEdge o follow key)) (paths a L 0)).
  { unfold a', len in *. rewrite (paths_new a L stL tl W HL HLl Htl Wtl (S (length a)) (Nat.le_succ_diag_r _) (length a) 0) by lia. rewrite P01. cbn [map]. apply map_flat. }
  splits.
  - apply (g_good tl Htl Wtl); [| | | |exact P0].
    + intros st [<-|[<-|[]]]; [exact Hk|discriminate].
    + intros st [<-|[<-|[]]]; [discriminate|reflexivity].
    + intros st [<-|[<-|[]]]; reflexivity.
    + intros [|[|k]] st j H Hj; cbn [tl nth_error] in H.
      * injection H as <-. injection Hj as <-. fold a'. rewrite PS, edge_of_st, Nat.add_0_r. f_equal. symmetry. exact (g_first tl Htl Wtl P0).
      * injection H as <-. discriminate.
      * destruct k; discriminate.
  - intros K HK. apply (g_old tl Htl Wtl K HK).
  - exact PS.
  - intro h. unfold a', len in *. rewrite (sum_grow a L stL tl W HL HLl Htl Wtl (length a) 0) by lia. fold a'.
    replace (lang a' (length a)) with (@nil expr); [unfold sm at 1; rewrite list_sum_0 by reflexivity; reflexivity|].
    symmetry. rewrite (lang_eq a' GW _ _ N0). cbn [edge_st st_defineNext st_link st_next st_new]. rewrite app_nil_r. unfold alts.
    change (c_type (st_core (edge_st o key follow)) =? 0)%Z with true. change (st_next (edge_st o key follow)) with (Some (S (length a))). cbv iota. rewrite (lang_eq a' GW _ _ N1). reflexivity.
Qed.

(** a new output *)
Definition out_st (r : rep) (t : Z) (follow : bool) (b e : Z) : pstate := st_defineOutput (rep_mask r) t follow b e st_new.
Definition out_expr (r : rep) (t : Z) (follow : bool) (b e : Z) : expr := mkExpr [] r follow (if (e =? -1)%Z then None else Some (b, e)) t.
Lemma grow_out r t follow b e : t <> 0%Z -> let a' := grown a L [out_st r t follow b e] in
  good a' /\ (forall K, (K < len)%nat -> paths a' K 0 = paths a K 0) /\ paths a' len 0 = paths a L 0 /\
  forall h, sm h (lang a' 0) = (sm (fun es => h (pre es (out_expr r t follow b e))) (paths a L 0) + sm h (lang a 0))%nat.
Proof.
  intros Ht a'. set (tl := [out_st r t follow b e]) in *.
  pose proof (L_lt a L stL HL) as HLt. pose proof (gd_pos _ G) as Hp. fold len in Hp, HLt.
  assert (Htl : tl <> []) by discriminate.
  assert (Wtl : forall k st, nth_error tl k = Some st -> st_wf (len + length tl) (len + k) st).
  { intros [|k] st H; cbn [tl nth_error] in H.
    - injection H as <-. split; [|discriminate]. eapply (sh_out _ _ _ r follow t b e); [reflexivity|exact Ht|reflexivity|reflexivity].
    - destruct k; discriminate. }
  pose proof (grown_wf a L stL tl W HL Htl Wtl) as GW. fold a' in GW.
  assert (N0 : nth_error a' len = Some (out_st r t follow b e)) by (replace len with (len + 0)%nat by lia; exact (grown_new a L stL tl HL 0)).
  assert (P0 : paths a' len len = [[]]) by (rewrite (paths_eq a' GW), N0, Nat.eqb_refl; reflexivity).
  splits.
  - apply (g_good tl Htl Wtl); [| | | |exact P0].
    + intros st [<-|[]]. discriminate.
    + intros st [<-|[]]. reflexivity.
    + intros st [<-|[]]. reflexivity.
    + intros [|k] st j H Hj; cbn [tl nth_error] in H; [injection H as <-; discriminate|destruct k; discriminate].
  - intros K HK. apply (g_old tl Htl Wtl K HK).
  - apply (g_first tl Htl Wtl P0).
  - intro h. unfold a', len in *. rewrite (sum_grow a L stL tl W HL HLl Htl Wtl (length a) 0) by lia. fold a'. f_equal.
    replace (lang a' (length a)) with [out_expr r t follow b e]; [apply sm_ext; intros es _; unfold sm; cbn [map]; rewrite list_sum_cons; cbn; lia|].
    symmetry. rewrite (lang_eq a' GW _ _ N0). cbn [out_st st_defineOutput st_link st_new]. rewrite app_nil_r. unfold alts.
    change (c_type (st_core (out_st r t follow b e))) with t. rewrite (proj2 (Z.eqb_neq t 0) Ht).
    unfold out_of, out_expr, range_of. cbn [out_st st_defineOutput st_core c_mask c_follow c_type c_start c_end]. rewrite rep_of_mask. reflexivity.
Qed.
End Grow2.

(** ** the lists of states *)
Lemma last_spec a : good a -> forall n i f, (length a - i <= n)%nat -> (i < length a)%nat -> (length a - i < f)%nat ->
  exists L stL, atm_last f i a = Ret a L /\ nth_error a L = Some stL /\ st_link stL = None /\ paths a L 0 = paths a i 0.
Proof.
  intro G. induction n; intros i f Hn Hi Hf; [lia|]. destruct f as [|f]; [lia|]. cbn [atm_last].
  destruct (nth_error a i) as [st|] eqn:E; [|apply nth_error_None in E; lia].
  destruct (st_link st) as [j|] eqn:Ej.
  - pose proof (link_up a i st j (gd_wf _ G) E Ej). destruct (IHn j f) as (L & stL & H1 & H2 & H3 & H4); try lia. exists L, stL. splits; auto.
    rewrite H4. apply (gd_link _ G i st j E Ej).
  - exists i, st. splits; auto.
Qed.
Lemma find_spec a op key follow : good a -> key <> Some [] -> forall n i f, (length a - i <= n)%nat -> (i < length a)%nat -> (length a - i < f)%nat ->
  atm_find f op key follow (Some i) a = Ret a None \/
  exists j st m k, atm_find f op key follow (Some i) a = Ret a (Some (Some m)) /\ nth_error a j = Some st /\ st_next st = Some m /\ (m < length a)%nat /\
    paths a j 0 = paths a i 0 /\ key = Some k /\ st_key st = Some k /\ c_follow (st_core st) = follow /\ m_eqb (m_op op) (c_mask (st_core st)) = true.
Proof.
  intros G Hk. induction n; intros i f Hn Hi Hf; [lia|]. destruct f as [|f]; [lia|]. cbn [atm_find].
  destruct (nth_error a i) as [st|] eqn:E; [|apply nth_error_None in E; lia].
  assert (Rest : atm_find f op key follow (st_link st) a = Ret a None \/
     exists j st' m k, atm_find f op key follow (st_link st) a = Ret a (Some (Some m)) /\ nth_error a j = Some st' /\ st_next st' = Some m /\ (m < length a)%nat /\
    paths a j 0 = paths a i 0 /\ key = Some k /\ st_key st' = Some k /\ c_follow (st_core st') = follow /\ m_eqb (m_op op) (c_mask (st_core st')) = true).
  { destruct (st_link st) as [j|] eqn:Ej.
    - pose proof (link_up a i st j (gd_wf _ G) E Ej). destruct (IHn j f) as [H1|(j' & st' & m & k & H1 & H2 & H3 & H4 & H5 & H6 & H7 & H8 & H9)]; try lia; [left; exact H1|].
      right. exists j', st', m, k. splits; auto. rewrite H5. apply (gd_link _ G i st j E Ej).
    - left. destruct f; [lia|reflexivity]. }
  destruct (st_key st) as [k|] eqn:Ek; [|exact Rest].
  destruct (_ && _ && _) eqn:C; [|exact Rest]. apply andb_prop in C. destruct C as [C C3]. apply andb_prop in C. destruct C as [C1 C2].
  right. destruct (gd_wf _ G i st E) as [Sh _]. destruct Sh as [D1 D2 D3|o f' j H1 H2 H3|r f' t b e H1 H2 H3 H4|od H1 H2]; try congruence; [|rewrite (gd_dead _ G i st E H2) in Ek; discriminate].
  assert (Kk : key = Some k).
  { assert (Q : forall x y, key_eqb x y = true -> x = y).
    { induction x as [|u x IH]; intros [|v y] Hq; cbn [key_eqb] in Hq; try discriminate; [reflexivity|]. apply andb_prop in Hq. destruct Hq as [Hq1 Hq2].
      apply N.eqb_eq in Hq1. f_equal; [exact Hq1|apply IH; exact Hq2]. }
    apply Q in C3. destruct key as [k'|]; [congruence|]. subst k. pose proof (gd_key _ G i st E). contradiction. }
  exists i, st, j, k. rewrite H2. splits; auto; try lia; apply Bool.eqb_prop in C1; exact C1.
Qed.

Lemma isempty_never a i st : good a -> nth_error a i = Some st -> st_isempty st = false.
Proof.
  intros G E. unfold st_isempty, is_zero. destruct (st_next st) as [j|] eqn:Ej; [|rewrite andb_false_r; reflexivity].
  pose proof (next_up a i st j (gd_wf _ G) E Ej). destruct j; [lia|]. rewrite andb_false_r. reflexivity.
Qed.

Lemma atm_upd_snoc f x y l : atm_upd (length l) f (l ++ [x; y]) = l ++ [f x; y].
Proof.
  unfold atm_upd. rewrite nth_error_app2, Nat.sub_diag by lia. cbn [nth_error]. induction l as [|z l IH]; cbn [app length upd]; [reflexivity|]. f_equal. exact IH.
Qed.
Lemma atm_upd_snoc1 f x l : atm_upd (length l) f (l ++ [x]) = l ++ [f x].
Proof.
  unfold atm_upd. rewrite nth_error_app2, Nat.sub_diag by lia. cbn [nth_error]. induction l as [|z l IH]; cbn [app length upd]; [reflexivity|]. f_equal. exact IH.
Qed.
Lemma atm_upd_len i f a : length (atm_upd i f a) = length a.
Proof. unfold atm_upd. destruct (nth_error a i); [apply upd_length|reflexivity]. Qed.

(** the automaton after a change: [E] are the paths that are new *)
Record step_to (a a' : atm) (E : list expr) : Prop := {
  sp_good : good a';
  sp_len : (length a <= length a')%nat;
  sp_paths : forall K, (K < length a)%nat -> paths a' K 0 = paths a K 0;
  sp_sum : forall h, sm h (lang a' 0) = (sm h E + sm h (lang a 0))%nat }.

Lemma defineNext_spec a i o key follow es : good (norm a) -> (i < length (norm a))%nat -> paths (norm a) i 0 = [es] -> key <> Some [] ->
  exists a' n, atm_defineNext i (op_of o) key follow a = Ret a' n /\ a' <> [] /\ step_to (norm a) a' [] /\ (n < length a')%nat /\
    paths a' n 0 = [es ++ [mkEdge o follow key]].
Proof.
  intros G Hi Hp Hk.
  assert (Hn : forall (b : atm), (0 < length b)%nat -> b <> []) by (intros [|x b] H; [cbn in H; lia|discriminate]).
  assert (E : atm_defineNext i (op_of o) key follow a =
    let a := norm a in
    let! (a, found) := atm_find (S (length a)) (op_of o) key follow (Some i) a in
    match found with
    | Some (Some n) => Ret a n
    | Some None => Undef
    | None =>
        let! (a, i) := atm_last (S (length a)) i a in
        let! (a, j) := atm_alt i a in
        let a := a ++ [st_new] in
        let n := (length a - 1)%nat in
        Ret (atm_upd j (st_defineNext (op_of o) key n follow) a) n
    end).
  { unfold atm_defineNext. destruct a as [|x a]; [|reflexivity]. cbn [norm length] in *. assert (i = O) by lia. subst i. reflexivity. }
  rewrite E. clear E. set (b := norm a) in *. clearbody b. cbv zeta.
  destruct (find_spec b (op_of o) key follow G Hk (length b) i (S (length b))) as [Fd|(j & st & m & k & Fd & F2 & F3 & F4 & F5 & F6 & F7 & F8 & F9)]; try lia; rewrite Fd; cbn [bind].
  - destruct (last_spec b G (length b) i (S (length b))) as (L & stL & L1 & L2 & L3 & L4); try lia. rewrite L1. cbn [bind].
    unfold atm_alt. rewrite L2, (isempty_never b L stL G L2).
    cbn [atm_last]. rewrite L2, L3. cbn [bind].
    destruct (grow_next b L stL G L2 L3 o key follow Hk) as (G1 & G2 & G3 & G4).
    assert (Lt : length (atm_upd L (st_setLink (length b)) b ++ [st_new]) = S (length b)) by (rewrite app_length, atm_upd_len; cbn [length]; lia).
    assert (Ea : atm_upd (length b) (st_defineNext (op_of o) key (S (length b)) follow) ((atm_upd L (st_setLink (length b)) b ++ [st_new]) ++ [st_new]) =
            grown b L [edge_st b o key follow; st_new]).
    { rewrite <- app_assoc. cbn [app]. unfold grown, edge_st. rewrite <- (atm_upd_len L (st_setLink (length b)) b) at 1. apply atm_upd_snoc. }
    assert (En : (length ((atm_upd L (st_setLink (length b)) b ++ [st_new]) ++ [st_new]) - 1 = S (length b))%nat) by (rewrite app_length, Lt; cbn [length]; lia).
    rewrite En, Ea.
    exists (grown b L [edge_st b o key follow; st_new]), (S (length b)).
    assert (GL : length (grown b L [edge_st b o key follow; st_new]) = S (S (length b))) by (rewrite (grown_len b L stL _ L2); cbn [length]; lia).
    splits; auto.
    + apply Hn. lia.
    + constructor; auto; lia.
    + lia.
    + rewrite G3, L4, Hp. reflexivity.
  - exists b, m. splits; auto.
    + apply Hn, (gd_pos _ G).
    + constructor; auto.
    + rewrite (gd_next _ G j st m F2 F3), F5, Hp. cbn [map]. unfold snoc. f_equal. f_equal. f_equal. unfold edge_of. rewrite F7, F8, <- F6. f_equal.
      destruct (gd_wf _ G j st F2) as [Sh _]. destruct Sh as [|o' f' j' H1 H2 H3| |]; try congruence. rewrite H1 in F9 |- *. cbn [c_mask] in *. rewrite sop_of_op.
      destruct o, o'; try reflexivity; vm_compute in F9; discriminate F9.
Qed.

Lemma defineOutput_spec a i r t follow b e es : good (norm a) -> (i < length (norm a))%nat -> paths (norm a) i 0 = [es] -> t <> 0%Z ->
  exists a' n, atm_defineOutput i (rep_mask r) t follow b e a = Ret a' n /\ a' <> [] /\ step_to (norm a) a' [pre es (out_expr r t follow b e)] /\ (n < length a')%nat /\
    paths a' n 0 = [es].
Proof.
  intros G Hi Hp Ht.
  assert (Hn : forall (b : atm), (0 < length b)%nat -> b <> []) by (intros [|x q] H; [cbn in H; lia|discriminate]).
  assert (E : atm_defineOutput i (rep_mask r) t follow b e a =
    let a := norm a in
    if Nat.leb (length a) i then Throw a
    else let! (a, j) := atm_alt i a in Ret (atm_upd j (st_defineOutput (rep_mask r) t follow b e) a) j).
  { unfold atm_defineOutput. destruct a as [|x a]; [|reflexivity]. cbn [norm length] in *. assert (i = O) by lia. subst i. reflexivity. }
  rewrite E. clear E. set (q := norm a) in *. clearbody q. cbv zeta. replace (Nat.leb (length q) i) with false by lia.
  destruct (nth_error q i) as [sti|] eqn:Ei; [|apply nth_error_None in Ei; lia].
  destruct (last_spec q G (length q) i (S (length q))) as (L & stL & L1 & L2 & L3 & L4); try lia.
  unfold atm_alt. rewrite Ei, (isempty_never q i sti G Ei), L1. cbn [bind].
  destruct (grow_out q L stL G L2 L3 r t follow b e Ht) as (G1 & G2 & G3 & G4).
  assert (Ea : atm_upd (length q) (st_defineOutput (rep_mask r) t follow b e) (atm_upd L (st_setLink (length q)) q ++ [st_new]) = grown q L [out_st r t follow b e]).
  { unfold grown, out_st. rewrite <- (atm_upd_len L (st_setLink (length q)) q) at 1. apply atm_upd_snoc1. }
  rewrite Ea. exists (grown q L [out_st r t follow b e]), (length q).
  assert (GL : length (grown q L [out_st r t follow b e]) = S (length q)) by (rewrite (grown_len q L stL _ L2); cbn [length]; lia).
  splits; auto.
  - apply Hn. lia.
  - constructor; auto; try lia. intro h. rewrite G4, L4, Hp. unfold sm. cbn [map]. rewrite !list_sum_cons. cbn. lia.
  - lia.
  - rewrite G3, L4. exact Hp.
Qed.
