(** Paths defined while a selector is in use (proofs). *)
From Coq Require Import Lia.
From Verif Require Import Base Charset XmlScanner PathAtm PathSelect PathSpec PathExtra PathProg PathInspect InspectSpec PathRun1 PathRun8 InspectSafe SelSafe PathBuild3 SelGrowSpec SelGrow.

Definition filled : list N -> Prop := fun k => k <> [].
Definition lab_ok (cs : charset) (l : lab) : Prop := match l with LStep _ _ (Some n) => usable cs n | _ => True end.
Definition ops_names (os : list pathop) : list (list N) := flat_map op_names os.
Lemma labs_ok cs : forall os deep, (forall n, In n (ops_names os) -> usable cs n) -> Forall (lab_ok cs) (steps_of deep os).
Proof.
  induction os as [|o os IH]; intros deep Hn; cbn [steps_of]; [constructor|]. unfold ops_names in Hn. cbn [flat_map] in Hn.
  assert (Hr : forall n, In n (ops_names os) -> usable cs n) by (intros n Q; apply Hn, in_or_app; right; exact Q).
  destruct o as [n| |n|n v| | | | | | |]; try (apply IH; exact Hr); try (constructor; [|apply IH; exact Hr]); try exact I.
  - destruct n as [n|]; [|exact I]. apply Hn. left. reflexivity.
  - destruct n as [n|]; [|exact I]. apply Hn. left. reflexivity.
  - constructor; [|constructor; [|apply IH; exact Hr]].
    + destruct n as [n|]; [|exact I]. apply Hn. left. reflexivity.
    + destruct v as [v|]; [|exact I]. apply Hn. apply in_or_app. left. destruct n; cbn; auto.
Qed.
Lemma ok_keys cs l : lab_ok cs l -> lab_keys cs filled l.
Proof. destruct l as [op fo [n|]|]; cbn; auto. intros [Hn Hk] k E. rewrite Hk in E. injection E as <-. exact Hn. Qed.
Lemma paths_keys cs ps : (forall n, In n (prog_names ps) -> usable cs n) -> Forall (Forall (lab_keys cs filled)) (map (steps_of false) ps).
Proof.
  intro Hn. apply Forall_forall. intros ls Hl. apply in_map_iff in Hl. destruct Hl as (os & <- & Ho). eapply Forall_impl; [apply ok_keys|]. apply labs_ok. intros n Q. apply Hn. unfold prog_names. apply in_flat_map. eauto.
Qed.
Lemma head_in : forall ls l, head_of ls = Some l -> In l ls.
Proof. induction ls as [|x ls IH]; intros l E; [discriminate|]. destruct x; cbn [head_of] in E; [injection E as <-; left; reflexivity|right; auto]. Qed.
Lemma heads_ok cs ps l : (forall n, In n (prog_names ps) -> usable cs n) -> heads ps l -> lab_ok cs l.
Proof.
  intros Hn (os & Ho & E). apply head_in in E. assert (F := labs_ok cs os false). rewrite Forall_forall in F. apply F; [|exact E]. intros n Q. apply Hn. unfold prog_names. apply in_flat_map. eauto.
Qed.
Lemma usable_read cs ps : (forall n, In n (prog_names ps) -> usable cs n) -> forall n, In n (prog_names ps) -> name_read cs n.
Proof. intros H n Q. destruct (H n Q) as [_ E]. exists n. exact E. Qed.
Lemma built_new : built filled (fun k => Nat.eqb k 0) [st_new].
Proof.
  constructor; [exact up_new| |].
  - split; [reflexivity|]. intros [|i] st E; [injection E as <-; split; discriminate|destruct i; discriminate].
  - intros [|i] st key E; [injection E as <-; discriminate|destruct i; discriminate].
Qed.
Lemma first_built cs ps : (forall n, In n (prog_names ps) -> usable cs n) -> Forall (Forall op_fits) ps ->
  exists a mk, add_paths cs ps [] = Ret a tt /\ csteps cs (map (steps_of false) ps) [] a /\ built filled mk (nrm a) /\ roots_in cs (heads ps) mk (nrm a).
Proof.
  intros Hn Hf. destruct (add_steps cs ps [] up_new (usable_read _ _ Hn) Hf) as (a & E & S).
  destruct (csteps_roots cs (heads ps) filled _ _ _ S _ built_new (paths_keys _ _ Hn)) as (mk & B & R).
  - intros [|k] st key E' _ Q; [injection E' as <-; discriminate Q|destruct k; discriminate].
  - intros ls l Hl Hh. apply in_map_iff in Hl. destruct Hl as (os & <- & Ho). exists os. auto.
  - exists a, mk. auto.
Qed.
Lemma add_app cs : forall ps qs a, add_paths cs (ps ++ qs) a = bind (add_paths cs ps a) (fun a _ => add_paths cs qs a).
Proof. induction ps as [|os ps IH]; intros qs a; cbn [app add_paths bind]; [reflexivity|]. destruct (pe_ops cs os pe_root a); cbn [bind]; try reflexivity. apply IH. Qed.
Lemma names_app ps qs : prog_names (ps ++ qs) = prog_names ps ++ prog_names qs.
Proof. apply flat_map_app. Qed.

(** ** any paths *)
Lemma g_total cs : forall l a s, atm_up (nrm a) -> Safe a s -> (forall n, In n (prog_names (g_paths l)) -> name_read cs n) -> Forall (Forall op_fits) (g_paths l) ->
  exists N a' s' rs, add_paths cs (g_paths l) a = Ret a' tt /\ Safe a' s' /\ length rs = length (g_elements l) /\ forall f ff, (N <= f)%nat -> (N <= ff)%nat -> g_run f ff cs l a s = Ret (a', s') rs.
Proof.
  induction l as [|c l IH]; intros a s W HS Hn Hf; [exists O, a, s, []; auto|]. destruct c as [os|e k]; cbn [g_paths g_elements flat_map app] in *.
  - fold (g_paths l) in *. fold (g_elements l) in *. apply Forall_cons_iff in Hf. destruct Hf as [Hf1 Hf2]. unfold prog_names in Hn. cbn [flat_map] in Hn.
    destruct (add_steps cs [os] a W) as (a1 & E1 & S1); [intros n Q; apply Hn, in_or_app; left; unfold prog_names in Q; cbn in Q; rewrite app_nil_r in Q; exact Q|constructor; auto|].
    destruct (csteps_any _ _ _ _ S1 (nrm a) W (same_refl _ _)) as [Sm W1].
    assert (S1' : Safe a1 s) by (eapply safe_same; [eapply same_raw; [exact Sm|eapply csteps_ne; exact S1]|exact HS]).
    destruct (IH a1 s W1 S1') as (N & a' & s' & rs & E2 & S2 & L & R); [intros n Q; apply Hn, in_or_app; right; exact Q|exact Hf2|].
    exists N, a', s', rs. split; [change (os :: g_paths l) with ([os] ++ g_paths l); rewrite add_app, E1; exact E2|]. split; [exact S2|]. split; [exact L|]. intros f ff H1 H2. cbn [g_run]. rewrite E1. apply R; assumption.
  - fold (g_paths l) in *. fold (g_elements l) in *. destruct (element_total a (up_nrm a W) e (Some k) s HS) as (N1 & s1 & r & S1 & E1). destruct (IH a s1 W S1 Hn Hf) as (N2 & a' & s' & rs & E2 & S2 & L & R).
    exists (N1 + N2)%nat, a', s', (r :: rs). split; [exact E2|]. split; [exact S2|]. split; [cbn; congruence|]. intros f ff H1 H2. cbn [g_run]. rewrite E1 by lia. rewrite R by lia. reflexivity.
Qed.

(** ** paths with a new first step *)
Lemma nrm_nth a k st : nth_error a k = Some st -> nth_error (nrm a) k = Some st.
Proof. destruct a; [destruct k; discriminate|auto]. Qed.
Lemma fresh_new cs P a mk os l ls : (forall n, In n (prog_names P) -> usable cs n) -> (forall n, In n (ops_names os) -> usable cs n) -> built filled mk (nrm a) -> roots_in cs (heads P) mk (nrm a) ->
  (forall op fo n, begins os (LStep op fo (Some n)) -> ~ heads P (LStep op fo (Some n))) -> steps_of false os = l :: ls -> fresh cs (nrm a) mk l.
Proof.
  intros HP HQ B R Nw E. pose proof (labs_ok cs os false HQ) as Ok. rewrite E in Ok. apply Forall_inv in Ok. destruct l as [op fo n|]; [|exact I]. intros key k st Hk Ek Mk. destruct (fitting op fo key st) eqn:F; [exfalso|reflexivity].
  unfold fitting in F. destruct (st_key st) as [k'|] eqn:Ks; [|discriminate]. apply andb_prop in F. destruct F as [F F3]. apply andb_prop in F. destruct F as [F1 F2]. apply eqb_prop in F1. apply m_eqb_eq in F2. apply key_eqb_eq in F3.
  destruct n as [n|]; cbn [key_of] in Hk.
  - destruct Hk as (x & Ex & ->). destruct Ok as [On Ok]. rewrite Ok in Ex. injection Ex as <-. subst k'. destruct (R k st n Ek Mk Ks) as (op' & n' & Hh & Hm & Hs). rewrite F1 in Hh.
    assert (op' = op) by (apply m_op_inj; congruence). subst op'. pose proof (heads_ok cs P _ HP Hh) as [_ Us]. rewrite Us in Hs. injection Hs as ->. apply (Nw op fo n); [exists ls; exact E|exact Hh].
  - subst key k'. apply (bu_key _ _ _ B k st [] Ek Ks). reflexivity.
Qed.
Lemma late_run cs P a0 mk0 f ff : (forall n, In n (prog_names P) -> usable cs n) -> built filled mk0 (nrm a0) -> roots_in cs (heads P) mk0 (nrm a0) ->
  forall l a mk s s' rs, built filled mk (nrm a) -> (forall k, (k < length (nrm a0))%nat -> mk k = mk0 k) -> same (fun k => negb (mk0 k)) (nrm a0) (nrm a) -> (a0 <> [] -> a <> []) ->
  (forall n, In n (prog_names (g_paths l)) -> usable cs n) -> Forall (Forall op_fits) (g_paths l) ->
  (forall os op fo n, In os (g_paths l) -> begins os (LStep op fo (Some n)) -> ~ heads P (LStep op fo (Some n))) ->
  sel_run f ff a0 (g_elements l) s = Ret s' rs -> exists a', add_paths cs (g_paths l) a = Ret a' tt /\ g_run f ff cs l a s = Ret (a', s') rs.
Proof.
  intros HP B0 R0. induction l as [|c l IH]; intros a mk s s' rs B Ag Sm Ne Hn Hf Nw E; [cbn [g_elements flat_map sel_run] in E; injection E as <- <-; exists a; auto|]. destruct c as [os|e k]; cbn [g_paths g_elements flat_map app] in *; fold (g_paths l) in *; fold (g_elements l) in *.
  - apply Forall_cons_iff in Hf. destruct Hf as [Hf1 Hf2]. unfold prog_names in Hn. cbn [flat_map] in Hn.
    assert (Ho : forall n, In n (ops_names os) -> usable cs n) by (intros n Q; apply Hn, in_or_app; left; exact Q).
    assert (Hp : forall n, In n (prog_names [os]) -> usable cs n) by (intros n Q; unfold prog_names in Q; cbn in Q; rewrite app_nil_r in Q; auto).
    destruct (add_steps cs [os] a (bu_up _ _ _ B)) as (a1 & E1 & S1); [apply usable_read; exact Hp|constructor; auto|].
    assert (Ne1 : a0 <> [] -> a1 <> []) by (intro Q; eapply csteps_ne; [exact S1|auto]).
    destruct (csteps_built cs filled _ _ _ S1 mk B (paths_keys _ _ Hp)) as (mk1 & B1 & A1 & L1).
    assert (Sm1 : same (fun k => negb (mk0 k)) (nrm a0) (nrm a1)).
    { cbn [map] in S1. inversion S1 as [|x1 x2 x3 b x4 i Q1 Q2 Q3]; subst. inversion Q3; subst. eapply (steps_late cs (nrm a0) mk0 filled (nrm_len a0)); eauto using nrm_len.
      - pose proof (paths_keys cs [os] Hp) as F. apply Forall_inv in F. exact F.
      - intros _ l0 ls' El. apply (fresh_new cs P a0 mk0 os l0 ls' HP Ho B0 R0); [|exact El]. intros op fo n. apply Nw. left. reflexivity. }
    destruct (IH a1 mk1 s s' rs B1) as (a' & E2 & R2); try assumption.
    + intros k Hk. rewrite A1; [apply Ag; exact Hk|]. pose proof (sm_len _ _ _ Sm). lia.
    + intros n Q. apply Hn, in_or_app. right. exact Q.
    + intros o op fo n Q. apply Nw. right. exact Q.
    + exists a'. split; [change (os :: g_paths l) with ([os] ++ g_paths l); rewrite add_app, E1; exact E2|]. cbn [g_run]. rewrite E1. exact R2.
  - cbn [sel_run] in E. apply bind_Ret in E. destruct E as (s1 & r & E1 & E). apply bind_Ret in E. destruct E as (s2 & rs2 & E2 & E). injection E as <- <-.
    destruct (IH a mk s1 s2 rs2 B Ag Sm Ne Hn Hf Nw E2) as (a' & E3 & R3). exists a'. split; [exact E3|]. cbn [g_run].
    destruct B0 as [_ [_ M] _].
    rewrite (element_frame a0 a (fun k => negb (mk0 k)) (same_raw _ _ _ Sm Ne)) with (s' := s1) (l := r); [rewrite R3; reflexivity| | |exact E1].
    + intros x st j Ex Lx Ux. destruct (M x st (nrm_nth _ _ _ Ex)) as [M1 _]. rewrite (M1 j Lx). exact Ux.
    + intros x st j Ex Nx. destruct (M x st (nrm_nth _ _ _ Ex)) as [_ M2]. rewrite (M2 j Nx). reflexivity.
Qed.

(** ** paths that begin as others *)
Lemma csteps_early cs a0 mk0 : built filled mk0 (nrm a0) -> forall lss a a', csteps cs lss a a' -> forall mk, built filled mk (nrm a) -> (forall k, (k < length (nrm a0))%nat -> mk k = mk0 k) ->
  Forall (Forall (lab_keys cs filled)) lss -> Forall (known cs (nrm a0)) lss -> same mk0 (nrm a0) (nrm a) -> same mk0 (nrm a0) (nrm a').
Proof.
  intros B0 lss a a' S. induction S as [a|ls lss a a1 a2 i S1 _ S2 IH]; intros mk B Ag HK Kn Sm; [exact Sm|]. apply Forall_cons_iff in HK. destruct HK as [HK1 HK2]. apply Forall_cons_iff in Kn. destruct Kn as [Kn1 Kn2].
  destruct (steps_built _ _ _ _ _ _ _ S1 mk B (nrm_len a) HK1) as (mk1 & B1 & A1). pose proof (sm_len _ _ _ Sm). apply (IH mk1 B1); try assumption; [intros k Hk; rewrite A1 by lia; apply Ag; exact Hk|].
  eapply (steps_early cs (nrm a0) mk0 filled (nrm_len a0) (bu_mark _ _ _ B0)); eauto using nrm_len, bu_up.
Qed.
Lemma no_waits op fo key : ~ waits [st_new] op fo key.
Proof. intros (k & st & _ & E & F). destruct k as [|k]; [injection E as <-; discriminate F|destruct k; discriminate]. Qed.
Lemma early_new cs P Q : (forall n, In n (prog_names (P ++ Q)) -> usable cs n) -> Forall (Forall op_fits) (P ++ Q) ->
  (forall os, In os Q -> exists op fo n, begins os (LStep op fo (Some n)) /\ heads P (LStep op fo (Some n))) ->
  exists a a' s, add_paths cs P [] = Ret a tt /\ add_paths cs Q a = Ret a' tt /\ sel_new a = Ret s tt /\ sel_new a' = Ret s tt.
Proof.
  intros Hn Hf Hb. rewrite names_app in Hn. apply Forall_app in Hf. destruct Hf as [Hf1 Hf2].
  assert (HP : forall n, In n (prog_names P) -> usable cs n) by (intros n X; apply Hn, in_or_app; left; exact X). assert (HQ : forall n, In n (prog_names Q) -> usable cs n) by (intros n X; apply Hn, in_or_app; right; exact X).
  destruct (first_built cs P HP Hf1) as (a & mk & E & S & B & R). destruct (csteps_waits _ _ _ _ S up_new) as [_ Wt].
  destruct (add_steps cs Q a (bu_up _ _ _ B) (usable_read _ _ HQ) Hf2) as (a' & E' & S'). destruct (sel_new_safe a (up_nrm a (bu_up _ _ _ B))) as (s & Es & _).
  exists a, a', s. split; [exact E|]. split; [exact E'|]. split; [exact Es|]. destruct Q as [|q Q]; [cbn [add_paths] in E'; injection E' as <-; exact Es|].
  assert (Kn : Forall (known cs (nrm a)) (map (steps_of false) (q :: Q))).
  { apply Forall_forall. intros ls Hl. apply in_map_iff in Hl. destruct Hl as (os & <- & Ho). destruct (Hb os Ho) as (op & fo & n & (ls & El) & Hh). rewrite El. cbn [known]. pose proof (heads_ok cs P _ HP Hh) as [_ Us]. exists n. split; [exact Us|].
    destruct Hh as (p & Hp & Eh). eapply Wt; [apply in_map; exact Hp|exact Eh|exact Us]. }
  assert (Na : a <> []).
  { intros ->. apply Forall_inv in Kn. destruct (Hb q (or_introl eq_refl)) as (op & fo & n & (ls & El) & _). rewrite El in Kn. cbn [known] in Kn. destruct Kn as (key & _ & X). exact (no_waits _ _ _ X). }
  pose proof (csteps_early cs a mk B _ _ _ S' mk B (fun _ _ => eq_refl) (paths_keys _ _ HQ) Kn (same_refl _ _)) as Sm. pose proof (same_raw _ _ _ Sm (csteps_ne _ _ _ _ S')) as Sr. pose proof (csteps_ne _ _ _ _ S' Na) as Na'.
  unfold sel_new in *. destruct a as [|x a]; [congruence|]. destruct a' as [|y a']; [congruence|]. eapply (sel_expand_frame _ _ mk Sr); [|exact Es|].
  - intros k st j Ek Lk Uk. destruct B as [_ [_ M] _]. destruct (M k st Ek) as [M1 _]. rewrite (M1 j Lk). exact Uk.
  - intros j [= <-]. destruct B as [_ [M _] _]. exact M.
Qed.
Lemma g_paths_run cs f ff : forall Q a a' s l, add_paths cs Q a = Ret a' tt -> g_run f ff cs (map GPath Q ++ l) a s = g_run f ff cs l a' s.
Proof.
  induction Q as [|os Q IH]; intros a a' s l E; [cbn [add_paths] in E; injection E as <-; reflexivity|]. change (os :: Q) with ([os] ++ Q) in E. rewrite add_app in E. apply bind_Ret in E. destruct E as (a1 & u & E1 & E2).
  cbn [map app g_run]. rewrite E1. apply IH. exact E2.
Qed.
Lemma g_elements_run cs f ff a : forall evs s s' rs, sel_run f ff a evs s = Ret s' rs -> g_run f ff cs (map (fun x => GElement (fst x) (snd x)) evs) a s = Ret (a, s') rs.
Proof.
  induction evs as [|[e k] evs IH]; intros s s' rs E; cbn [sel_run map g_run fst snd] in *; [injection E as <- <-; reflexivity|]. apply bind_Ret in E. destruct E as (s1 & r & E1 & E). apply bind_Ret in E. destruct E as (s2 & rs2 & E2 & E). injection E as <- <-.
  rewrite E1, (IH _ _ _ E2). reflexivity.
Qed.
