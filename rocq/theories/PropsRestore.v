(** The memory of the selector: C73. *)
From Coq Require Import Lia.
From Verif Require Import Base Charset XmlScanner PathAtm PathSelect PathSpec PathProg PathContext PropsPath.

(** ** C73: closed tags leave nothing behind in the selector.
    Elements of complete tags: every tag opened is closed *)
Inductive complete : list event -> Prop :=
| cp_nil : complete []
| cp_flat e k l : e <> EOpenTag -> e <> ECloseTag -> e <> ECloseTagIm -> complete l -> complete ((e, k) :: l)
| cp_tag n c k l l2 : c = ECloseTag \/ c = ECloseTagIm -> complete l -> complete l2 -> complete (((EOpenTag, n) :: l ++ [(c, k)]) ++ l2).

(** what changes with the results for one element *)
Definition grows (s s' : sel) : Prop :=
  s_stk s' = s_stk s /\ s_type s' = s_type s /\ (exists fs, s_follows s' = s_follows s ++ fs) /\ (exists ts, map t_state (s_toks s') = map t_state (s_toks s) ++ ts) /\
  sc_from (s_scope s') = sc_from (s_scope s) /\ sc_to (s_scope s') = sc_to (s_scope s) /\ sc_fidx (s_scope s') = sc_fidx (s_scope s) /\
  (forall e, m_matches (sc_mask (s_scope s)) e = true -> m_matches (sc_mask (s_scope s')) e = true).
Lemma grows_same s s' : s_stk s' = s_stk s -> s_type s' = s_type s -> s_follows s' = s_follows s -> map t_state (s_toks s') = map t_state (s_toks s) -> s_scope s' = s_scope s -> grows s s'.
Proof. intros A B C D E. unfold grows. rewrite A, B, C, D, E. repeat split; try (exists []; rewrite app_nil_r; reflexivity). auto. Qed.
Lemma grows_refl s : grows s s.
Proof. apply grows_same; reflexivity. Qed.
Lemma grows_trans s1 s2 s3 : grows s1 s2 -> grows s2 s3 -> grows s1 s3.
Proof.
  intros (A1 & A2 & (f1 & A3) & (t1 & A4) & A5 & A6 & A7 & A8) (B1 & B2 & (f2 & B3) & (t2 & B4) & B5 & B6 & B7 & B8). unfold grows.
  split; [congruence|]. split; [congruence|]. split; [exists (f1 ++ f2); rewrite B3, A3, app_assoc; reflexivity|]. split; [exists (t1 ++ t2); rewrite B4, A4, app_assoc; reflexivity|].
  repeat split; try congruence. auto.
Qed.
Lemma join_matches m1 m2 e : m_matches m1 e = true -> m_matches (m_join m1 m2) e = true.
Proof.
  unfold m_matches, m_join. cbn [m_pos]. rewrite !negb_true_iff, !N.eqb_neq. intros H X. apply H. apply N.bits_inj_0. intro n.
  pose proof (f_equal (fun x => N.testbit x n) X) as Y. cbn beta in Y. rewrite N.land_spec, N.lor_spec, N.bits_0 in Y. rewrite N.land_spec. destruct (N.testbit (m_pos m1) n), (N.testbit (2 ^ etype_idx e) n); try reflexivity; discriminate Y.
Qed.
Lemma map_upd i (t : tok) c l : nth_error l i = Some t -> map t_state (upd i (mkTok c (t_state t)) l) = map t_state l.
Proof. revert i. induction l as [|x l IH]; intros [|i] H; try discriminate H; cbn in *; [injection H as ->; reflexivity|f_equal; apply IH; exact H]. Qed.
Lemma grows_set_tok i c s : grows s (sel_set_tok i c s).
Proof.
  unfold sel_set_tok. destruct (nth_error (s_toks s) i) as [t|] eqn:E; [|apply grows_refl]. apply grows_same; try reflexivity. apply map_upd. exact E.
Qed.
Lemma grows_iter i s : grows s (sel_set_iter i s).
Proof. apply grows_same; reflexivity. Qed.
Lemma grows_trig t s : grows s (sel_set_trig t s).
Proof. apply grows_same; reflexivity. Qed.
Lemma grows_no_key s : grows s (sel_no_key s).
Proof. apply grows_same; reflexivity. Qed.
Lemma grows_expand1 i st s : grows s (expand1 i st s).
Proof.
  unfold expand1. destruct (m_empty _ && _); unfold grows; cbn [s_stk s_type s_follows s_toks s_scope sc_from sc_to sc_fidx sc_mask].
  - repeat split; try (exists []; rewrite app_nil_r; reflexivity). intros e. apply join_matches.
  - repeat split; [destruct (c_follow _); [eexists; reflexivity|exists []; rewrite app_nil_r; reflexivity]|eexists; rewrite map_app; reflexivity|]. intros e. apply join_matches.
Qed.
Lemma grows_expand : forall f a i s s' u, expand f a i s = Ret s' u -> grows s s'.
Proof.
  induction f as [|f IH]; intros a i s s' u E; cbn [expand] in E; [discriminate E|]. destruct i as [i|]; [|injection E as <- _; apply grows_refl].
  destruct (nth_error a i) as [st|]; [|discriminate E]. eapply grows_trans; [apply grows_expand1|exact (IH _ _ _ _ _ E)].
Qed.
Lemma grows_produce a i st s s' u : sel_produce a i st s = Ret s' u -> grows s s'.
Proof.
  unfold sel_produce. destruct (nth_error (s_toks s) i) as [tk|]; [|discriminate]. destruct (count_down (t_core tk)) as [c go]. destruct go; intro E.
  - eapply grows_trans; [apply grows_set_tok|exact (grows_expand _ _ _ _ _ _ E)].
  - injection E as <- _. apply grows_set_tok.
Qed.
Lemma grows_match a i s s' t : sel_match a i s = Ret s' t -> grows s s'.
Proof.
  unfold sel_match. destruct (s_key s) as [key|]; [|intro E; injection E as <- _; apply grows_refl]. destruct (Nat.leb _ i); [intro E; injection E as <- _; apply grows_refl|].
  destruct (nth_error (s_toks s) i) as [tk|]; [|discriminate].
  intro E. apply bind_ret in E. destruct E as (s1 & rt & E1 & E2).
  assert (G1 : grows s s1).
  { destruct (m_matches _ _); [|injection E1 as <- _; apply grows_refl]. destruct (nth_error a (t_state tk)) as [st|]; [|discriminate E1].
    apply bind_ret in E1. destruct E1 as (s2 & u & E1 & E3).
    assert (G2 : grows s s2) by (destruct (match st_key st with Some k => key_eqb k key | None => true end); [exact (grows_produce _ _ _ _ _ _ E1)|injection E1 as <- _; apply grows_refl]).
    eapply grows_trans; [exact G2|]. destruct (nth_error (s_toks s2) i) as [tk2|]; [|discriminate E3]. destruct (c_type (t_core tk2) =? 0)%Z; [injection E3 as <- _; apply grows_refl|].
    destruct (count_down (t_core tk2)) as [c go]. injection E3 as <- _. apply grows_set_tok. }
  eapply grows_trans; [exact G1|]. destruct (nth_error (s_toks s1) i) as [tk1|]; [|discriminate E2]. injection E2 as <- _. destruct (m_rejects _ _); [apply grows_set_tok|apply grows_refl].
Qed.
Lemma grows_loop : forall f a s s' t, fetch_loop f a s = Ret s' t -> grows s s' /\ (t = 0%Z -> s_trig s' = []).
Proof.
  induction f as [|f IH]; intros a s s' t E; cbn [fetch_loop] in E; [discriminate E|].
  assert (A : forall s1 t1, (if (t1 =? 0)%Z then fetch_loop f a s1 else Ret s1 t1) = Ret s' t -> grows s1 s' /\ (t = 0%Z -> s_trig s' = [])).
  { intros s1 t1 E1. destruct (t1 =? 0)%Z eqn:Et; [exact (IH _ _ _ _ E1)|]. injection E1 as <- <-. split; [apply grows_refl|]. intros ->. discriminate Et. }
  assert (T : match s_trig s with t0 :: l => (if (t0 =? 0)%Z then fetch_loop f a (sel_set_trig l s) else Ret (sel_set_trig l s) t0) | [] => Ret (sel_no_key s) 0%Z end = Ret s' t -> grows s s' /\ (t = 0%Z -> s_trig s' = [])).
  { destruct (s_trig s) as [|t0 l] eqn:Es; intro E1.
    - injection E1 as <- <-. split; [apply grows_no_key|]. intros _. exact Es.
    - destruct (A _ _ E1) as [G1 G2]. split; [exact G1|exact G2]. }
  assert (M : forall j, (let! (s, t) := sel_match a j s in if (t =? 0)%Z then fetch_loop f a (sel_set_iter (S (s_iter s)) s) else Ret (sel_set_iter (S (s_iter s)) s) t) = Ret s' t -> grows s s' /\ (t = 0%Z -> s_trig s' = [])).
  { intros j E1. apply bind_ret in E1. destruct E1 as (s1 & t1 & E1 & E2). apply grows_match in E1. destruct (A _ _ E2) as [G1 G2]. split; [eapply grows_trans; [exact E1|exact G1]|exact G2]. }
  destruct (Nat.ltb _ _); [exact (M _ E)|]. destruct (Nat.ltb _ _); [|exact (T E)]. destruct (nth_error (s_follows s) _) as [j|]; [|discriminate E]. destruct (Nat.ltb j _); [exact (M _ E)|exact (T E)].
Qed.
Lemma fetch_all_trig : forall f ff a s s' l, fetch_all f ff a s = Ret s' l -> m_matches (sc_mask (s_scope s)) (s_type s) = true -> s_trig s' = [].
Proof.
  induction f as [|f IH]; intros ff a s s' l E Hm; cbn [fetch_all] in E; [discriminate E|]. apply bind_ret in E. destruct E as (s1 & t & E1 & E2).
  unfold sel_fetch in E1. rewrite Hm in E1. destruct (grows_loop _ _ _ _ _ E1) as [G1 G2]. destruct (t =? 0)%Z eqn:Et.
  - injection E2 as <- <-. apply G2. apply Z.eqb_eq. exact Et.
  - apply bind_ret in E2. destruct E2 as (s2 & l2 & E2 & E3). injection E3 as <- <-. apply (IH _ _ _ _ _ E2). destruct G1 as (_ & -> & _ & _ & _ & _ & _ & G1). apply G1. exact Hm.
Qed.
Lemma grows_fetch_all : forall f ff a s s' l, fetch_all f ff a s = Ret s' l -> grows s s' /\ (s_trig s = [] -> s_trig s' = []).
Proof.
  intros f ff a s s' l E. split.
  - revert s l E. induction f as [|f IH]; intros s l E; cbn [fetch_all] in E; [discriminate E|]. apply bind_ret in E. destruct E as (s1 & t & E1 & E2).
    assert (G1 : grows s s1) by (unfold sel_fetch in E1; destruct (m_matches _ _); [exact (proj1 (grows_loop _ _ _ _ _ E1))|injection E1 as <- _; apply grows_no_key]).
    destruct (t =? 0)%Z; [injection E2 as <- _; exact G1|]. apply bind_ret in E2. destruct E2 as (s2 & l2 & E2 & E3). injection E3 as <- <-. eapply grows_trans; [exact G1|exact (IH _ _ E2)].
  - intro Ht. destruct (m_matches (sc_mask (s_scope s)) (s_type s)) eqn:Em; [exact (fetch_all_trig _ _ _ _ _ _ E Em)|].
    destruct f as [|f]; cbn [fetch_all] in E; [discriminate E|]. unfold sel_fetch in E. rewrite Em in E. cbn [bind Z.eqb] in E. injection E as <- _. exact Ht.
Qed.

(** After the tags of complete elements the stacks, the tokens with their states and what is visible are as before; only elements that are no tags (attributes,
    content and the like) add tokens. *)
Definition kept (s s' : sel) : Prop :=
  s_stk s' = s_stk s /\ (exists fs, s_follows s' = s_follows s ++ fs) /\ (exists ts, map t_state (s_toks s') = map t_state (s_toks s) ++ ts).
Lemma kept_trans s1 s2 s3 : kept s1 s2 -> kept s2 s3 -> kept s1 s3.
Proof.
  intros (A1 & (f1 & A3) & (t1 & A4)) (B1 & (f2 & B3) & (t2 & B4)). split; [congruence|]. split; [exists (f1 ++ f2); rewrite B3, A3, app_assoc; reflexivity|exists (t1 ++ t2); rewrite B4, A4, app_assoc; reflexivity].
Qed.
Lemma run_app : forall f ff a l1 l2 s s' rs, sel_run f ff a (l1 ++ l2) s = Ret s' rs -> exists s1 r1 r2, sel_run f ff a l1 s = Ret s1 r1 /\ sel_run f ff a l2 s1 = Ret s' r2 /\ rs = r1 ++ r2.
Proof.
  intros f ff a. induction l1 as [|[e k] l1 IH]; intros l2 s s' rs E; [exists s, [], rs; split; [reflexivity|]; split; [exact E|reflexivity]|].
  cbn [app sel_run] in E |- *. apply bind_ret in E. destruct E as (s1 & r & E1 & E2). apply bind_ret in E2. destruct E2 as (s2 & rs2 & E2 & E3). injection E3 as <- <-.
  destruct (IH _ _ _ _ E2) as (s3 & r1 & r2 & H1 & H2 & ->). exists s3, (r :: r1), r2. rewrite E1. cbn [bind]. rewrite H1. split; [reflexivity|]. split; [exact H2|reflexivity].
Qed.

(** the scope of the element around, as it is saved with an open tag *)
Definition outer (s : sel) : scope :=
  mkScope (sc_mask (s_scope s)) (sc_fmask (s_scope s)) (match s_type s with EOpenTag => sc_to (s_scope s) | _ => sc_from (s_scope s) end) (length (s_toks s)) (length (s_follows s)).

Lemma firstn_app_exact {A} (x y : list A) : firstn (length x) (x ++ y) = x.
Proof. rewrite firstn_app, Nat.sub_diag, firstn_all. cbn [firstn]. apply app_nil_r. Qed.
Lemma element_grows f ff a e k s s' r : sel_element f ff a e k s = Ret s' r -> exists s1, grows (sel_init e k s) s1 /\ (s_trig s = [] -> s_trig s1 = []) /\ sel_close s1 = Ret s' tt.
Proof.
  unfold sel_element. intro E. apply bind_ret in E. destruct E as (s1 & l & E1 & E2). apply bind_ret in E2. destruct E2 as (s2 & [] & E2 & E3). injection E3 as <- <-.
  destruct (grows_fetch_all _ _ _ _ _ _ E1) as [G1 G2]. exists s1. split; [exact G1|]. split; [|exact E2]. intro H. apply G2. destruct e; exact H.
Qed.
Lemma flat_kept f ff a e k s s' r : e <> EOpenTag -> e <> ECloseTag -> e <> ECloseTagIm -> sel_element f ff a e k s = Ret s' r -> s_trig s = [] -> kept s s' /\ s_trig s' = [].
Proof.
  intros H1 H2 H3 E Ht. destruct (element_grows _ _ _ _ _ _ _ _ E) as (s1 & (G1 & G2 & G3 & G4 & _) & T & C). specialize (T Ht).
  assert (X : s' = s1). { unfold sel_close in C. rewrite G2 in C. destruct e; try contradiction; cbn in C; injection C as <-; reflexivity. } subst s'.
  split; [|exact T]. unfold kept. destruct e; try contradiction; exact (conj G1 (conj G3 G4)).
Qed.
Lemma tag_kept n c k l : c = ECloseTag \/ c = ECloseTagIm -> (forall f ff a s s' rs, sel_run f ff a l s = Ret s' rs -> s_trig s = [] -> kept s s' /\ s_trig s' = []) ->
    forall f ff a s s' rs, sel_run f ff a ((EOpenTag, n) :: l ++ [(c, k)]) s = Ret s' rs -> s_trig s = [] ->
    s_stk s' = s_stk s /\ s_follows s' = s_follows s /\ map t_state (s_toks s') = map t_state (s_toks s) /\ s_scope s' = outer s /\ s_trig s' = [] /\ s_type s' = c.
Proof.
  intros Hc IH f ff a s s' rs E Ht. cbn [sel_run] in E. apply bind_ret in E. destruct E as (s1 & r1 & E1 & E2). apply bind_ret in E2. destruct E2 as (s2 & rs2 & E2 & E3). injection E3 as <- _.
  apply run_app in E2. destruct E2 as (s3 & r3 & r4 & E2 & E4 & _). cbn [sel_run] in E4. apply bind_ret in E4. destruct E4 as (s5 & r5 & E4 & E5). cbn [bind] in E5. injection E5 as <- _.
  destruct (element_grows _ _ _ _ _ _ _ _ E1) as (s6 & (G1 & G2 & (fs & G3) & (ts & G4) & _) & T1 & C1). specialize (T1 Ht).
  assert (X : s1 = s6). { unfold sel_close in C1. rewrite G2 in C1. cbn in C1. injection C1 as <-. reflexivity. } subst s6. clear C1.
  destruct (IH _ _ _ _ _ _ E2 T1) as ((K1 & (fs2 & K2) & (ts2 & K3)) & T2).
  destruct (element_grows _ _ _ _ _ _ _ _ E4) as (s7 & (H1 & H2 & (fs3 & H3) & (ts3 & H4) & _) & T3 & C3). specialize (T3 T2).
  cbn [sel_init s_stk s_follows s_toks s_type] in G1, G3, G4.
  assert (Hs7 : s_stk s7 = s_stk s3 /\ s_follows s7 = s_follows s3 ++ fs3 /\ map t_state (s_toks s7) = map t_state (s_toks s3) ++ ts3 /\ s_type s7 = c) by (destruct Hc as [-> | ->]; repeat split; assumption).
  clear H1 H2 H3 H4. destruct Hs7 as (H1 & H3 & H4 & H2).
  unfold sel_close in C3. rewrite H2, H1, K1, G1 in C3.
  assert (Q : (if Nat.leb (length (s_follows s)) (length (s_follows s7)) && Nat.leb (length (s_toks s)) (length (s_toks s7))
      then Ret (mkSel (s_stk s) (firstn (length (s_follows s)) (s_follows s7)) (s_trig s7) (firstn (length (s_toks s)) (s_toks s7)) c (s_key s7) (outer s) (s_iter s7)) tt else Undef) = Ret s5 tt) by (destruct Hc as [-> | ->]; exact C3).
  destruct (_ && _); [|discriminate Q]. injection Q as <-. cbn [s_stk s_follows s_toks s_scope s_trig s_type].
  split; [reflexivity|]. split; [rewrite H3, K2, G3, <- !app_assoc; apply firstn_app_exact|]. split; [|split; [reflexivity|split; [exact T3|reflexivity]]].
  rewrite <- firstn_map, H4, K3, G4, <- !app_assoc. rewrite <- (map_length t_state (s_toks s)). apply firstn_app_exact.
Qed.
Lemma complete_kept : forall l, complete l -> forall f ff a s s' rs, sel_run f ff a l s = Ret s' rs -> s_trig s = [] -> kept s s' /\ s_trig s' = [].
Proof.
  intros l H. induction H as [|e k l H1 H2 H3 H IH|n c k l l2 Hc H IH Hl2 IH2]; intros f ff a s s' rs E Ht.
  - injection E as <- _. split; [|exact Ht]. split; [reflexivity|]. split; exists []; rewrite app_nil_r; reflexivity.
  - cbn [sel_run] in E. apply bind_ret in E. destruct E as (s1 & r1 & E1 & E2). apply bind_ret in E2. destruct E2 as (s2 & rs2 & E2 & E3). injection E3 as <- _.
    destruct (flat_kept _ _ _ _ _ _ _ _ H1 H2 H3 E1 Ht) as [K1 T1]. destruct (IH _ _ _ _ _ _ E2 T1) as [K2 T2]. split; [exact (kept_trans _ _ _ K1 K2)|exact T2].
  - apply run_app in E. destruct E as (s1 & r1 & r2 & E1 & E2 & _). destruct (tag_kept n c k l Hc IH _ _ _ _ _ _ E1 Ht) as (K1 & K2 & K3 & _ & T1 & _).
    destruct (IH2 _ _ _ _ _ _ E2 T1) as [K T2]. split; [|exact T2]. eapply kept_trans; [|exact K]. split; [exact K1|]. split; exists []; rewrite app_nil_r; assumption.
Qed.

(** For every automaton: a tag that is closed again leaves the selector as it was before, but for the counters of the tokens. [s_trig s = []] holds between elements *)
Theorem C73_restored_partial : forall f ff a s s' rs n c k l, c = ECloseTag \/ c = ECloseTagIm -> complete l -> s_trig s = [] ->
  sel_run f ff a ((EOpenTag, n) :: l ++ [(c, k)]) s = Ret s' rs ->
  s_stk s' = s_stk s /\ s_follows s' = s_follows s /\ map t_state (s_toks s') = map t_state (s_toks s) /\ s_scope s' = outer s /\ s_trig s' = [] /\ s_type s' = c.
Proof. intros f ff a s s' rs n c k l Hc Hl Ht E. exact (tag_kept n c k l Hc (complete_kept l Hl) f ff a s s' rs E Ht). Qed.
Print Assumptions C73_restored_partial.

Definition deep : list pathop := [BFollow; BTag (nm "a"); BFollow; BTag (nm "a"); BFollow; BTag (nm "a"); BFollow; BTag (nm "a"); BFollow; BTag (nm "a"); BOut 1].
Fixpoint nested (n : nat) : list event := match n with O => [] | S n => (EOpenTag, str "a") :: nested n end.
Example C73_case : exists a s0 s1 rs, add_paths UTF8 [deep; [BTag (nm "b"); BAttr (nm "x"); BOut 2]] [] = Ret a tt /\ sel_new a = Ret s0 tt /\ s_trig s0 = [] /\
  let l := [(ETagAttribName, str "x"); (ETagAttribValue, str "1"); (EContent, str "t"); (EOpenTag, str "a"); (EOpenTag, str "a"); (ECloseTag, str "a"); (ECloseTagIm, [])] in
  complete l /\ sel_run 100 100 a ((EOpenTag, str "b") :: l ++ [(ECloseTag, str "b")]) s0 = Ret s1 rs /\ In 2%Z (concat rs).
Proof.
  do 4 eexists. split; [vm_compute; reflexivity|]. split; [vm_compute; reflexivity|]. split; [reflexivity|]. split.
  - repeat (apply cp_flat; [discriminate|discriminate|discriminate|]).
    apply (cp_tag (str "a") ECloseTagIm [] [(EOpenTag, str "a"); (ECloseTag, str "a")] []); [right; reflexivity| |constructor].
    apply (cp_tag (str "a") ECloseTag (str "a") [] []); [left; reflexivity|constructor|constructor].
  - split; [vm_compute; reflexivity|]. vm_compute. tauto.
Qed.
(** Refuted: there are more tokens than one for every state and open tag; with an expression that looks for k tags in all descendants the tokens
    grow with the k-th power of the depth. *)
Theorem C73_refuted : exists a s0 s1 rs, add_paths UTF8 [deep] [] = Ret a tt /\ sel_new a = Ret s0 tt /\ sel_run 2000 2000 a (nested 12) s0 = Ret s1 rs /\
  length a = 12%nat /\ Nat.ltb (length a * (12 + 1)) (length (s_toks s1)) = true.
Proof. do 4 eexists. split; [vm_compute; reflexivity|]. split; [vm_compute; reflexivity|]. split; [vm_compute; reflexivity|]. split; vm_compute; reflexivity. Qed.
Print Assumptions C73_refuted.
