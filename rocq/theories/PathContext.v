(** The context of a selector after an element with all its content, for every automaton; postfix increments. *)
From Coq Require Import Lia ZifyBool ZifyNat.
From Verif Require Import Base XmlScanner PathAtm PathSelect PathSpec.

(** ** Specification *)
(** The nesting after elements; none: more elements are closed than opened *)
Fixpoint levels (n : nat) (evs : list event) : option nat :=
  match evs with [] => Some n | ev :: l => match level_after n (kind_of (fst ev)) with Some n' => levels n' l | None => None end end.
(** An element with its attributes and its content: an open tag, elements in balance and the close tag *)
Definition whole (evs : list event) : Prop :=
  exists o body c, evs = o :: body ++ [c] /\ kind_of (fst o) = KOpen /\ kind_of (fst c) = KClose /\ levels 0 body = Some 0%nat.
(** A token that has no range and refuses no type of element does not change *)
Definition plain (c : core) : Prop := c_end c = (-1)%Z /\ m_neg (c_mask c) = 0.
Record same_tok (tk tk' : tok) : Prop := {
  st_state : t_state tk' = t_state tk;
  st_ctype : c_type (t_core tk') = c_type (t_core tk);
  st_cfollow : c_follow (t_core tk') = c_follow (t_core tk);
  st_cmask : c_mask (t_core tk') = c_mask (t_core tk) \/ c_mask (t_core tk') = m_zero;
  st_cstart : (c_start (t_core tk') <= c_start (t_core tk))%Z;
  st_cend : (c_end (t_core tk') <= c_end (t_core tk))%Z;
  st_plain : plain (t_core tk) -> t_core tk' = t_core tk }.
(** The same context: for the next element everything is the same, with the exception of the counters and refusals of tokens *)
Record same_context (s s' : sel) : Prop := {
  sx_next : forall e k, let x := sel_init e k s in let y := sel_init e k s' in
    s_stk y = s_stk x /\ s_follows y = s_follows x /\ s_scope y = s_scope x /\ s_iter y = s_iter x;
  sx_toks : Forall2 same_tok (s_toks s) (s_toks s') }.

(** ** Proof *)
Lemma same_tok_refl tk : same_tok tk tk.
Proof. constructor; try reflexivity; auto. Qed.
Lemma same_tok_trans a b c : same_tok a b -> same_tok b c -> same_tok a c.
Proof.
  intros [A1 A2 A3 A4 A5 A6 A7] [B1 B2 B3 B4 B5 B6 B7]. constructor; try congruence; try lia.
  - destruct B4 as [B4|B4]; [|right; exact B4]. rewrite B4. exact A4.
  - intro Hp. specialize (A7 Hp). rewrite B7; [exact A7|]. rewrite A7. exact Hp.
Qed.
(** the tokens of [s] are a prefix of the tokens of [s'] *)
Definition longer (l l' : list tok) : Prop := exists l1 l2, l' = l1 ++ l2 /\ Forall2 same_tok l l1.
Lemma Forall2_refl {A} (R : A -> A -> Prop) : (forall x, R x x) -> forall l, Forall2 R l l.
Proof. intros H l. induction l; constructor; auto. Qed.
Lemma Forall2_trans {A} (R : A -> A -> Prop) : (forall x y z, R x y -> R y z -> R x z) -> forall l l' l'', Forall2 R l l' -> Forall2 R l' l'' -> Forall2 R l l''.
Proof. intros H l l' l'' H1. revert l''. induction H1; intros l'' H2; inversion H2; subst; constructor; eauto. Qed.
Lemma Forall2_len {A B} (R : A -> B -> Prop) l l' : Forall2 R l l' -> length l = length l'.
Proof. intro H. induction H; cbn [length]; congruence. Qed.
Lemma longer_refl l : longer l l.
Proof. exists l, []. rewrite app_nil_r. split; [reflexivity|]. apply Forall2_refl, same_tok_refl. Qed.
Lemma Forall2_split {A} (R : A -> A -> Prop) : forall a b c, Forall2 R (a ++ b) c -> exists c1 c2, c = c1 ++ c2 /\ Forall2 R a c1 /\ Forall2 R b c2.
Proof. intros a b c H. apply Forall2_app_inv_l in H. destruct H as (c1 & c2 & H1 & H2 & ->). eauto. Qed.
Lemma longer_trans a b c : longer a b -> longer b c -> longer a c.
Proof.
  intros (a1 & a2 & -> & Ha) (b1 & b2 & -> & Hb). destruct (Forall2_split _ _ _ _ Hb) as (c1 & c2 & -> & H1 & H2).
  exists c1, (c2 ++ b2). rewrite app_assoc. split; [reflexivity|]. eapply Forall2_trans; [exact same_tok_trans|exact Ha|exact H1].
Qed.
Lemma longer_app l l' : longer l (l ++ l').
Proof. exists l, l'. split; [reflexivity|]. apply Forall2_refl, same_tok_refl. Qed.
Lemma longer_len l l' : longer l l' -> (length l <= length l')%nat.
Proof. intros (a & b & -> & H). apply Forall2_len in H. rewrite app_length. lia. Qed.
Lemma longer_firstn l l' n : longer l l' -> (length l <= n)%nat -> longer l (firstn n l').
Proof.
  intros (a & b & -> & H) Hn. pose proof (Forall2_len _ _ _ H) as Hl. rewrite firstn_app. exists a, (firstn (n - length a) b). split; [|exact H].
  rewrite firstn_all2 by lia. reflexivity.
Qed.
Lemma longer_upd : forall l i tk c, nth_error l i = Some tk -> same_tok tk (mkTok c (t_state tk)) -> longer l (upd i (mkTok c (t_state tk)) l).
Proof.
  intros l i tk c Hn Hs. exists (upd i (mkTok c (t_state tk)) l), []. rewrite app_nil_r. split; [reflexivity|].
  revert i Hn. induction l as [|x l IH]; intros i Hn; destruct i as [|i]; cbn [nth_error] in Hn; try discriminate; cbn [upd].
  - injection Hn as ->. constructor; [exact Hs|]. apply Forall2_refl, same_tok_refl.
  - constructor; [apply same_tok_refl|]. apply IH. exact Hn.
Qed.

(** what stays as long as an element is processed *)
Record kept (s s' : sel) : Prop := {
  kp_stk : s_stk s' = s_stk s;
  kp_type : s_type s' = s_type s;
  kp_mask : forall e, m_matches (sc_mask (s_scope s)) e = true -> m_matches (sc_mask (s_scope s')) e = true;
  kp_from : sc_from (s_scope s') = sc_from (s_scope s);
  kp_to : sc_to (s_scope s') = sc_to (s_scope s);
  kp_fidx : sc_fidx (s_scope s') = sc_fidx (s_scope s);
  kp_follows : exists l, s_follows s' = s_follows s ++ l;
  kp_toks : longer (s_toks s) (s_toks s') }.
Lemma kept_refl s : kept s s.
Proof. constructor; try reflexivity; [intros e H; exact H|exists []; rewrite app_nil_r; reflexivity|apply longer_refl]. Qed.
Lemma kept_trans a b c : kept a b -> kept b c -> kept a c.
Proof.
  intros [A1 A2 Am A3 A4 A5 [l A6] A7] [B1 B2 Bm B3 B4 B5 [l' B6] B7]. constructor; try congruence.
  - intros e He. apply Bm. apply Am. exact He.
  - exists (l ++ l'). rewrite B6, A6, app_assoc. reflexivity.
  - eapply longer_trans; eauto.
Qed.
Lemma kept_like s s' : s_stk s' = s_stk s -> s_type s' = s_type s -> s_scope s' = s_scope s -> s_follows s' = s_follows s -> s_toks s' = s_toks s -> kept s s'.
Proof. intros H1 H2 H3 H4 H5. constructor; rewrite ?H3, ?H4, ?H5; auto; [exists []; rewrite app_nil_r; reflexivity|apply longer_refl]. Qed.
Lemma kept_tok s i c tk : nth_error (s_toks s) i = Some tk -> same_tok tk (mkTok c (t_state tk)) -> kept s (sel_set_tok i c s).
Proof.
  intros Hn Hs. unfold sel_set_tok. rewrite Hn. constructor; try reflexivity; [intros e H; exact H|exists []; cbn; rewrite app_nil_r; reflexivity|]. cbn [sel_set_toks s_toks]. apply longer_upd; assumption.
Qed.
Lemma join_matches m m' e : m_matches m e = true -> m_matches (m_join m m') e = true.
Proof.
  unfold m_matches, m_join. cbn [m_pos]. intro H. apply negb_true_iff in H. apply N.eqb_neq in H. apply negb_true_iff, N.eqb_neq. intro E. apply H.
  rewrite N.land_lor_distr_l in E. apply N.lor_eq_0_l in E. exact E.
Qed.
Lemma expand_kept a : forall f i s s' u, expand f a i s = Ret s' u -> kept s s'.
Proof.
  induction f as [|f IH]; intros i s s' u H; cbn [expand] in H; [discriminate|]. destruct i as [i|]; [|injection H as <- <-; apply kept_refl].
  destruct (nth_error a i) as [st|] eqn:E; [|discriminate]. eapply kept_trans; [|exact (IH _ _ _ _ H)].
  unfold expand1. destruct (_ && _); constructor; cbn; try reflexivity; try apply longer_refl; try apply longer_app; try (intro; apply join_matches).
  - exists []. rewrite app_nil_r. reflexivity.
  - destruct (c_follow _); [eexists; reflexivity|exists []; rewrite app_nil_r; reflexivity].
Qed.
Lemma count_down_same tk c b : count_down (t_core tk) = (c, b) -> same_tok tk (mkTok c (t_state tk)).
Proof.
  unfold count_down. destruct (c_end (t_core tk) =? -1)%Z eqn:E1; [intro H; injection H as <- <-; destruct tk; apply same_tok_refl|].
  destruct (0 <? c_end (t_core tk))%Z eqn:E2; [|intro H; injection H as <- <-; destruct tk; apply same_tok_refl].
  apply Z.eqb_neq in E1.
  intro H. destruct (c_start (t_core tk) <=? 0)%Z; injection H as <- <-; constructor; cbn [t_state t_core c_type c_follow c_start c_end c_mask]; try reflexivity; try lia;
    try (destruct (_ =? 0)%Z; auto; fail); intros [Hp _]; congruence.
Qed.
Lemma produce_kept a i st s s' u : sel_produce a i st s = Ret s' u -> kept s s'.
Proof.
  unfold sel_produce. destruct (nth_error (s_toks s) i) as [tk|] eqn:E; [|discriminate]. destruct (count_down (t_core tk)) as [c go] eqn:Ec. intro H.
  assert (Hk : kept s (sel_set_tok i c s)) by (eapply kept_tok; [exact E|eapply count_down_same; exact Ec]).
  destruct go; [|injection H as <- <-; exact Hk]. eapply kept_trans; [exact Hk|]. eapply expand_kept; exact H.
Qed.
Lemma bind_ret {S A B} (m : out S A) (k : S -> A -> out S B) s b : bind m k = Ret s b -> exists s1 x, m = Ret s1 x /\ k s1 x = Ret s b.
Proof. destruct m; cbn [bind]; intro H; try discriminate. eauto. Qed.
Lemma match_kept a i s s' t : sel_match a i s = Ret s' t -> kept s s'.
Proof.
  unfold sel_match. destruct (s_key s) as [key|]; [|intro H; injection H as <- <-; apply kept_refl].
  destruct (Nat.leb (sc_to (s_scope s)) i); [intro H; injection H as <- <-; apply kept_refl|]. destruct (nth_error (s_toks s) i) as [tk|]; [|discriminate].
  intro H. apply bind_ret in H. destruct H as (s1 & rt & H1 & H2).
  assert (K1 : kept s s1).
  { destruct (m_matches _ _); [|injection H1 as <- <-; apply kept_refl]. destruct (nth_error a (t_state tk)) as [st|]; [|discriminate].
    apply bind_ret in H1. destruct H1 as (s2 & u & H3 & H4).
    assert (K2 : kept s s2) by (match type of H3 with (if ?b then _ else _) = _ => destruct b end; [eapply produce_kept; exact H3|injection H3 as <- <-; apply kept_refl]).
    eapply kept_trans; [exact K2|]. destruct (nth_error (s_toks s2) i) as [tk2|] eqn:E2; [|discriminate].
    destruct (c_type (t_core tk2) =? 0)%Z; [injection H4 as <- <-; apply kept_refl|]. destruct (count_down (t_core tk2)) as [c go] eqn:Ec. injection H4 as <- <-.
    eapply kept_tok; [exact E2|eapply count_down_same; exact Ec]. }
  eapply kept_trans; [exact K1|]. destruct (nth_error (s_toks s1) i) as [tk1|] eqn:E1; [|discriminate]. cbv zeta in H2. injection H2 as <- <-.
  destruct (m_rejects _ _) eqn:R; [|apply kept_refl]. eapply kept_tok; [exact E1|].
  constructor; cbn [t_state t_core c_type c_follow c_start c_end c_mask]; try reflexivity; auto.
  intros [_ Hn]. unfold m_rejects in R. rewrite Hn in R. cbn in R. discriminate.
Qed.
Lemma loop_kept a : forall f s s' t, fetch_loop f a s = Ret s' t -> kept s s'.
Proof.
  induction f as [|f IH]; intros s s' t H; cbn [fetch_loop] in H; [discriminate|].
  assert (Hag : forall s1 t1 s2 t2, (if (t1 =? 0)%Z then fetch_loop f a s1 else Ret s1 t1) = Ret s2 t2 -> kept s1 s2).
  { intros s1 t1 s2 t2 H1. destruct (t1 =? 0)%Z; [eapply IH; exact H1|injection H1 as <- <-; apply kept_refl]. }
  assert (Htr : match s_trig s with t1 :: l => if (t1 =? 0)%Z then fetch_loop f a (sel_set_trig l s) else Ret (sel_set_trig l s) t1 | [] => Ret (sel_no_key s) 0%Z end = Ret s' t -> kept s s').
  { intro H1. destruct (s_trig s) as [|t1 l]; [injection H1 as <- <-; apply kept_like; reflexivity|]. apply Hag in H1. eapply kept_trans; [|exact H1]. apply kept_like; reflexivity. }
  assert (Hm : forall j, (let! (s, t) := sel_match a j s in if (t =? 0)%Z then fetch_loop f a (sel_set_iter (S (s_iter s)) s) else Ret (sel_set_iter (S (s_iter s)) s) t) = Ret s' t -> kept s s').
  { intros j H1. apply bind_ret in H1. destruct H1 as (s1 & t1 & H2 & H3). apply match_kept in H2. apply Hag in H3. eapply kept_trans; [exact H2|]. eapply kept_trans; [|exact H3]. apply kept_like; reflexivity. }
  destruct (Nat.ltb (s_iter s) (sc_to (s_scope s))); [eapply Hm; exact H|]. destruct (Nat.ltb _ (sc_fidx (s_scope s))); [|apply Htr; exact H].
  destruct (nth_error (s_follows s) _) as [j|]; [|discriminate]. destruct (Nat.ltb j _); [eapply Hm; exact H|apply Htr; exact H].
Qed.
Lemma fetch_kept f a s s' t : sel_fetch f a s = Ret s' t -> kept s s'.
Proof. unfold sel_fetch. destruct (m_matches _ _); [apply loop_kept|]. intro H. injection H as <- <-. apply kept_like; reflexivity. Qed.
Lemma fetch_all_kept a ff : forall f s s' l, fetch_all f ff a s = Ret s' l -> kept s s'.
Proof.
  induction f as [|f IH]; intros s s' l H; cbn [fetch_all] in H; [discriminate|]. apply bind_ret in H. destruct H as (s1 & t & H1 & H2). apply fetch_kept in H1.
  destruct (t =? 0)%Z; [injection H2 as <- <-; exact H1|]. apply bind_ret in H2. destruct H2 as (s2 & l2 & H2 & H3). injection H3 as <- <-. eapply kept_trans; eauto.
Qed.

Definition is_close (e : etype) : bool := match kind_of e with KClose => true | _ => false end.
(** inside of the element that has been opened in the state [s0], [n] levels below *)
Definition entry (s : sel) : scope :=
  let sc := s_scope s in
  mkScope (sc_mask sc) (sc_fmask sc) match s_type s with EOpenTag => sc_to sc | _ => sc_from sc end (length (s_toks s)) (length (s_follows s)).
Record inside (s0 : sel) (n : nat) (s : sel) : Prop := {
  in_stk : exists up, s_stk s = up ++ entry s0 :: s_stk s0 /\ length up = n /\
             Forall (fun sc => (length (s_toks s0) <= sc_to sc)%nat /\ (length (s_follows s0) <= sc_fidx sc)%nat) up;
  in_toks : longer (s_toks s0) (s_toks s);
  in_follows : exists l, s_follows s = s_follows s0 ++ l }.
Lemma kept_inside s0 n s s' : inside s0 n s -> kept s s' -> inside s0 n s'.
Proof.
  intros [H1 H2 [l H3]] [K1 K2 Km K3 K4 K5 [l' K6] K7]. constructor.
  - rewrite K1. exact H1.
  - eapply longer_trans; eauto.
  - exists (l ++ l'). rewrite K6, H3, app_assoc. reflexivity.
Qed.
Lemma init_open k s : inside s 0 (sel_init EOpenTag k s).
Proof.
  unfold sel_init. constructor; cbn [s_stk s_toks s_follows].
  - exists []. split; [reflexivity|]. split; [reflexivity|constructor].
  - apply longer_refl.
  - exists []. rewrite app_nil_r. reflexivity.
Qed.
Lemma init_open_in s0 n k s : inside s0 n s -> inside s0 (S n) (sel_init EOpenTag k s).
Proof.
  intros [(up & H1 & H2 & H3) H4 [l H5]]. unfold sel_init. constructor; cbn [s_stk s_toks s_follows].
  - rewrite H1. eexists (_ :: up). split; [reflexivity|]. split; [cbn [length]; rewrite H2; reflexivity|]. constructor; [|exact H3]. cbn [sc_to sc_fidx]. split; [apply longer_len; exact H4|].
    rewrite H5, app_length. lia.
  - exact H4.
  - eauto.
Qed.
Lemma init_in s0 n e k s : e <> EOpenTag -> inside s0 n s -> inside s0 n (sel_init e k s).
Proof. intros He [H1 H2 H3]. unfold sel_init. destruct e; try congruence; constructor; cbn [s_stk s_toks s_follows]; assumption. Qed.
Lemma init_type e k s : s_type (sel_init e k s) = e.
Proof. unfold sel_init. destruct e; reflexivity. Qed.
Lemma close_in s0 n s s' u : is_close (s_type s) = true -> inside s0 (S n) s -> sel_close s = Ret s' u -> inside s0 n s'.
Proof.
  intros Hc [(up & H1 & H2 & H3) H4 [l H5]] H. unfold sel_close in H. destruct up as [|sc up]; [discriminate|]. cbn [app length] in *. rewrite H1 in H.
  inversion H3 as [|? ? [Ha Hb] H6]; subst.
  destruct (s_type s); try discriminate Hc; (destruct (_ && _); [|discriminate]; injection H as <- <-; constructor; cbn [s_stk s_toks s_follows];
    [exists up; split; [reflexivity|]; split; [lia|exact H6]|apply longer_firstn; assumption|
     rewrite H5, firstn_app; rewrite firstn_all2 by exact Hb; eauto]).
Qed.
Lemma close_end s0 s s' u : is_close (s_type s) = true -> inside s0 0 s -> sel_close s = Ret s' u -> same_context s0 s' /\ s_scope s' = entry s0 /\ s_stk s' = s_stk s0.
Proof.
  intros Hc [(up & H1 & H2 & H3) H4 [l H5]] H. destruct up; [|discriminate]. cbn [app] in H1. unfold sel_close in H. rewrite H1 in H.
  assert (Hk : exists s2, s_type s' = s2 /\ is_close s2 = true /\ s_stk s' = s_stk s0 /\ s_follows s' = s_follows s0 /\ s_toks s' = firstn (length (s_toks s0)) (s_toks s) /\ s_scope s' = entry s0).
  { exists (s_type s). destruct (s_type s); try discriminate Hc; (destruct (_ && _); [|discriminate]; injection H as <- <-; cbn [s_type s_stk s_follows s_toks s_scope];
      split; [reflexivity|]; split; [reflexivity|]; split; [reflexivity|]; split; [|split; reflexivity];
      cbn [entry sc_fidx]; rewrite H5, firstn_app, firstn_all, Nat.sub_diag, firstn_O, app_nil_r; reflexivity). }
  destruct Hk as (ty & K1 & K2 & K3 & K4 & K5 & K6). split; [|split; assumption].
  destruct H4 as (t1 & t2 & E & F). pose proof (Forall2_len _ _ _ F) as L.
  assert (T : s_toks s' = t1) by (rewrite K5, E, firstn_app, L, firstn_all, Nat.sub_diag, firstn_O, app_nil_r; reflexivity).
  assert (Lt : length (s_toks s') = length (s_toks s0)) by (rewrite T; symmetry; exact L).
  constructor.
  - intros e k. cbv zeta. unfold sel_init. rewrite K1, K3, K4, K6, Lt. 
    destruct ty; try discriminate K2; destruct e; cbn [s_stk s_follows s_scope s_iter entry sc_mask sc_fmask sc_from sc_to sc_fidx]; repeat split.
  - rewrite T. exact F.
Qed.

Lemma close_other s : is_close (s_type s) = false -> sel_close s = Ret s tt.
Proof. unfold sel_close, is_close. destruct (s_type s); cbn [kind_of]; try discriminate; reflexivity. Qed.
Lemma kept_is_close s s' : kept s s' -> is_close (s_type s') = is_close (s_type s).
Proof. intros K. rewrite (kp_type _ _ K). reflexivity. Qed.

Lemma element_inv f ff a e k s s' l : sel_element f ff a e k s = Ret s' l ->
  exists s1, fetch_all f ff a (sel_init e k s) = Ret s1 l /\ kept (sel_init e k s) s1 /\ is_close (s_type s1) = is_close e /\ sel_close s1 = Ret s' tt.
Proof.
  unfold sel_element. intro H. apply bind_ret in H. destruct H as (s1 & l1 & H1 & H2). apply bind_ret in H2. destruct H2 as (s2 & u & H2 & H3). injection H3 as <- <-.
  exists s1. split; [exact H1|]. pose proof (fetch_all_kept _ _ _ _ _ _ H1) as K. split; [exact K|]. split; [rewrite (kept_is_close _ _ K), init_type; reflexivity|]. destruct u. exact H2.
Qed.
Lemma element_in f ff a e k s0 n n' s s' l : inside s0 n s -> level_after n (kind_of e) = Some n' -> sel_element f ff a e k s = Ret s' l -> inside s0 n' s'.
Proof.
  intros I Hl H. destruct (element_inv _ _ _ _ _ _ _ _ H) as (s1 & _ & K & Hc & H2).
  destruct (is_close e) eqn:Ec.
  - unfold is_close in Ec. destruct (kind_of e) eqn:Ek; try discriminate. cbn [level_after] in Hl. destruct n as [|n]; [discriminate|]. injection Hl as ->.
    apply (close_in s0 n' s1 s' tt); [exact Hc| |exact H2]. apply (kept_inside s0 (S n') (sel_init e k s) s1); [|exact K].
    apply init_in; [|exact I]. intros ->. discriminate Ek.
  - rewrite close_other in H2 by exact Hc. injection H2 as <-. apply (kept_inside s0 n' (sel_init e k s) s1); [|exact K].
    destruct e; cbn [kind_of level_after] in Hl; try (injection Hl as <-; apply init_in; [discriminate|exact I]); try discriminate Ec.
    injection Hl as <-. apply init_open_in. exact I.
Qed.
Lemma run_in f ff a s0 : forall evs n n' s s' rs, inside s0 n s -> levels n evs = Some n' -> sel_run f ff a evs s = Ret s' rs -> inside s0 n' s'.
Proof.
  induction evs as [|[e k] l IH]; intros n n' s s' rs I Hl H; cbn [levels sel_run] in *; [injection Hl as <-; injection H as <- <-; exact I|].
  cbn [fst] in Hl. destruct (level_after n (kind_of e)) as [n1|] eqn:E; [|discriminate]. apply bind_ret in H. destruct H as (s1 & r & H1 & H2). apply bind_ret in H2. destruct H2 as (s2 & rs2 & H2 & H3).
  injection H3 as <- <-. eapply IH; [|exact Hl|exact H2]. eapply element_in; eauto.
Qed.
Lemma sel_run_app f ff a : forall l l' s s' rs, sel_run f ff a (l ++ l') s = Ret s' rs ->
  exists s1 r1 r2, sel_run f ff a l s = Ret s1 r1 /\ sel_run f ff a l' s1 = Ret s' r2 /\ rs = r1 ++ r2.
Proof.
  induction l as [|[e k] l IH]; intros l' s s' rs H; cbn [app sel_run] in *; [exists s, [], rs; auto|].
  apply bind_ret in H. destruct H as (s1 & r & H1 & H2). apply bind_ret in H2. destruct H2 as (s2 & rs2 & H2 & H3). injection H3 as <- <-.
  destruct (IH _ _ _ _ H2) as (s3 & r1 & r2 & H4 & H5 & ->). exists s3, (r :: r1), r2. rewrite H1. cbn [bind]. rewrite H4. cbn [bind]. auto.
Qed.
Theorem whole_context f ff a evs s s' rs : whole evs -> sel_run f ff a evs s = Ret s' rs -> same_context s s' /\ s_stk s' = s_stk s /\ s_scope s' = entry s.
Proof.
  intros ([eo ko] & body & [ec kc] & -> & Ho & Hc & Hb) H. cbn [fst] in Ho, Hc.
  change ((eo, ko) :: body ++ [(ec, kc)]) with ([(eo, ko)] ++ body ++ [(ec, kc)]) in H. apply sel_run_app in H. destruct H as (s1 & r1 & r2 & H1 & H2 & _).
  apply sel_run_app in H2. destruct H2 as (s2 & r3 & r4 & H2 & H3 & _).
  cbn [sel_run] in H1, H3. apply bind_ret in H1. destruct H1 as (s1' & l1 & H1 & E1). injection E1 as <- _.
  apply bind_ret in H3. destruct H3 as (s3' & l3 & H3 & E3). injection E3 as <- _.
  assert (I1 : inside s 0 s1').
  { destruct (element_inv _ _ _ _ _ _ _ _ H1) as (s4 & _ & K & Hk & H4). destruct eo; try discriminate Ho. rewrite close_other in H4 by exact Hk. injection H4 as <-.
    eapply kept_inside; [|exact K]. apply init_open. }
  pose proof (run_in _ _ _ _ _ _ _ _ _ _ I1 Hb H2) as I2.
  destruct (element_inv _ _ _ _ _ _ _ _ H3) as (s5 & _ & K & Hk & H5). assert (Hk' : is_close (s_type s5) = true) by (rewrite Hk; unfold is_close; rewrite Hc; reflexivity).
  destruct (close_end s s5 s3' tt Hk') as (C1 & C2 & C3); auto. eapply kept_inside; [|exact K]. apply init_in; [|exact I2]. intros ->. discriminate Hc.
Qed.

(** ** No output is left after an element *)
Lemma loop_trig a : forall f s s', fetch_loop f a s = Ret s' 0%Z -> s_trig s' = [].
Proof.
  induction f as [|f IH]; intros s s' H; cbn [fetch_loop] in H; [discriminate|].
  assert (Hag : forall s1 t1, (if (t1 =? 0)%Z then fetch_loop f a s1 else Ret s1 t1) = Ret s' 0%Z -> s_trig s' = []).
  { intros s1 t1 H1. destruct (t1 =? 0)%Z eqn:E; [eapply IH; exact H1|injection H1 as <- ->; discriminate E]. }
  assert (Htr : match s_trig s with t1 :: l => if (t1 =? 0)%Z then fetch_loop f a (sel_set_trig l s) else Ret (sel_set_trig l s) t1 | [] => Ret (sel_no_key s) 0%Z end = Ret s' 0%Z -> s_trig s' = []).
  { intro H1. destruct (s_trig s) as [|t1 l] eqn:E; [injection H1 as <-; exact E|]. eapply Hag; exact H1. }
  assert (Hm : forall j, (let! (s, t) := sel_match a j s in if (t =? 0)%Z then fetch_loop f a (sel_set_iter (S (s_iter s)) s) else Ret (sel_set_iter (S (s_iter s)) s) t) = Ret s' 0%Z -> s_trig s' = []).
  { intros j H1. apply bind_ret in H1. destruct H1 as (s1 & t1 & H2 & H3). eapply Hag; exact H3. }
  destruct (Nat.ltb (s_iter s) (sc_to (s_scope s))); [eapply Hm; exact H|]. destruct (Nat.ltb _ (sc_fidx (s_scope s))); [|apply Htr; exact H].
  destruct (nth_error (s_follows s) _) as [j|]; [|discriminate]. destruct (Nat.ltb j _); [eapply Hm; exact H|apply Htr; exact H].
Qed.
Lemma fetch_all_trig a ff : forall f s s' l, s_trig s = [] \/ m_matches (sc_mask (s_scope s)) (s_type s) = true -> fetch_all f ff a s = Ret s' l -> s_trig s' = [].
Proof.
  induction f as [|f IH]; intros s s' l Ht H; cbn [fetch_all] in H; [discriminate|]. apply bind_ret in H. destruct H as (s1 & t & H1 & H2).
  pose proof (fetch_kept _ _ _ _ _ H1) as K. unfold sel_fetch in H1. destruct (m_matches (sc_mask (s_scope s)) (s_type s)) eqn:M.
  - destruct (t =? 0)%Z eqn:E; [apply Z.eqb_eq in E; subst t; injection H2 as <- <-; eapply loop_trig; exact H1|].
    apply bind_ret in H2. destruct H2 as (s2 & l2 & H2 & H3). injection H3 as <- <-. eapply IH; [|exact H2]. right. rewrite (kp_type _ _ K). apply (kp_mask _ _ K). exact M.
  - injection H1 as <- <-. cbn [Z.eqb] in H2. injection H2 as <- <-. destruct Ht as [Ht|Ht]; [exact Ht|discriminate].
Qed.
Lemma close_trig s s' u : sel_close s = Ret s' u -> s_trig s' = s_trig s.
Proof.
  unfold sel_close. destruct (s_type s); try (intro H; injection H as <- <-; reflexivity); (destruct (s_stk s); [intro H; injection H as <- <-; reflexivity|destruct (_ && _); [|discriminate]; intro H; injection H as <- <-; reflexivity]).
Qed.
Lemma run_trig f ff a : forall evs s s' rs, s_trig s = [] -> sel_run f ff a evs s = Ret s' rs -> s_trig s' = [].
Proof.
  induction evs as [|[e k] l IH]; intros s s' rs Ht H; cbn [sel_run] in H; [injection H as <- <-; exact Ht|].
  apply bind_ret in H. destruct H as (s1 & r & H1 & H2). apply bind_ret in H2. destruct H2 as (s2 & rs2 & H2 & H3). injection H3 as <- <-.
  eapply IH; [|exact H2]. destruct (element_inv _ _ _ _ _ _ _ _ H1) as (s4 & H4 & _ & _ & H5). rewrite (close_trig _ _ _ H5).
  eapply fetch_all_trig; [|exact H4]. left. unfold sel_init. destruct e; exact Ht.
Qed.

(** Without ranges and refusals everything that follows is the same as without the element *)
Theorem whole_plain f ff a evs s s' rs : whole evs -> s_trig s = [] -> Forall (fun tk => plain (t_core tk)) (s_toks s) -> sel_run f ff a evs s = Ret s' rs ->
  forall f' ff' e k l, sel_run f' ff' a ((e, k) :: l) s' = sel_run f' ff' a ((e, k) :: l) s.
Proof.
  intros Hw Ht Hp H f' ff' e k l. destruct (whole_context _ _ _ _ _ _ _ Hw H) as ([N T] & _ & _). pose proof (run_trig _ _ _ _ _ _ _ Ht H) as Ht'.
  assert (Et : s_toks s' = s_toks s).
  { clear -T Hp. induction T as [|x y l l' [S1 S2 S3 S4 S5 S6 S7] T IH]; [reflexivity|]. inversion Hp as [|? ? Hx Hl]; subst. specialize (S7 Hx). rewrite (IH Hl). f_equal.
    destruct x, y. unfold PathSelect.t_state, PathSelect.t_core in *. congruence. }
  assert (E : sel_init e (Some k) s' = sel_init e (Some k) s).
  { specialize (N e (Some k)). cbv zeta in N. destruct N as (N1 & N2 & N3 & N4).
    destruct e; unfold sel_init in *; cbn [s_stk s_follows s_scope s_iter] in *; rewrite Ht, Ht', Et; congruence. }
  cbn [sel_run]. unfold sel_element. rewrite E. reflexivity.
Qed.

(** ** Postfix increments *)
Lemma fetch_post_all a ff : forall f s, is_close (s_type s) = false -> fetch_post f ff a s = fetch_all f ff a s.
Proof.
  induction f as [|f IH]; intros s Hc; [reflexivity|]. cbn [fetch_post fetch_all]. destruct (sel_fetch ff a s) as [s1 t| | | |] eqn:E; try reflexivity. cbn [bind].
  pose proof (fetch_kept _ _ _ _ _ E) as K. rewrite close_other by (rewrite (kept_is_close _ _ K); exact Hc). cbn [bind]. destruct (t =? 0)%Z; [reflexivity|]. rewrite IH; [reflexivity|].
  rewrite (kept_is_close _ _ K). exact Hc.
Qed.
Theorem element_post f ff a e k s : is_close e = false -> sel_element_post f ff a e k s = sel_element (S f) ff a e k s.
Proof.
  intro Hc. unfold sel_element_post, sel_element, fetch_all_post. cbn [fetch_all]. destruct (sel_fetch ff a (sel_init e k s)) as [s1 t| | | |] eqn:E; try reflexivity. cbn [bind].
  destruct (t =? 0)%Z; [reflexivity|]. rewrite fetch_post_all; [reflexivity|]. rewrite (kept_is_close _ _ (fetch_kept _ _ _ _ _ E)), init_type. exact Hc.
Qed.
(** With a single result for the element, the difference is in the close tags only if something is reported *)
Theorem element_post_none f ff a e k s s' : sel_element (S f) ff a e k s = Ret s' [] -> sel_element_post f ff a e k s = Ret s' [].
Proof.
  unfold sel_element_post, sel_element, fetch_all_post. cbn [fetch_all]. destruct (sel_fetch ff a (sel_init e k s)) as [s1 t| | | |] eqn:E; cbn [bind]; try discriminate.
  destruct (t =? 0)%Z; [auto|]. intro H. apply bind_ret in H. destruct H as (s2 & l & H1 & H2). apply bind_ret in H2. destruct H2 as (s3 & u & H2 & H3). injection H3 as <- ->.
  apply bind_ret in H1. destruct H1 as (s4 & l4 & _ & H4). discriminate H4.
Qed.
