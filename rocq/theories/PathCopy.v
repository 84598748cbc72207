(** Selectors with scopes that differ in the masks only. *)
From Coq Require Import Lia ZifyBool.
From Verif Require Import Base XmlScanner PathAtm PathSelect PathExtra PathContext.

Lemma land_bit p n : negb (N.land p (2 ^ n) =? 0) = N.testbit p n.
Proof.
  destruct (N.testbit p n) eqn:E.
  - destruct (N.eqb_spec (N.land p (2 ^ n)) 0) as [H|H]; [|reflexivity]. exfalso. assert (X : N.testbit (N.land p (2 ^ n)) n = false) by (rewrite H; apply N.bits_0). rewrite N.land_spec, E, N.pow2_bits_true in X. discriminate X.
  - replace (N.land p (2 ^ n)) with 0; [reflexivity|]. symmetry. apply N.bits_inj. intro k. rewrite N.land_spec, N.bits_0, N.pow2_bits_eqb. destruct (N.eqb_spec n k) as [<-|]; [rewrite E; reflexivity|apply Bool.andb_false_r].
Qed.
Lemma matches_join m m' e : m_matches (m_join m m') e = (m_matches m e || m_matches m' e)%bool.
Proof. unfold m_matches, m_join. cbn [m_pos]. rewrite !land_bit. apply N.lor_spec. Qed.
Lemma matches_match x m e : m_matches (m_match x m) e = (m_matches m e || (etype_idx x =? etype_idx e))%bool.
Proof. unfold m_matches, m_match. cbn [m_pos]. rewrite !land_bit, N.lor_spec, N.pow2_bits_eqb. reflexivity. Qed.
Lemma matches_zero e : m_matches m_zero e = false.
Proof. reflexivity. Qed.

Section Copy.
(** the element types of the document *)
Variable T : etype -> Prop.
Definition agree (m m' : mask) : Prop := forall e, T e -> e <> EOpenTag -> m_matches m e = m_matches m' e.
Record scope_like (c c' : scope) : Prop := {
  sl_mask : agree (sc_mask c) (sc_mask c'); sl_fmask : agree (sc_fmask c) (sc_fmask c');
  sl_from : sc_from c = sc_from c'; sl_to : sc_to c = sc_to c'; sl_fidx : sc_fidx c = sc_fidx c' }.
Record like (s t : sel) : Prop := {
  lk_stk : Forall2 scope_like (s_stk s) (s_stk t); lk_follows : s_follows s = s_follows t; lk_trig : s_trig s = s_trig t; lk_toks : s_toks s = s_toks t;
  lk_type : s_type s = s_type t; lk_key : s_key s = s_key t; lk_scope : scope_like (s_scope s) (s_scope t); lk_iter : s_iter s = s_iter t;
  lk_open : s_type s = EOpenTag -> m_matches (sc_mask (s_scope s)) EOpenTag = true /\ m_matches (sc_mask (s_scope t)) EOpenTag = true }.
Lemma agree_join m m' x : agree m m' -> agree (m_join m x) (m_join m' x).
Proof. intros H e He Hn. rewrite !matches_join, (H e He Hn). reflexivity. Qed.

Lemma like_expand1 i st s t : like s t -> like (expand1 i st s) (expand1 i st t).
Proof.
  intros []. destruct lk_scope0. unfold expand1. destruct (m_empty _ && _).
  - split; cbn [s_stk s_follows s_trig s_toks s_type s_key s_scope s_iter]; auto; [congruence|split; cbn; auto; apply agree_join; auto|].
    intro H. destruct (lk_open0 H) as [H1 H2]. cbn [sc_mask]. rewrite !matches_join, H1, H2. auto.
  - split; cbn [s_stk s_follows s_trig s_toks s_type s_key s_scope s_iter]; auto; [rewrite lk_follows0, lk_toks0; reflexivity|congruence|split; cbn; auto; [apply agree_join; auto|destruct (c_follow _); auto; apply agree_join; auto]|].
    intro H. destruct (lk_open0 H) as [H1 H2]. cbn [sc_mask]. rewrite !matches_join, H1, H2. auto.
Qed.
Lemma like_expand a : forall f i s t s' u, like s t -> expand f a i s = Ret s' u -> exists t', expand f a i t = Ret t' u /\ like s' t'.
Proof.
  induction f as [|f IH]; intros i s t s' u H E; cbn [expand] in *; [discriminate E|]. destruct i as [i|]; [|injection E as <- <-; eauto]. destruct (nth_error a i) as [st|]; [|discriminate E].
  eapply IH; [|exact E]. apply like_expand1, H.
Qed.
Lemma like_set_toks l s t : like s t -> like (sel_set_toks l s) (sel_set_toks l t).
Proof. intros []. split; cbn; auto. Qed.
Lemma like_set_tok i c s t : like s t -> like (sel_set_tok i c s) (sel_set_tok i c t).
Proof. intros H. unfold sel_set_tok. rewrite <- (lk_toks _ _ H). destruct (nth_error _ _); [apply like_set_toks|]; exact H. Qed.
Lemma like_set_iter i s t : like s t -> like (sel_set_iter i s) (sel_set_iter i t).
Proof. intros []. split; cbn; auto. Qed.
Lemma like_set_trig i s t : like s t -> like (sel_set_trig i s) (sel_set_trig i t).
Proof. intros []. split; cbn; auto. Qed.
Lemma like_no_key s t : like s t -> like (sel_no_key s) (sel_no_key t).
Proof. intros []. split; cbn; auto. Qed.
Lemma like_produce a i st s t s' u : like s t -> sel_produce a i st s = Ret s' u -> exists t', sel_produce a i st t = Ret t' u /\ like s' t'.
Proof.
  intros H E. unfold sel_produce in *. rewrite <- (lk_toks _ _ H). destruct (nth_error (s_toks s) i) as [tk|]; [|discriminate E]. destruct (count_down _) as [c go].
  pose proof (like_set_tok i c s t H) as H1. destruct go; [eapply like_expand; eassumption|]. injection E as <- <-. eauto.
Qed.
Lemma like_match a i s t s' z : like s t -> sel_match a i s = Ret s' z -> exists t', sel_match a i t = Ret t' z /\ like s' t'.
Proof.
  intros H E. unfold sel_match in *. rewrite <- (lk_key _ _ H). destruct (s_key s) as [key|]; [|injection E as <- <-; eauto].
  rewrite <- (sl_to _ _ (lk_scope _ _ H)). destruct (Nat.leb _ i); [injection E as <- <-; eauto|]. rewrite <- (lk_toks _ _ H). destruct (nth_error (s_toks s) i) as [tk|]; [|discriminate E].
  apply bind_ret in E. destruct E as (s1 & rt & E1 & E2).
  assert (X : exists t1, (if m_matches (c_mask (t_core tk)) (s_type t) then match nth_error a (t_state tk) with
                   | None => Undef
                   | Some st =>
                       let! (s, _) := if match st_key st with Some k => key_eqb k key | None => true end
                                      then sel_produce a i st t else Ret t tt in
                       match nth_error (s_toks s) i with
                       | None => Undef
                       | Some tk =>
                           if (c_type (t_core tk) =? 0)%Z then Ret s 0%Z
                           else let (c, go) := count_down (t_core tk) in
                                Ret (sel_set_tok i c s) (if go then c_type (t_core tk) else 0%Z)
                       end
                   end
              else Ret t 0%Z) = Ret t1 rt /\ like s1 t1).
  { rewrite <- (lk_type _ _ H). destruct (m_matches _ (s_type s)); [|injection E1 as <- <-; eauto]. destruct (nth_error a (t_state tk)) as [st|]; [|discriminate E1].
    apply bind_ret in E1. destruct E1 as (s2 & u & E1 & E3).
    assert (Y : exists t2, (if match st_key st with Some k => key_eqb k key | None => true end then sel_produce a i st t else Ret t tt) = Ret t2 u /\ like s2 t2).
    { destruct (match st_key st with Some k => key_eqb k key | None => true end); [eapply like_produce; eassumption|]. injection E1 as <- <-. eauto. }
    destruct Y as (t2 & -> & H2). cbn [bind]. rewrite <- (lk_toks _ _ H2). destruct (nth_error (s_toks s2) i) as [tk2|]; [|discriminate E3].
    destruct (_ =? 0)%Z; [injection E3 as <- <-; eauto|]. destruct (count_down _) as [c go]. injection E3 as <- <-. eexists. split; [reflexivity|]. apply like_set_tok, H2. }
  destruct X as (t1 & -> & H1). cbn [bind]. rewrite <- (lk_toks _ _ H1), <- (lk_type _ _ H1). destruct (nth_error (s_toks s1) i) as [tk1|]; [|discriminate E2]. injection E2 as <- <-. eexists. split; [reflexivity|].
  destruct (m_rejects _ _); [apply like_set_tok|]; exact H1.
Qed.
Lemma like_fetch_loop a : forall f s t s' z, like s t -> fetch_loop f a s = Ret s' z -> exists t', fetch_loop f a t = Ret t' z /\ like s' t'.
Proof.
  induction f as [|f IH]; intros s t s' z H E; cbn [fetch_loop] in *; [discriminate E|].
  rewrite <- (sl_to _ _ (lk_scope _ _ H)), <- (sl_fidx _ _ (lk_scope _ _ H)), <- (sl_from _ _ (lk_scope _ _ H)), <- (lk_iter _ _ H), <- (lk_follows _ _ H), <- (lk_trig _ _ H).
  assert (G : forall j s' z, (let! (s, x) := sel_match a j s in if (x =? 0)%Z then fetch_loop f a (sel_set_iter (S (s_iter s)) s) else Ret (sel_set_iter (S (s_iter s)) s) x) = Ret s' z ->
     exists t', (let! (s, x) := sel_match a j t in if (x =? 0)%Z then fetch_loop f a (sel_set_iter (S (s_iter s)) s) else Ret (sel_set_iter (S (s_iter s)) s) x) = Ret t' z /\ like s' t').
  { intros j s2 z2 E2. apply bind_ret in E2. destruct E2 as (s1 & x & E1 & E2). destruct (like_match _ _ _ _ _ _ H E1) as (t1 & -> & H1). cbn [bind]. rewrite <- (lk_iter _ _ H1).
    destruct (x =? 0)%Z; [eapply IH; [|exact E2]; apply like_set_iter, H1|]. injection E2 as <- <-. eexists. split; [reflexivity|apply like_set_iter, H1]. }
  assert (G2 : forall s' z, match s_trig s with
                         | t :: l => if (t =? 0)%Z then fetch_loop f a (sel_set_trig l s) else Ret (sel_set_trig l s) t
                         | [] => Ret (sel_no_key s) 0%Z
                         end = Ret s' z -> exists t', match s_trig s with
                         | x :: l => if (x =? 0)%Z then fetch_loop f a (sel_set_trig l t) else Ret (sel_set_trig l t) x
                         | [] => Ret (sel_no_key t) 0%Z
                         end = Ret t' z /\ like s' t').
  { intros s2 z2 E2. destruct (s_trig s) as [|x l]; [injection E2 as <- <-; eexists; split; [reflexivity|apply like_no_key, H]|].
    destruct (x =? 0)%Z; [eapply IH; [|exact E2]; apply like_set_trig, H|]. injection E2 as <- <-. eexists. split; [reflexivity|apply like_set_trig, H]. }
  destruct (Nat.ltb _ _); [apply G; exact E|]. destruct (Nat.ltb _ _); [|apply G2; exact E]. destruct (nth_error _ _) as [j|]; [|discriminate E]. destruct (Nat.ltb _ _); [apply G|apply G2]; exact E.
Qed.
Lemma like_fetch f a s t s' z : T (s_type s) -> like s t -> sel_fetch f a s = Ret s' z -> exists t', sel_fetch f a t = Ret t' z /\ like s' t'.
Proof.
  intros HT H E. unfold sel_fetch in *. rewrite <- (lk_type _ _ H).
  assert (X : m_matches (sc_mask (s_scope s)) (s_type s) = m_matches (sc_mask (s_scope t)) (s_type s)).
  { assert (D : s_type s = EOpenTag \/ s_type s <> EOpenTag) by (destruct (s_type s); auto; right; discriminate). destruct D as [D|D]; [rewrite D; destruct (lk_open _ _ H D) as [-> ->]; reflexivity|]. apply (sl_mask _ _ (lk_scope _ _ H)); assumption. }
  rewrite <- X. destruct (m_matches _ _); [eapply like_fetch_loop; eassumption|]. injection E as <- <-. eexists. split; [reflexivity|apply like_no_key, H].
Qed.
Lemma like_fetch_all ff a : forall f s t s' l, T (s_type s) -> like s t -> fetch_all f ff a s = Ret s' l -> exists t', fetch_all f ff a t = Ret t' l /\ like s' t'.
Proof.
  induction f as [|f IH]; intros s t s' l HT H E; cbn [fetch_all] in *; [discriminate E|]. apply bind_ret in E. destruct E as (s1 & z & E1 & E2).
  destruct (like_fetch _ _ _ _ _ _ HT H E1) as (t1 & -> & H1). cbn [bind]. destruct (z =? 0)%Z; [injection E2 as <- <-; eauto|].
  apply bind_ret in E2. destruct E2 as (s2 & l2 & E2 & E3). injection E3 as <- <-.
  destruct (IH _ _ _ _ ltac:(rewrite (kp_type _ _ (fetch_kept _ _ _ _ _ E1)); exact HT) H1 E2) as (t2 & -> & H2). cbn [bind]. eauto.
Qed.
Lemma like_close s t s' u : like s t -> sel_close s = Ret s' u -> exists t', sel_close t = Ret t' u /\ like s' t'.
Proof.
  intros H E. unfold sel_close in *. rewrite <- (lk_type _ _ H). destruct (s_type s) eqn:Ht; try (injection E as <- <-; eauto; fail).
  all: destruct (lk_stk _ _ H) as [|sc sc' stk stk' Hs Hstk]; [injection E as <- <-; eauto|].
  all: rewrite <- (sl_to _ _ Hs), <- (sl_fidx _ _ Hs), <- (lk_follows _ _ H), <- (lk_toks _ _ H); destruct (_ && _); [|discriminate E]; injection E as <- <-; eexists; (split; [reflexivity|]).
  all: destruct H; split; cbn [s_stk s_follows s_trig s_toks s_type s_key s_scope s_iter]; auto; try congruence; intro X; exfalso; revert X; discriminate.
Qed.
(** before the next element *)
Record like0 (s t : sel) : Prop := {
  l0_stk : Forall2 scope_like (s_stk s) (s_stk t); l0_follows : s_follows s = s_follows t; l0_trig : s_trig s = s_trig t; l0_toks : s_toks s = s_toks t;
  l0_mask : agree (sc_mask (s_scope s)) (sc_mask (s_scope t)); l0_fmask : agree (sc_fmask (s_scope s)) (sc_fmask (s_scope t));
  l0_from : match s_type s with EOpenTag => sc_to (s_scope s) | _ => sc_from (s_scope s) end = match s_type t with EOpenTag => sc_to (s_scope t) | _ => sc_from (s_scope t) end }.
Lemma like_0 s t : like s t -> like0 s t.
Proof. intros []. destruct lk_scope0. split; auto. rewrite <- lk_type0, sl_from0, sl_to0. reflexivity. Qed.
Lemma like_init e k s t : like0 s t -> like (sel_init e k s) (sel_init e k t).
Proof.
  intros []. unfold sel_init. rewrite <- l0_from0, <- l0_follows0, <- l0_toks0, <- l0_trig0.
  assert (X : scope_like (mkScope (sc_mask (s_scope s)) (sc_fmask (s_scope s)) match s_type s with EOpenTag => sc_to (s_scope s) | _ => sc_from (s_scope s) end (length (s_toks s)) (length (s_follows s)))
                         (mkScope (sc_mask (s_scope t)) (sc_fmask (s_scope t)) match s_type s with EOpenTag => sc_to (s_scope s) | _ => sc_from (s_scope s) end (length (s_toks s)) (length (s_follows s)))) by (split; cbn; auto).
  destruct e; try (split; cbn [s_stk s_follows s_trig s_toks s_type s_key s_scope s_iter]; auto; intro Y; discriminate Y).
  split; cbn [s_stk s_follows s_trig s_toks s_type s_key s_scope s_iter sc_mask sc_fmask sc_from sc_to sc_fidx]; auto.
  - split; cbn [sc_mask sc_fmask sc_from sc_to sc_fidx]; auto. intros e He Hn. rewrite !matches_match, (l0_fmask0 e He Hn). reflexivity.
  - intros _. rewrite !matches_match, N.eqb_refl, !Bool.orb_true_r. auto.
Qed.
Lemma like_element f ff a e k s t s' l : T e -> like0 s t -> sel_element f ff a e k s = Ret s' l -> exists t', sel_element f ff a e k t = Ret t' l /\ like0 s' t'.
Proof.
  intros HT H E. unfold sel_element in *. apply bind_ret in E. destruct E as (s1 & l1 & E1 & E2). apply bind_ret in E2. destruct E2 as (s2 & u & E2 & E3). injection E3 as <- <-.
  destruct (like_fetch_all _ _ _ _ (sel_init e k t) _ _ ltac:(rewrite init_type; exact HT) ltac:(apply like_init; exact H) E1) as (t1 & -> & H1). cbn [bind].
  destruct (like_close _ _ _ _ H1 E2) as (t2 & -> & H2). cbn [bind]. eexists. split; [reflexivity|]. apply like_0, H2.
Qed.
Lemma like_run f ff a : forall evs s t s' rs, (forall e k, In (e, k) evs -> T e) -> like0 s t -> sel_run f ff a evs s = Ret s' rs -> exists t', sel_run f ff a evs t = Ret t' rs /\ like0 s' t'.
Proof.
  induction evs as [|[e k] l IH]; intros s t s' rs HT H E; cbn [sel_run] in *; [injection E as <- <-; eauto|]. apply bind_ret in E. destruct E as (s1 & r & E1 & E2). apply bind_ret in E2. destruct E2 as (s2 & rs2 & E2 & E3). injection E3 as <- <-.
  destruct (like_element _ _ _ _ _ _ _ _ _ (HT e k (or_introl eq_refl)) H E1) as (t1 & -> & H1). cbn [bind]. destruct (IH _ _ _ _ (fun e k h => HT e k (or_intror h)) H1 E2) as (t2 & -> & H2). cbn [bind]. eauto.
Qed.
End Copy.
