(** Iterators of a path selection read its results (proofs). *)
From Coq Require Import Lia.
From Verif Require Import Base Charset XmlScanner PathAtm PathSelect PathSpec PathExtra PathProg PathInspect InspectSpec PathRun1 PathRun8 PathContext InspectSafe PathIter PathIterSpec.

Lemma closes_is e : closes e = is_close e.
Proof. destruct e; reflexivity. Qed.

(** ** behind the last result *)
Record over (s : sel) : Prop := { ov_key : s_key s = None; ov_trig : s_trig s = []; ov_iter : Nat.ltb (s_iter s) (sc_to (s_scope s)) = false;
  ov_fol : Nat.ltb (s_iter s - sc_to (s_scope s)) (sc_fidx (s_scope s)) = true -> exists j, nth_error (s_follows s) (s_iter s - sc_to (s_scope s)) = Some j /\ Nat.ltb j (sc_from (s_scope s)) = false }.
Lemma loop_over a : forall f s s1, fetch_loop f a s = Ret s1 0%Z -> over s1.
Proof.
  induction f as [|f IH]; intros s s1 E; [discriminate|]. cbn [fetch_loop] in E. destruct (Nat.ltb (s_iter s) (sc_to (s_scope s))) eqn:E0.
  - apply bind_Ret in E. destruct E as (s2 & t & _ & E). destruct (Z.eqb_spec t 0); [eapply IH; exact E|congruence].
  - assert (T : (Nat.ltb (s_iter s - sc_to (s_scope s)) (sc_fidx (s_scope s)) = true -> exists j, nth_error (s_follows s) (s_iter s - sc_to (s_scope s)) = Some j /\ Nat.ltb j (sc_from (s_scope s)) = false) ->
      match s_trig s with t :: l => if (t =? 0)%Z then fetch_loop f a (sel_set_trig l s) else Ret (sel_set_trig l s) t | [] => Ret (sel_no_key s) 0%Z end = Ret s1 0%Z -> over s1).
    { intros Hf. destruct (s_trig s) as [|t l] eqn:Et.
      - intros [= <-]. constructor; cbn; auto.
      - destruct (Z.eqb_spec t 0); [apply IH|]. intros [= _ Q]. congruence. }
    destruct (Nat.ltb (s_iter s - sc_to (s_scope s)) (sc_fidx (s_scope s))) eqn:E1; [|apply T; [discriminate|exact E]].
    destruct (nth_error (s_follows s) (s_iter s - sc_to (s_scope s))) as [j|] eqn:E2; [|discriminate]. destruct (Nat.ltb j (sc_from (s_scope s))) eqn:E3; [|apply T; [eauto|exact E]].
    apply bind_Ret in E. destruct E as (s2 & t & _ & E). destruct (Z.eqb_spec t 0); [eapply IH; exact E|congruence].
Qed.
Lemma no_key_same s : s_key s = None -> sel_no_key s = s.
Proof. destruct s; cbn. intros ->. reflexivity. Qed.
Lemma over_loop a f s : over s -> fetch_loop (S f) a s = Ret s 0%Z.
Proof.
  intros [A B C D]. cbn [fetch_loop]. rewrite C, B, (no_key_same s A). destruct (Nat.ltb _ (sc_fidx _)); [|reflexivity]. destruct (D eq_refl) as (j & -> & ->). reflexivity.
Qed.
Lemma fetch_over ff a s s1 : sel_fetch ff a s = Ret s1 0%Z -> sel_fetch ff a s1 = Ret s1 0%Z.
Proof.
  unfold sel_fetch. intro E. destruct (m_matches (sc_mask (s_scope s)) (s_type s)) eqn:M.
  - pose proof (loop_over _ _ _ _ E) as O. destruct (m_matches (sc_mask (s_scope s1)) (s_type s1)); [|rewrite (no_key_same s1 (ov_key _ O)); reflexivity]. destruct ff as [|ff]; [discriminate|]. apply over_loop. exact O.
  - injection E as <-. cbn [sel_no_key s_scope s_type]. rewrite M. reflexivity.
Qed.

(** ** the readings *)
Section Read.
Variables (a : atm) (f ff : nat) (s' : sel).
Definition rest (evs : list (etype * list N)) (todo : list (list Z)) (s : sel) : Prop := sel_run f ff a evs s = Ret s' todo.
Definition all_off (g : iters) : Prop := forall i x, v_at i g = Some x -> v_on x = false.
Definition Inv (evs : list (etype * list N)) (r : reading) (s : sel) : Prop :=
  match r_elem r with
  | None => all_off (r_its r) /\ r_ended r = true /\ rest evs (r_todo r) s
  | Some e =>
      if closes e && r_closed r then rest evs (r_todo r) s
      else is_close (s_type s) = closes e /\
           if r_ended r then sel_fetch ff a s = Ret s 0%Z /\ exists s2, sel_close s = Ret s2 tt /\ rest evs (r_todo r) s2
           else exists f1 s1 s2, fetch_all f1 ff a s = Ret s1 (r_left r) /\ sel_close s1 = Ret s2 tt /\ rest evs (r_todo r) s2
  end.
Lemma inv_set evs r s g : Inv evs r s -> (r_elem r = None -> all_off g) -> Inv evs (r_set g r) s.
Proof. unfold Inv. cbn [r_set r_elem r_its r_left r_ended r_closed r_todo]. destruct (r_elem r); [auto|]. intros (A & B) H. split; auto. Qed.
Lemma next_sim evs r s e r' t : Inv evs r s -> r_elem r = Some e -> r_next r = Some (r', t) -> exists s1, sel_fetch ff a s = Ret s1 t /\ Inv evs r' s1 /\ r_elem r' = Some e /\ r_its r' = r_its r.
Proof.
  unfold Inv, r_next, tag_closed. intros I E. rewrite E in *. destruct (closes e && r_closed r) eqn:C; [discriminate|]. destruct I as [T I]. destruct (r_ended r) eqn:En.
  - intros [= <- <-]. destruct I as [F S]. exists s. split; [exact F|]. rewrite E, C, En. split; [split; [exact T|split; assumption]|auto].
  - destruct I as (f1 & s1 & s2 & F & S & R). destruct f1 as [|f1]; [discriminate|]. cbn [fetch_all] in F. apply bind_Ret in F. destruct F as (s3 & t3 & F3 & F).
    assert (T3 : is_close (s_type s3) = closes e) by (rewrite (kept_is_close _ _ (fetch_kept _ _ _ _ _ F3)); exact T).
    destruct (Z.eqb_spec t3 0) as [->|Nz].
    + injection F as <- Fl. rewrite <- Fl. intros [= <- <-]. exists s3. split; [exact F3|]. cbn [r_elem r_closed r_ended r_todo r_its]. rewrite C. split; [|auto]. split; [exact T3|]. split; [eapply fetch_over; exact F3|eauto].
    + apply bind_Ret in F. destruct F as (s4 & l & F4 & F). injection F as <- Fl. rewrite <- Fl. intros [= <- <-]. exists s3. split; [exact F3|]. cbn [r_elem r_closed r_ended r_todo r_its r_left]. rewrite C. split; [|auto]. split; [exact T3|]. exists f1, s4, s2. auto.
Qed.
Lemma destroy_sim evs r s e x r' : Inv evs r s -> r_elem r = Some e -> v_on x = true -> r_destroy x r = Some r' -> exists s1, sel_close s = Ret s1 tt /\ Inv evs r' s1 /\ r_elem r' = Some e /\ r_its r' = r_its r.
Proof.
  unfold Inv, r_destroy, tag_closed. intros I E Hx. rewrite E, Hx in *. cbn [andb]. destruct (closes e) eqn:Ce; cbn [andb] in *.
  - destruct (r_ended r && negb (r_closed r)) eqn:K; [|discriminate]. apply andb_prop in K. destruct K as [K1 K2]. apply negb_true_iff in K2. rewrite K1, K2 in I. destruct I as (T & F & s2 & S & R).
    intros [= <-]. exists s2. split; [exact S|]. cbn [r_elem r_closed r_todo r_its]. rewrite Ce. cbn [andb]. split; [exact R|auto].
  - intros [= <-]. destruct I as (T & I). exists s. split; [apply close_other; exact T|]. rewrite E, Ce. cbn [andb]. split; [split; assumption|auto].
Qed.
Lemma ready_rest evs r s : Inv evs r s -> r_ready r = true -> rest evs (r_todo r) s.
Proof.
  unfold Inv, r_ready. destruct (r_elem r) as [e|]; [|intros (_ & _ & H) _; exact H]. intros I K. apply andb_prop in K. destruct K as [K1 K2]. rewrite K1 in I. destruct (closes e) eqn:Ce; cbn [negb orb andb] in *.
  - rewrite K2 in I. exact I.
  - destruct I as (T & _ & s2 & S & R). rewrite close_other in S by exact T. injection S as <-. exact R.
Qed.
Lemma on_elem evs r s i x : Inv evs r s -> v_at i (r_its r) = Some x -> v_on x = true -> exists e, r_elem r = Some e.
Proof. unfold Inv. destruct (r_elem r) as [e|]; [eauto|]. intros (A & _) H K. rewrite (A i x H) in K. discriminate. Qed.
Lemma skip_sim evs r s i x r' y : Inv evs r s -> v_at i (r_its r) = Some x -> r_skip x r = Some (r', y) ->
  exists s1, v_skip ff a x s = Ret s1 y /\ Inv evs r' s1 /\ r_its r' = r_its r /\ r_elem r' = r_elem r /\ v_on y = v_on x.
Proof.
  unfold r_skip, v_skip. intros I H. destruct (v_on x) eqn:Hx.
  - destruct (on_elem _ _ _ _ _ I H Hx) as [e E]. destruct (r_next r) as [[r1 t]|] eqn:N; [|discriminate]. intros [= <- <-]. destruct (next_sim _ _ _ _ _ _ I E N) as (s1 & F & I1 & E1 & G1). exists s1. rewrite F. split; [reflexivity|]. split; [exact I1|]. split; [exact G1|]. split; [congruence|reflexivity].
  - intros [= <- <-]. exists s. auto.
Qed.
Lemma close_sim evs r s i x r' : Inv evs r s -> v_at i (r_its r) = Some x -> r_destroy x r = Some r' -> exists s1, v_close x s = Ret s1 tt /\ Inv evs r' s1 /\ r_its r' = r_its r /\ r_elem r' = r_elem r.
Proof.
  unfold v_close. intros I H. destruct (v_on x) eqn:Hx.
  - destruct (on_elem _ _ _ _ _ I H Hx) as [e E]. intro D. destruct (destroy_sim _ _ _ _ _ _ I E Hx D) as (s1 & F & I1 & E1 & G1). exists s1. split; [exact F|]. split; [exact I1|]. split; [exact G1|congruence].
  - unfold r_destroy. rewrite Hx. intros [= <-]. exists s. auto.
Qed.
Lemma at_snoc g x i y : v_at i (g ++ [x]) = Some y -> v_at i g = Some y \/ x = Some y.
Proof.
  unfold v_at. destruct (Nat.lt_ge_cases i (length g)) as [H|H]; [rewrite nth_error_app1 by exact H; auto|rewrite nth_error_app2 by exact H]. destruct (i - length g)%nat as [|n]; cbn; [destruct x; [intros [= <-]; auto|discriminate]|destruct n; discriminate].
Qed.
Lemma at_upd g i x j y : v_at j (v_set i x g) = Some y -> (j = i /\ x = Some y) \/ v_at j g = Some y.
Proof.
  unfold v_at, v_set. revert i j. induction g as [|z g IH]; intros [|i] [|j]; cbn; auto; try (destruct x; [intros [= <-]; auto|discriminate]).
  intro H. destruct (IH i j H) as [[-> Q]|Q]; auto.
Qed.
Lemma off_snoc g x : all_off g -> (forall y, x = Some y -> v_on y = false) -> all_off (g ++ [x]).
Proof. intros A B i y H. destruct (at_snoc _ _ _ _ H) as [H1| ->]; [eapply A; exact H1|auto]. Qed.
Lemma off_set g i x : all_off g -> (forall y, x = Some y -> v_on y = false) -> all_off (v_set i x g).
Proof. intros A B j y H. destruct (at_upd _ _ _ _ _ H) as [[_ ->]|H1]; [auto|eapply A; exact H1]. Qed.
Lemma inv_off evs r s : Inv evs r s -> r_elem r = None -> all_off (r_its r).
Proof. unfold Inv. intros I E. rewrite E in I. apply I. Qed.
Lemma op_sim o l r s r' ys : Inv (pushed (o :: l)) r s -> r_op o r = Some (r', ys) -> exists s1, v_op ff a o (r_its r) s = Ret (r_its r', s1) ys /\ Inv (pushed l) r' s1.
Proof.
  intros I H. unfold r_op in H. unfold v_op. destruct o as [|e k|i|i j|i|i|i|i|i j]; cbn [pushed flat_map app] in I; try (change (Inv (pushed l) r s) in I).
  - injection H as <- <-. exists s. split; [reflexivity|]. apply inv_set; [exact I|]. intro E. apply off_snoc; [eapply inv_off; eauto|]. intros y [= <-]. reflexivity.
  - destruct (r_ready r) eqn:K; [|discriminate]. destruct (r_todo r) as [|x todo] eqn:Td; [discriminate|]. pose proof (ready_rest _ _ _ I K) as R. rewrite Td in R. unfold rest in R. cbn [sel_run] in R. fold (pushed l) in R.
    apply bind_Ret in R. destruct R as (s2 & x2 & R1 & R). apply bind_Ret in R. destruct R as (s3 & xs & R2 & R). injection R as R0 <- <-. subst s3. unfold sel_element in R1. apply bind_Ret in R1. destruct R1 as (s4 & x4 & F & R1). apply bind_Ret in R1. destruct R1 as (s5 & u & C & R1). injection R1 as <- <-. destruct u.
    destruct (r_next (mkRd (r_its r) (Some e) x4 false false xs)) as [[r1 t]|] eqn:N; [|discriminate]. injection H as <- <-.
    assert (I1 : Inv (pushed l) (mkRd (r_its r) (Some e) x4 false false xs) (sel_init e (Some k) s)).
    { unfold Inv. cbn [r_elem r_closed r_ended r_left r_todo]. rewrite andb_false_r. split; [rewrite init_type, closes_is; reflexivity|]. exists f, s4, s5. split; [exact F|]. split; [exact C|]. exact R2. }
    destruct (next_sim _ _ _ _ _ _ I1 eq_refl N) as (s1 & F1 & I2 & E2 & G2). cbn [r_its] in G2. exists s1. unfold v_skip. cbn [v_on]. rewrite F1. cbn [bind]. split; [reflexivity|]. apply inv_set; [exact I2|congruence].
  - destruct (v_at i (r_its r)) as [x|] eqn:A; [|discriminate]. injection H as <- <-. exists s. split; [reflexivity|]. apply inv_set; [exact I|]. intro E. pose proof (inv_off _ _ _ I E) as O. apply off_snoc; [exact O|]. intros y [= <-]. eapply O; eauto.
  - destruct (v_at i (r_its r)) as [x|] eqn:A; [|discriminate]. destruct (v_at j (r_its r)) as [y|] eqn:B; [|discriminate]. injection H as <- <-. exists s. split; [reflexivity|]. apply inv_set; [exact I|]. intro E. pose proof (inv_off _ _ _ I E) as O. apply off_set; [exact O|]. intros z [= <-]. eapply O; eauto.
  - destruct (v_at i (r_its r)) as [x|] eqn:A; [|discriminate]. destruct (r_skip x r) as [[r1 y]|] eqn:S; [|discriminate]. injection H as <- <-. destruct (skip_sim _ _ _ _ _ _ _ I A S) as (s1 & F & I1 & G1 & E1 & Y). exists s1. rewrite F. split; [reflexivity|].
    apply inv_set; [exact I1|]. intro E. rewrite E1 in E. pose proof (inv_off _ _ _ I E) as O. apply off_set; [exact O|]. intros z [= <-]. rewrite Y. eapply O; eauto.
  - destruct (v_at i (r_its r)) as [x|] eqn:A; [|discriminate]. destruct (r_skip x r) as [[r1 y]|] eqn:S; [|discriminate]. destruct (r_destroy x r1) as [r2|] eqn:D; [|discriminate]. injection H as <- <-.
    destruct (skip_sim _ _ _ _ _ _ _ I A S) as (s1 & F & I1 & G1 & E1 & Y). rewrite <- G1 in A. destruct (close_sim _ _ _ _ _ _ I1 A D) as (s2 & F2 & I2 & G2 & E2). exists s2. rewrite F, F2. split; [reflexivity|].
    apply inv_set; [exact I2|]. intro E. rewrite E2, E1 in E. pose proof (inv_off _ _ _ I E) as O. apply off_set; [exact O|]. intros z [= <-]. rewrite Y. rewrite G1 in A. eapply O; eauto.
  - destruct (v_at i (r_its r)) as [x|] eqn:A; [|discriminate]. destruct (r_destroy x r) as [r1|] eqn:D; [|discriminate]. injection H as <- <-. destruct (close_sim _ _ _ _ _ _ I A D) as (s1 & F & I1 & G1 & E1). exists s1. rewrite F. split; [reflexivity|].
    apply inv_set; [exact I1|]. intro E. rewrite E1 in E. pose proof (inv_off _ _ _ I E) as O. apply off_set; [exact O|]. discriminate.
  - destruct (v_at i (r_its r)) as [x|] eqn:A; [|discriminate]. injection H as <- <-. exists s. split; [reflexivity|exact I].
  - destruct (v_at i (r_its r)) as [x|] eqn:A; [|discriminate]. destruct (v_at j (r_its r)) as [y|] eqn:B; [|discriminate]. injection H as <- <-. exists s. split; [reflexivity|exact I].
Qed.
Lemma run_sim : forall l r s r' ys, Inv (pushed l) r s -> r_run l r = Some (r', ys) -> exists s1, v_run ff a l (r_its r) s = Ret (r_its r', s1) ys /\ Inv [] r' s1.
Proof.
  induction l as [|o l IH]; intros r s r' ys I H; cbn [r_run v_run] in *; [injection H as <- <-; exists s; auto|]. destruct (r_op o r) as [[r1 xs]|] eqn:O; [|discriminate]. destruct (r_run l r1) as [[r2 zs]|] eqn:R; [|discriminate]. injection H as <- <-.
  destruct (op_sim _ _ _ _ _ _ I O) as (s1 & E1 & I1). rewrite E1. destruct (IH _ _ _ _ I1 R) as (s2 & E2 & I2). rewrite E2. exists s2. split; [reflexivity|exact I2].
Qed.
End Read.
Lemma run_todo a f ff : forall evs s s' rs, sel_run f ff a evs s = Ret s' rs -> length rs = length evs.
Proof.
  induction evs as [|[e k] evs IH]; intros s s' rs E; cbn [sel_run] in E; [injection E as <- <-; reflexivity|]. apply bind_Ret in E. destruct E as (s1 & r & E1 & E). apply bind_Ret in E. destruct E as (s2 & rs2 & E2 & E). injection E as <- <-. cbn. f_equal. eauto.
Qed.

(** ** any calls on iterators that exist *)
Section Any.
Variable a : atm.
Hypothesis W : atm_up a.
Lemma skip_total x s : Safe a s -> exists N s1 y, Safe a s1 /\ forall ff, (N <= ff)%nat -> v_skip ff a x s = Ret s1 y.
Proof.
  intros HS. unfold v_skip. destruct (v_on x); [|exists O, s, (mkIt 0 false); auto]. destruct (sel_fetch_safe a W (S (left a s)) s ltac:(lia) HS) as (s1 & t & E & S1). exists (S (left a s)), s1, (mkIt t true). split; [exact S1|].
  intros ff Hf. rewrite (sel_fetch_mono _ _ _ _ _ E ff Hf). reflexivity.
Qed.
Lemma close_total x s : Safe a s -> exists s1, Safe a s1 /\ v_close x s = Ret s1 tt.
Proof. intros HS. unfold v_close. destruct (v_on x); [|eauto]. destruct (sel_close_safe a s HS) as (s1 & E & S1). eauto. Qed.
Definition alive (g : iters) : list bool := map (fun x => match x with Some _ => true | None => false end) g.
Lemma alive_at g i : there i (alive g) = true -> exists x, v_at i g = Some x.
Proof.
  unfold there, alive, v_at. revert i. induction g as [|x g IH]; intros [|i]; cbn; try discriminate; [|apply IH]. destruct x; [eauto|discriminate].
Qed.
Lemma alive_keep g i x y : v_at i g = Some y -> alive (v_set i (Some x) g) = alive g.
Proof. unfold alive, v_set, v_at. revert i. induction g as [|z g IH]; intros [|i]; cbn; try discriminate; [destruct z; [reflexivity|discriminate]|]. intro H. rewrite (IH i H). reflexivity. Qed.
Lemma alive_gone g i : alive (v_set i None g) = upd i false (alive g).
Proof. unfold alive, v_set. revert i. induction g as [|y g IH]; intros [|i]; cbn; try reflexivity. rewrite IH. reflexivity. Qed.
Lemma alive_snoc g x : alive (g ++ [Some x]) = alive g ++ [true].
Proof. unfold alive. rewrite map_app. reflexivity. Qed.
Lemma op_total o g s b : Safe a s -> lives o (alive g) = Some b -> exists N g1 s1 r, Safe a s1 /\ alive g1 = b /\ forall ff, (N <= ff)%nat -> v_op ff a o g s = Ret (g1, s1) r.
Proof.
  intros HS H. destruct o as [|e k|i|i j|i|i|i|i|i j]; cbn [lives] in H; unfold v_op.
  - injection H as <-. exists O, (g ++ [Some (mkIt 0 false)]), s, []. rewrite alive_snoc. auto.
  - injection H as <-. destruct (skip_total (mkIt 0 true) (sel_init e (Some k) s) (sel_init_safe a e (Some k) s HS)) as (N & s1 & y & S1 & E). exists N, (g ++ [Some y]), s1, []. rewrite alive_snoc. split; [exact S1|]. split; [reflexivity|]. intros ff Hf. rewrite (E ff Hf). reflexivity.
  - destruct (there i (alive g)) eqn:T; [|discriminate]. injection H as <-. destruct (alive_at g i T) as [x A]. rewrite A. exists O, (g ++ [Some x]), s, []. rewrite alive_snoc. auto.
  - destruct (there i (alive g)) eqn:T; [|discriminate]. destruct (there j (alive g)) eqn:T'; [|discriminate]. injection H as <-. destruct (alive_at g i T) as [x A]. destruct (alive_at g j T') as [y B]. rewrite A, B. exists O, (v_set i (Some y) g), s, []. rewrite (alive_keep _ _ _ _ A). auto.
  - destruct (there i (alive g)) eqn:T; [|discriminate]. injection H as <-. destruct (alive_at g i T) as [x A]. rewrite A. destruct (skip_total x s HS) as (N & s1 & y & S1 & E). exists N, (v_set i (Some y) g), s1, []. rewrite (alive_keep _ _ _ _ A). split; [exact S1|]. split; [reflexivity|]. intros ff Hf. rewrite (E ff Hf). reflexivity.
  - destruct (there i (alive g)) eqn:T; [|discriminate]. injection H as <-. destruct (alive_at g i T) as [x A]. rewrite A. destruct (skip_total x s HS) as (N & s1 & y & S1 & E). destruct (close_total x s1 S1) as (s2 & S2 & E2). exists N, (v_set i (Some y) g), s2, [v_el x]. rewrite (alive_keep _ _ _ _ A). split; [exact S2|]. split; [reflexivity|].
    intros ff Hf. rewrite (E ff Hf), E2. reflexivity.
  - destruct (there i (alive g)) eqn:T; [|discriminate]. injection H as <-. destruct (alive_at g i T) as [x A]. rewrite A. destruct (close_total x s HS) as (s2 & S2 & E2). exists O, (v_set i None g), s2, []. rewrite alive_gone. split; [exact S2|]. split; [reflexivity|]. intros ff Hf. rewrite E2. reflexivity.
  - destruct (there i (alive g)) eqn:T; [|discriminate]. injection H as <-. destruct (alive_at g i T) as [x A]. rewrite A. exists O, g, s, [v_el x]. auto.
  - destruct (there i (alive g)) eqn:T; [|discriminate]. destruct (there j (alive g)) eqn:T'; [|discriminate]. injection H as <-. destruct (alive_at g i T) as [x A]. destruct (alive_at g j T') as [y B]. rewrite A, B. exists O, g, s, [v_flag (v_el x =? v_el y)%Z]. auto.
Qed.
Lemma all_total : forall l g s b, Safe a s -> all_live l (alive g) = Some b -> exists N g1 s1 r, Safe a s1 /\ alive g1 = b /\ forall ff, (N <= ff)%nat -> v_run ff a l g s = Ret (g1, s1) r.
Proof.
  induction l as [|o l IH]; intros g s b HS H; cbn [all_live] in H; [injection H as <-; exists O, g, s, []; auto|]. destruct (lives o (alive g)) as [b1|] eqn:L; [|discriminate].
  destruct (op_total o g s b1 HS L) as (N1 & g1 & s1 & r1 & S1 & <- & E1). destruct (IH g1 s1 b S1 H) as (N2 & g2 & s2 & r2 & S2 & <- & E2). exists (N1 + N2)%nat, g2, s2, (r1 ++ r2). split; [exact S2|]. split; [reflexivity|].
  intros ff Hf. cbn [v_run]. rewrite E1 by lia. rewrite E2 by lia. reflexivity.
Qed.
End Any.
