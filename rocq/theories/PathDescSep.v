(** Paths with attributes in all descendants: when the reports of a path do not depend on the contents looked at. *)
From Coq Require Import Lia ZifyBool ZifyNat.
From Verif Require Import Base XmlScanner PathSpec PathDesc PathRun10.

Lemma own_refused x ev : own_attrs x = true -> refused x ev = false.
Proof.
  unfold own_attrs, refused. intro H. destruct (kind_of (fst ev)); try reflexivity. destruct (x_edges x) as [|ed es]; [reflexivity|]. cbn [forallb] in H. apply andb_prop in H. destruct H as [H _].
  destruct (e_op ed); try reflexivity. destruct (e_follow ed); [discriminate|reflexivity].
Qed.
Lemma wait_edges x d ev : x_edges (wait_on x d ev) = x_edges x.
Proof. unfold wait_on. destruct (x_edges x) eqn:E; [|exact E]. destruct (report_at x d ev); [reflexivity|exact E]. Qed.
Lemma wait_rep x d ev : x_rep (wait_on x d ev) = x_rep x.
Proof. unfold wait_on. destruct (x_edges x) eqn:E; [|reflexivity]. destruct (report_at x d ev); reflexivity. Qed.
Lemma own_wait x d ev : own_attrs x = true -> own_attrs (wait_on x d ev) = true.
Proof. unfold own_attrs. rewrite wait_edges. auto. Qed.
Lemma own_rest x ed es : x_edges x = ed :: es -> own_attrs x = true -> own_attrs (rest_of x es) = true.
Proof. unfold own_attrs. cbn [rest_of x_edges]. intros ->. cbn [forallb]. intro H. apply andb_prop in H. apply H. Qed.
Lemma unrange_wait x d ev : unrange (wait_on x d ev) = wait_on (unrange x) d ev.
Proof.
  unfold unrange. rewrite wait_rep. destruct (x_rep x) eqn:R; try reflexivity. unfold wait_on. cbn [x_edges x_rep x_follow x_type x_range].
  destruct (x_edges x) eqn:E; cbn [x_edges x_follow x_type]; rewrite ?E; [|reflexivity]. unfold report_at. rewrite R. cbn [x_rep x_follow].
  destruct (near d (x_follow x) && reports RContent (kind_of (fst ev))); cbn [x_edges x_follow x_type x_range range_next]; rewrite ?E; reflexivity.
Qed.
Lemma unrange_rest x es : unrange (rest_of x es) = rest_of (unrange x) es.
Proof. unfold unrange, rest_of. cbn [x_rep]. destruct (x_rep x) eqn:R; cbn [x_rep x_follow x_type x_range x_edges]; rewrite ?R; reflexivity. Qed.
Lemma unrange_transient x : transient (unrange x) = transient x.
Proof. unfold transient, unrange. destruct (x_rep x) eqn:R; cbn [x_edges x_rep]; rewrite ?R; reflexivity. Qed.
Lemma unrange_edges x : x_edges (unrange x) = x_edges x.
Proof. unfold unrange. destruct (x_rep x); reflexivity. Qed.
Lemma unrange_own x : own_attrs (unrange x) = own_attrs x.
Proof. unfold own_attrs. rewrite unrange_edges. reflexivity. Qed.
Lemma unrange_rep x : x_rep (unrange x) = x_rep x.
Proof. unfold unrange. destruct (x_rep x) eqn:E; cbn [x_rep]; auto. Qed.

Lemma hits_own : forall evs x d i, own_attrs x = true -> hits_d x d evs i = hits x d evs i.
Proof.
  induction evs as [|ev l IH]; intros x d i H; cbn [hits_d hits]; [reflexivity|]. destruct i as [|i]; [reflexivity|]. rewrite (own_refused x ev H), orb_false_r. f_equal.
  - destruct (depth_after d ev); [|reflexivity]. destruct (transient x); [reflexivity|]. apply IH, own_wait, H.
  - destruct (x_edges x) as [|ed es] eqn:E; [reflexivity|]. destruct (step_at ed d ev); [|reflexivity]. destruct (kind_of (fst ev)); try reflexivity; apply IH; eapply own_rest; eauto.
Qed.

(** elements that make nothing happen *)
Definition idle (ev : event) : Prop := kind_of (fst ev) = KContent \/ kind_of (fst ev) = KOther.
Lemma idle_step ed d ev : idle ev -> step_at ed d ev = false.
Proof. intro H. unfold step_at. replace (sees (e_op ed) (kind_of (fst ev))) with false; [rewrite andb_false_r; reflexivity|]. destruct H as [-> | ->]; destruct (e_op ed); reflexivity. Qed.
Lemma idle_depth d ev : idle ev -> depth_after d ev = Some d.
Proof. intro H. unfold depth_after. destruct H as [-> | ->]; destruct d; reflexivity. Qed.
Lemma other_report x d ev : kind_of (fst ev) = KOther -> report_at x d ev = false.
Proof. intro H. unfold report_at. rewrite H. destruct (x_rep x); rewrite andb_comm; reflexivity. Qed.
Lemma now_idle x d ev : idle ev -> report_at x d ev = false -> now x d ev = O.
Proof. intros H R. unfold now. rewrite R. destruct (x_edges x) as [|ed [|]]; try reflexivity. rewrite idle_step by exact H. destruct (x_rep x); reflexivity. Qed.
Lemma wait_idle x d ev : report_at x d ev = false -> wait_on x d ev = x.
Proof. intro R. unfold wait_on. rewrite R. destruct (x_edges x); reflexivity. Qed.
Lemma wait_edge x d ev ed es : x_edges x = ed :: es -> wait_on x d ev = x.
Proof. intro H. unfold wait_on. rewrite H. reflexivity. Qed.

(** contents where the path itself reports nothing do not matter *)
Theorem hits_blank : forall evs bs x d i, own_attrs x = true ->
  (forall j key, nth_error evs j = Some (EContent, key) -> nth j bs true = false -> hits_d (unrange x) d (blank (firstn j bs) evs) j = O) ->
  hits_d x d (blank bs evs) i = hits x d evs i.
Proof.
  induction evs as [|ev l IH]; intros bs x d i Hx H; [destruct bs; reflexivity|]. destruct bs as [|b bs]; [apply hits_own; exact Hx|]. cbn [blank].
  assert (Hb : blank1 b ev = ev \/ (idle ev /\ kind_of (fst (blank1 b ev)) = KOther /\ (x_edges x = [] -> report_at x d ev = false))).
  { unfold blank1. destruct ev as [e key]. destruct e; try (left; reflexivity). destruct b; [left; reflexivity|right]. split; [left; reflexivity|]. split; [reflexivity|]. intro Ex.
    specialize (H O key eq_refl eq_refl). cbn [firstn blank hits_d] in H. destruct (report_at x d (EContent, key)) eqn:R; [exfalso|reflexivity]. unfold now in H.
    rewrite unrange_edges, Ex in H. unfold report_at in R. assert (Rr : x_rep x = RContent) by (apply andb_prop in R; destruct R as [_ R]; destruct (x_rep x); cbn in R; congruence).
    unfold unrange in H. rewrite Rr in H. unfold report_at in H. cbn [x_follow x_rep x_range range_now] in H. rewrite Rr in R. rewrite R in H. discriminate. }
  assert (Hsum : forall j key, nth_error l j = Some (EContent, key) -> nth j bs true = false ->
     (match depth_after d (blank1 b ev) with
      | Some d' => if transient x then O else hits_d (unrange (wait_on x d (blank1 b ev))) d' (blank (firstn j bs) l) j
      | None => O end = O) /\
     match x_edges x with
     | e :: es => if step_at e d (blank1 b ev) then match kind_of (fst (blank1 b ev)) with KClose => O | _ => hits_d (unrange (rest_of x es)) 0 (blank (firstn j bs) l) j end else O
     | [] => O end = O).
  { intros j key Hj Hbj. specialize (H (S j) key Hj Hbj). cbn [firstn blank hits_d] in H. rewrite unrange_transient, unrange_edges in H.
    rewrite (own_refused (unrange x)), orb_false_r in H by (rewrite unrange_own; exact Hx). apply Nat.eq_add_0 in H. destruct H as [HA HB]. split.
    - rewrite unrange_wait. exact HA.
    - destruct (x_edges x) as [|e es]; [reflexivity|]. rewrite unrange_rest. exact HB. }
  destruct i as [|i]; cbn [hits_d hits].
  - destruct Hb as [->|(H1 & H2 & H3)]; [reflexivity|]. assert (Rn : report_at x d (blank1 b ev) = false) by (apply other_report; exact H2).
    rewrite (now_idle x d (blank1 b ev)) by (auto; right; exact H2). symmetry. unfold now. destruct (x_edges x) as [|ed es]; [rewrite H3 by reflexivity; reflexivity|].
    rewrite idle_step by exact H1. destruct es; [destruct (x_rep x); reflexivity|reflexivity].
  - rewrite (own_refused x _ Hx), orb_false_r.
    assert (Ewait : wait_on x d (blank1 b ev) = wait_on x d ev).
    { destruct Hb as [->|(H1 & H2 & H3)]; [reflexivity|]. destruct (x_edges x) as [|ed es] eqn:Ex; [|rewrite !(wait_edge _ _ _ _ _ Ex); reflexivity].
      rewrite !wait_idle; auto. apply other_report. exact H2. }
    assert (Edep : depth_after d (blank1 b ev) = depth_after d ev) by (destruct Hb as [->|(H1 & H2 & _)]; [reflexivity|rewrite !idle_depth; auto; right; exact H2]).
    f_equal.
    + rewrite Ewait, Edep in *. destruct (depth_after d ev) as [d'|]; [|reflexivity]. destruct (transient x); [reflexivity|]. apply IH; [apply own_wait, Hx|].
      intros j key Hj Hbj. apply (Hsum j key Hj Hbj).
    + destruct (x_edges x) as [|ed es] eqn:Ex; [reflexivity|].
      destruct Hb as [Hb|(H1 & H2 & _)]; [|rewrite !idle_step; auto; right; exact H2]. rewrite Hb in *. destruct (step_at ed d ev); [|reflexivity].
      assert (Ho := own_rest _ _ _ Ex Hx).
      destruct (kind_of (fst ev)) eqn:Ek; try reflexivity; apply IH; auto; intros j key Hj Hbj; apply (Hsum j key Hj Hbj).
Qed.

(** paths without content reports *)
Lemma no_content_report x d ev : no_content x = true -> kind_of (fst ev) = KContent -> report_at x d ev = false.
Proof. unfold no_content, report_at. intros H ->. destruct (x_rep x); try discriminate; rewrite andb_comm; reflexivity. Qed.
Lemma hits_d_content : forall evs x d i key, no_content x = true -> nth_error evs i = Some (EContent, key) -> hits_d x d evs i = O.
Proof.
  induction evs as [|ev l IH]; intros x d i key Hx Hi; destruct i as [|i]; cbn [nth_error hits_d] in *; try discriminate.
  - injection Hi as ->. apply now_idle; [left; reflexivity|]. apply no_content_report; [exact Hx|reflexivity].
  - assert (A : forall y d', x_rep y = x_rep x -> hits_d y d' l i = O) by (intros y d' Hy; eapply IH; [unfold no_content in *; rewrite Hy; exact Hx|exact Hi]).
    destruct (depth_after d ev); [destruct (_ || _)|]; rewrite ?A by apply wait_rep;
    (destruct (x_edges x); [reflexivity|]; destruct (step_at _ d ev); [|reflexivity]; destruct (kind_of (fst ev)); rewrite ?A by reflexivity; reflexivity).
Qed.
(** all contents left out *)
Lemma hits_blank_all : forall evs bs x d i, no_content x = true -> length bs = length evs -> (forall j key, nth_error evs j = Some (EContent, key) -> nth j bs true = false) ->
  hits_d x d (blank bs evs) i = hits x d evs i.
Proof.
  induction evs as [|ev l IH]; intros [|b bs] x d i Hx HL H; cbn [length blank] in *; try discriminate; [reflexivity|].
  assert (IH' : forall y d' j, x_rep y = x_rep x -> hits_d y d' (blank bs l) j = hits y d' l j).
  { intros y d' j Hy. apply IH; [unfold no_content in *; rewrite Hy; exact Hx|lia|]. intros k key Hk. exact (H (S k) key Hk). }
  assert (Hb : (blank1 b ev = ev /\ refused x ev = false) \/ (idle ev /\ kind_of (fst (blank1 b ev)) = KOther /\ report_at x d ev = false)).
  { destruct ev as [e key]. unfold blank1. destruct e; try (left; split; [reflexivity|]; unfold refused; cbn; reflexivity). cbn [fst]. rewrite (H O key eq_refl : b = false) at 1. right.
    rewrite (H O key eq_refl : b = false). split; [left; reflexivity|]. split; [reflexivity|]. apply no_content_report; [exact Hx|reflexivity]. }
  destruct Hb as [[-> Hr]|(H1 & H2 & H3)]; destruct i as [|i]; cbn [hits_d hits].
  - reflexivity.
  - rewrite Hr, orb_false_r. f_equal.
    + destruct (depth_after d ev); [|reflexivity]. destruct (transient x); [reflexivity|]. apply IH', wait_rep.
    + destruct (x_edges x); [reflexivity|]. destruct (step_at _ d ev); [|reflexivity]. destruct (kind_of (fst ev)); try reflexivity; apply IH'; reflexivity.
  - rewrite !now_idle; auto; [right; exact H2|apply other_report; exact H2].
  - assert (Hr : refused x (blank1 b ev) = false) by (unfold refused; rewrite H2; reflexivity). rewrite Hr, orb_false_r.
    rewrite !idle_depth by (auto; right; exact H2). rewrite !wait_idle by (auto; apply other_report; exact H2). f_equal.
    + destruct (transient x); [reflexivity|]. apply IH'. reflexivity.
    + destruct (x_edges x); [reflexivity|]. rewrite !idle_step by (auto; right; exact H2). reflexivity.
Qed.

Lemma looks_nth E evs : forall n i, (i < n)%nat -> nth i (looks E evs n) true = looked E (blank (firstn i (looks E evs n)) evs) i.
Proof.
  induction n as [|n IH]; intros i Hi; [lia|]. cbn [looks]. pose proof (looks_length E evs n) as L.
  rewrite firstn_app, L. replace (i - n)%nat with O by lia. cbn [firstn]. rewrite app_nil_r. destruct (Nat.eq_dec i n) as [->|].
  - rewrite app_nth2, L, Nat.sub_diag by lia. cbn [nth]. rewrite firstn_all2 by lia. reflexivity.
  - rewrite app_nth1 by lia. apply IH. lia.
Qed.
Lemma nth_error_lt {A} (l : list A) i x : nth_error l i = Some x -> (i < length l)%nat.
Proof. intro H. apply nth_error_Some. congruence. Qed.

(** the reports of one path among others *)
Theorem visible_own E evs x i : In x E -> own_attrs x = true -> hits_d x 0 (visible E evs) i = hits x 0 evs i.
Proof.
  intros HE Hx. apply hits_blank; [exact Hx|]. intros j key Hj Hb. pose proof (nth_error_lt _ _ _ Hj) as Hlt. rewrite looks_nth in Hb by exact Hlt.
  unfold looked in Hb. destruct (hits_d (unrange x) 0 (blank (firstn j (looks E evs (length evs))) evs) j) eqn:Eh; [reflexivity|exfalso].
  assert (X : existsb (fun x => match hits_d (unrange x) 0 (blank (firstn j (looks E evs (length evs))) evs) j with O => false | _ => true end) E = true); [|congruence].
  apply existsb_exists. exists x. rewrite Eh. auto.
Qed.
Lemma blank_content bs (evs : list event) j key : nth_error evs j = Some (EContent, key) -> nth j bs true = true -> nth_error (blank bs evs) j = Some (EContent, key).
Proof. intros H Hb. rewrite blank_nth, H. cbn [option_map]. rewrite Hb, blank1_true. reflexivity. Qed.
Lemma firstn_nth_over {A} (l : list A) j d : nth j (firstn j l) d = d.
Proof. apply nth_overflow. rewrite firstn_length. lia. Qed.
Lemma looked_no_content E (evs : list event) j key : Forall (fun x => no_content x = true) E -> nth_error evs j = Some (EContent, key) -> looked E evs j = false.
Proof.
  intros HE Hj. unfold looked. induction HE as [|y E Hy HE IH]; [reflexivity|]. cbn [existsb]. rewrite IH.
  rewrite (hits_d_content evs (unrange y) 0 j key); [reflexivity| |exact Hj]. unfold no_content in *. rewrite unrange_rep. exact Hy.
Qed.
Theorem visible_no_content E evs x i : Forall (fun x => no_content x = true) E -> In x E -> hits_d x 0 (visible E evs) i = hits x 0 evs i.
Proof.
  intros HE Hx. apply hits_blank_all; [rewrite Forall_forall in HE; apply HE, Hx|apply looks_length|]. intros j key Hj. rewrite looks_nth by (eapply nth_error_lt; eauto).
  apply (looked_no_content _ _ _ key); [exact HE|]. apply blank_content; [exact Hj|apply firstn_nth_over].
Qed.

(** more paths without content reports *)
Lemma blank_ext (evs : list event) bs bs' : (forall j key, nth_error evs j = Some (EContent, key) -> nth j bs true = nth j bs' true) -> blank bs evs = blank bs' evs.
Proof.
  intro H. apply nth_error_ext'. intro i. rewrite !blank_nth. destruct (nth_error evs i) as [[e key]|] eqn:Hi; [|reflexivity]. cbn [option_map]. f_equal. unfold blank1. cbn [fst].
  destruct e; try reflexivity. rewrite (H i key Hi). reflexivity.
Qed.
Theorem visible_more E1 E2 evs : Forall (fun x => no_content x = true) E2 -> visible (E1 ++ E2) evs = visible E1 evs.
Proof.
  intro HE. unfold visible. generalize (length evs) as n. induction n as [|n IH]; [reflexivity|]. cbn [looks]. apply blank_ext. intros j key Hj.
  pose proof (looks_length (E1 ++ E2) evs n) as L. pose proof (looks_length E1 evs n) as L1. destruct (Nat.lt_trichotomy j n) as [Hl|[->|Hg]].
  - rewrite !app_nth1 by lia. apply (f_equal (fun q => nth_error q j)) in IH. rewrite !blank_nth, Hj in IH. cbn [option_map] in IH. injection IH as IH.
    unfold blank1 in IH. cbn [fst] in IH. destruct (nth j (looks (E1 ++ E2) evs n) true), (nth j (looks E1 evs n) true); try reflexivity; discriminate.
  - rewrite !app_nth2, L, L1, Nat.sub_diag by lia. cbn [nth]. rewrite IH. unfold looked at 1. rewrite existsb_app. fold (looked E1 (blank (looks E1 evs n) evs) n). fold (looked E2 (blank (looks E1 evs n) evs) n).
    rewrite (looked_no_content E2 _ _ key HE), orb_false_r; [reflexivity|]. apply blank_content; [exact Hj|]. apply nth_overflow. lia.
  - rewrite !nth_overflow by (rewrite app_length; cbn [length]; lia). reflexivity.
Qed.
