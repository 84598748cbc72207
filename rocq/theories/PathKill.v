(** Both ways to count the reports of a path, with and without attributes of all descendants, in one function. *)
From Coq Require Import Lia.
From Verif Require Import Base XmlScanner PathSpec PathDesc PathTrie.

Fixpoint hitsk (kb : bool) (x : expr) (d : nat) (evs : list event) (i : nat) : nat :=
  match evs with
  | [] => 0
  | ev :: l =>
      match i with
      | O => now x d ev
      | S i => (match depth_after d ev with
                | Some d' => if transient x || (kb && refused x ev) then 0 else hitsk kb (wait_on x d ev) d' l i
                | None => 0
                end
                + match x_edges x with
                  | ed :: es => if step_at ed d ev then match kind_of (fst ev) with KClose => 0 | _ => hitsk kb (rest_of x es) 0 l i end else 0
                  | [] => 0
                  end)%nat
      end
  end.
Lemma hitsk_false evs : forall x d i, hitsk false x d evs i = hits x d evs i.
Proof.
  induction evs as [|ev l IH]; intros x d i; cbn [hitsk hits]; [reflexivity|]. destruct i; [reflexivity|]. cbn [andb]. rewrite orb_false_r.
  f_equal.
  - destruct (depth_after d ev); [|reflexivity]. destruct (transient x); [reflexivity|]. apply IH.
  - destruct (x_edges x); [reflexivity|]. destruct (step_at e d ev); [|reflexivity]. destruct (kind_of (fst ev)); rewrite ?IH; reflexivity.
Qed.
Lemma hitsk_true evs : forall x d i, hitsk true x d evs i = hits_d x d evs i.
Proof.
  induction evs as [|ev l IH]; intros x d i; cbn [hitsk hits_d]; [reflexivity|]. destruct i; [reflexivity|]. cbn [andb].
  f_equal.
  - destruct (depth_after d ev); [|reflexivity]. destruct (transient x || refused x ev); [reflexivity|]. apply IH.
  - destruct (x_edges x); [reflexivity|]. destruct (step_at e d ev); [|reflexivity]. destruct (kind_of (fst ev)); rewrite ?IH; reflexivity.
Qed.
Definition hitsk_of (kb : bool) (t : Z) (E : list expr) (d : nat) (evs : list event) (i : nat) : nat :=
  list_sum (map (fun x => if (x_type x =? t)%Z then hitsk kb x d evs i else 0%nat) E).

Fixpoint wf_edgesk (kb after : bool) (es : list edge) (r : rep) (follow : bool) : bool :=
  match es with
  | [] => match r with RAttr => after && negb follow | _ => true end
  | ed :: es' =>
      match e_op ed with
      | SOpen | SClose => true
      | SAttr => kb || negb (e_follow ed)
      | SValue => after && negb (e_follow ed)
      end
      && match e_name ed with Some [] => false | _ => true end
      && wf_edgesk kb match e_op ed with SAttr => true | _ => false end es' r follow
  end.
Definition wf_exprk (kb : bool) (x : expr) : bool :=
  wf_edgesk kb false (x_edges x) (x_rep x) (x_follow x)
  && match x_edges x, x_rep x with [], RNow => false | _, _ => true end
  && negb (x_type x =? 0)%Z.
Lemma wf_edgesk_false es r f : forall b, wf_edgesk false b es r f = wf_edges b es r f.
Proof. induction es as [|ed es IH]; intro b; cbn [wf_edgesk wf_edges]; [reflexivity|]. rewrite IH. reflexivity. Qed.
Lemma wf_edgesk_true es r f : forall b, wf_edgesk true b es r f = wf_edges_d b es r f.
Proof. induction es as [|ed es IH]; intro b; cbn [wf_edgesk wf_edges_d]; [reflexivity|]. rewrite IH. destruct (e_op ed); reflexivity. Qed.
Lemma wf_exprk_false x : wf_exprk false x = wf_expr x.
Proof. unfold wf_exprk, wf_expr. rewrite wf_edgesk_false. reflexivity. Qed.
Lemma wf_exprk_true x : wf_exprk true x = wf_expr_d x.
Proof. unfold wf_exprk, wf_expr_d. rewrite wf_edgesk_true. reflexivity. Qed.

(** ** properties of [hitsk] *)
Section Kill.
Variable kb : bool.
Notation hits := (hitsk kb).

Lemma refused_out x ev : x_edges x = [] -> refused x ev = false.
Proof. unfold refused. intros ->. destruct (kind_of (fst ev)); reflexivity. Qed.
Lemma hits_none evs : forall x d i, x_edges x = [] -> x_rep x = RNow -> hits x d evs i = O.
Proof.
  induction evs as [|ev l IH]; intros x d i Hx Hr; cbn [hitsk]; [reflexivity|].
  destruct i.
  - unfold now. rewrite Hx. unfold report_at. rewrite Hr. cbn [reports]. rewrite andb_false_r. reflexivity.
  - rewrite (refused_out x ev Hx), andb_false_r, orb_false_r. rewrite Hx. unfold wait_on. rewrite Hx. unfold report_at. rewrite Hr. cbn [reports]. rewrite andb_false_r.
    destruct (depth_after d ev); [|reflexivity]. destruct (transient x); [reflexivity|]. rewrite IH; auto.
Qed.

Definition exhausted (r : option (Z * Z)) : Prop := match r with Some (_, e) => (e < 2)%Z | None => False end.
Lemma hits_exhausted evs : forall x d i, x_edges x = [] -> exhausted (x_range x) -> hits x d evs i = O.
Proof.
  induction evs as [|ev l IH]; intros x d i Hx Hr; cbn [hitsk]; [reflexivity|].
  destruct i.
  - unfold now. rewrite Hx. destruct (x_range x) as [[b e]|]; cbn [exhausted range_now] in *; [|contradiction].
    replace (2 <=? e)%Z with false by lia. rewrite !andb_false_r. reflexivity.
  - rewrite (refused_out x ev Hx), andb_false_r, orb_false_r. rewrite Hx. destruct (depth_after d ev); [|reflexivity]. destruct (transient x); [reflexivity|].
    rewrite IH; [reflexivity| |]; unfold wait_on; rewrite Hx.
    + destruct (report_at x d ev); cbn [x_edges]; auto.
    + destruct (report_at x d ev); [|exact Hr]. cbn [x_range]. destruct (x_range x) as [[b e]|]; cbn [range_next exhausted] in *; lia.
Qed.

(** an attribute is not found any more in the content of the element *)
Lemma hits_attr_late evs : forall x ed es p n d i,
  x_edges x = ed :: es -> e_op ed = SAttr -> e_follow ed = false ->
  ordered p n evs = true -> (d = O -> p = PBody) -> (d <= n)%nat -> hits x d evs i = O.
Proof.
  induction evs as [|ev l IH]; intros x ed es p n d i Hx Ho Hf Hw Hp Hd; cbn [hitsk]; [reflexivity|].
  cbn [ordered] in Hw.
  destruct (phase_after p (kind_of (fst ev))) as [p'|] eqn:Ep; [|discriminate].
  destruct (level_after n (kind_of (fst ev))) as [n'|] eqn:En; [|discriminate].
  assert (Hs : step_at ed d ev = false).
  { unfold step_at, near. rewrite Ho, Hf. cbn [orb]. destruct d; [|reflexivity].
    rewrite (Hp eq_refl) in Ep. destruct (kind_of (fst ev)); try discriminate; reflexivity. }
  assert (Hrf : refused x ev = false) by (unfold refused; rewrite Hx, Ho, Hf; destruct (kind_of (fst ev)); reflexivity).
  destruct i.
  - unfold now. rewrite Hx. rewrite Hs. destruct es; [|reflexivity]. destruct (x_rep x); reflexivity.
  - rewrite Hrf, andb_false_r, orb_false_r. rewrite Hx, Hs. unfold transient, wait_on. rewrite Hx, Ho.
    destruct (depth_after d ev) as [d'|] eqn:Ed; [|reflexivity].
    rewrite Nat.add_0_r. eapply (IH x ed es p' n' d' i); eauto.
    + intro. subst d'. unfold depth_after in Ed. destruct (kind_of (fst ev)) eqn:Ek.
      all: try (injection Ed as ->; rewrite (Hp eq_refl) in Ep; cbn in Ep; congruence).
      * congruence.
      * destruct p; cbn in Ep; congruence.
    + unfold depth_after in Ed. unfold level_after in En.
      destruct (kind_of (fst ev)); try (injection Ed as <-; injection En as <-; lia).
      destruct d; [congruence|]. destruct n; [congruence|]. injection Ed as <-; injection En as <-; lia.
Qed.
End Kill.
