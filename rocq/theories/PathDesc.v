(** What is selected by paths with attributes in all descendants, without an automaton. *)
From Verif Require Import Base XmlScanner PathSpec.

(** A path that waits for an attribute of any descendant does not survive a content that is looked at. *)
Definition refused (x : expr) (ev : event) : bool :=
  match kind_of (fst ev), x_edges x with
  | KContent, ed :: _ => match e_op ed with SAttr => e_follow ed | _ => false end
  | _, _ => false
  end.
(** as [hits] of PathSpec, with [refused] *)
Fixpoint hits_d (x : expr) (d : nat) (evs : list event) (i : nat) : nat :=
  match evs with
  | [] => 0
  | ev :: l =>
      match i with
      | O => now x d ev
      | S i => (match depth_after d ev with
                | Some d' => if transient x || refused x ev then 0 else hits_d (wait_on x d ev) d' l i
                | None => 0
                end
                + match x_edges x with
                  | ed :: es => if step_at ed d ev then match kind_of (fst ev) with KClose => 0 | _ => hits_d (rest_of x es) 0 l i end else 0
                  | [] => 0
                  end)%nat
      end
  end.
Definition hits_d_of (t : Z) (E : list expr) (d : nat) (evs : list event) (i : nat) : nat :=
  list_sum (map (fun x => if (x_type x =? t)%Z then hits_d x d evs i else 0%nat) E).

(** A content is looked at if some path of the set has arrived where it reports this content, the range not considered. The others are
    replaced by an element without meaning for paths. *)
Definition blank1 (b : bool) (ev : event) : event :=
  match fst ev with EContent => if b then ev else (ENone, snd ev) | _ => ev end.
Fixpoint blank (bs : list bool) (evs : list event) : list event :=
  match bs, evs with b :: bs', ev :: l => blank1 b ev :: blank bs' l | _, _ => evs end.
Definition unrange (x : expr) : expr :=
  match x_rep x with RContent => mkExpr (x_edges x) (x_rep x) (x_follow x) None (x_type x) | _ => x end.
Definition looked (E : list expr) (evs : list event) (i : nat) : bool :=
  existsb (fun x => match hits_d (unrange x) 0 evs i with O => false | _ => true end) E.
(** for the first [n] elements: whether they are looked at *)
Fixpoint looks (E : list expr) (evs : list event) (n : nat) : list bool :=
  match n with O => [] | S n => let bs := looks E evs n in bs ++ [looked E (blank bs evs) n] end.
Definition visible (E : list expr) (evs : list event) : list event := blank (looks E evs (length evs)) evs.

(** as [wf_edges] of PathSpec, but attributes may be looked for in all descendants *)
Fixpoint wf_edges_d (after : bool) (es : list edge) (r : rep) (follow : bool) : bool :=
  match es with
  | [] => match r with RAttr => after && negb follow | _ => true end
  | ed :: es' =>
      match e_op ed with
      | SOpen | SClose | SAttr => true
      | SValue => after && negb (e_follow ed)
      end
      && match e_name ed with Some [] => false | _ => true end
      && wf_edges_d match e_op ed with SAttr => true | _ => false end es' r follow
  end.
Definition wf_expr_d (x : expr) : bool :=
  wf_edges_d false (x_edges x) (x_rep x) (x_follow x)
  && match x_edges x, x_rep x with [], RNow => false | _, _ => true end
  && negb (x_type x =? 0)%Z.

(** Paths that look for attributes where they have arrived only, and paths that do not report contents *)
Definition own_attrs (x : expr) : bool := forallb (fun ed => match e_op ed with SAttr => negb (e_follow ed) | _ => true end) (x_edges x).
Definition no_content (x : expr) : bool := match x_rep x with RContent => false | _ => true end.
