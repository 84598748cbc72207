(** What a set of path expressions selects from a document, without an automaton. *)
From Verif Require Import Base XmlScanner.

(** The elements of a document, as far as they matter for paths *)
Inductive kind := KOpen | KHeader | KName | KValue | KContent | KClose | KHdrEnd | KOther.
Definition kind_of (e : etype) : kind :=
  match e with
  | EOpenTag => KOpen
  | EHeaderStart => KHeader
  | ETagAttribName | EHeaderAttribName => KName
  | ETagAttribValue | EHeaderAttribValue => KValue
  | EContent => KContent
  | ECloseTag | ECloseTagIm => KClose
  | EHeaderEnd => KHdrEnd
  | _ => KOther
  end.
Definition event : Type := etype * list N.

(** A path is a list of steps and what to report at its end. A step without name accepts every name. A step or a report with the flag
    reaches into all descendants of the element where the path has arrived. *)
Inductive sop := SOpen | SClose | SAttr | SValue.
Record edge := mkEdge { e_op : sop; e_follow : bool; e_name : option (list N) }.
Inductive rep := RNow | RContent | RAttr.
Record expr := mkExpr { x_edges : list edge; x_rep : rep; x_follow : bool; x_range : option (Z * Z); x_type : Z }.
Definition rest_of (x : expr) (es : list edge) : expr := mkExpr es (x_rep x) (x_follow x) (x_range x) (x_type x).

Definition sees (o : sop) (k : kind) : bool :=
  match o, k with
  | SOpen, (KOpen | KHeader) | SClose, (KClose | KHdrEnd) | SAttr, KName | SValue, KValue => true
  | _, _ => false
  end.
Definition reports (r : rep) (k : kind) : bool :=
  match r, k with RContent, KContent | RAttr, KValue => true | _, _ => false end.
Fixpoint same_name (a b : list N) : bool :=
  match a, b with
  | [], [] => true
  | x :: a', y :: b' => (x =? y) && same_name a' b'
  | _, _ => false
  end.
Definition names (n : option (list N)) (key : list N) : bool := match n with None => true | Some m => same_name m key end.

(** [d]: number of elements opened since the path has arrived where it is *)
Definition near (d : nat) (follow : bool) : bool := follow || match d with O => true | _ => false end.
Definition step_at (ed : edge) (d : nat) (ev : event) : bool :=
  near d (e_follow ed) && sees (e_op ed) (kind_of (fst ev)) && names (e_name ed) (snd ev).
(** The range of an output, as it is handled by the code: every element counts twice, see C39. *)
Definition range_now (r : option (Z * Z)) : bool := match r with None => true | Some (b, e) => (b <=? 1)%Z && (2 <=? e)%Z end.
Definition range_next (r : option (Z * Z)) : option (Z * Z) := match r with None => None | Some (b, e) => Some (b - 2, e - 2)%Z end.

Definition report_at (x : expr) (d : nat) (ev : event) : bool :=
  near d (x_follow x) && reports (x_rep x) (kind_of (fst ev)).
(** the report with the element *)
Definition now (x : expr) (d : nat) (ev : event) : nat :=
  match x_edges x with
  | [] => if report_at x d ev && range_now (x_range x) then 1 else 0
  | [ed] => match x_rep x with RNow => if step_at ed d ev then 1 else 0 | _ => 0 end
  | _ => 0
  end.
(** the depth after the element; none: the element where the path has arrived is closed *)
Definition depth_after (d : nat) (ev : event) : option nat :=
  match kind_of (fst ev), d with
  | KOpen, _ => Some (S d)
  | KClose, O => None
  | KClose, S d => Some d
  | _, _ => Some d
  end.
(** a path that waits for the value of the attribute just read does not wait longer than for the next element *)
Definition transient (x : expr) : bool :=
  match x_edges x with
  | [] => match x_rep x with RAttr => true | _ => false end
  | ed :: _ => match e_op ed with SValue => true | _ => false end
  end.
(** the path with its range after the element *)
Definition wait_on (x : expr) (d : nat) (ev : event) : expr :=
  match x_edges x with
  | [] => if report_at x d ev then mkExpr [] (x_rep x) (x_follow x) (range_next (x_range x)) (x_type x) else x
  | _ => x
  end.

(** How often the path [x], that has arrived [d] levels above, is reported with the [i]-th of the elements [evs] *)
Fixpoint hits (x : expr) (d : nat) (evs : list event) (i : nat) : nat :=
  match evs with
  | [] => 0
  | ev :: l =>
      match i with
      | O => now x d ev
      | S i => (match depth_after d ev with
                | Some d' => if transient x then 0 else hits (wait_on x d ev) d' l i
                | None => 0
                end
                + match x_edges x with
                  | ed :: es => if step_at ed d ev then match kind_of (fst ev) with KClose => 0 | _ => hits (rest_of x es) 0 l i end else 0
                  | [] => 0
                  end)%nat
      end
  end.
(** How often the type [t] is reported for a set of paths *)
Definition hits_of (t : Z) (E : list expr) (d : nat) (evs : list event) (i : nat) : nat :=
  list_sum (map (fun x => if (x_type x =? t)%Z then hits x d evs i else 0%nat) E).

(** The order of elements in a document *)
Inductive phase := PStart | PAttr | PVal | PBody.
Definition phase_after (p : phase) (k : kind) : option phase :=
  match p, k with
  | PStart, KHeader => Some PAttr
  | PAttr, KName => Some PVal
  | PVal, KValue => Some PAttr
  | PVal, _ => None
  | _, KOpen => Some PAttr
  | _, (KContent | KClose | KHdrEnd) => Some PBody
  | p, KOther => Some p
  | _, _ => None
  end.
Definition level_after (n : nat) (k : kind) : option nat :=
  match k, n with KOpen, _ => Some (S n) | KClose, O => None | KClose, S n => Some n | _, _ => Some n end.
Fixpoint ordered (p : phase) (n : nat) (evs : list event) : bool :=
  match evs with
  | [] => true
  | ev :: l =>
      match phase_after p (kind_of (fst ev)), level_after n (kind_of (fst ev)) with
      | Some p', Some n' => ordered p' n' l
      | _, _ => false
      end
  end.

(** Paths that do not interfere with each other: attributes are looked for in the element where the path has arrived only, and
    attribute values right after the attribute name. Every path has a type and no name is empty. [after]: the step before is SAttr. *)
Fixpoint wf_edges (after : bool) (es : list edge) (r : rep) (follow : bool) : bool :=
  match es with
  | [] => match r with RAttr => after && negb follow | _ => true end
  | ed :: es' =>
      match e_op ed with
      | SOpen | SClose => true
      | SAttr => negb (e_follow ed)
      | SValue => after && negb (e_follow ed)
      end
      && match e_name ed with Some [] => false | _ => true end
      && wf_edges match e_op ed with SAttr => true | _ => false end es' r follow
  end.
Definition wf_expr (x : expr) : bool :=
  wf_edges false (x_edges x) (x_rep x) (x_follow x)
  && match x_edges x, x_rep x with [], RNow => false | _, _ => true end
  && negb (x_type x =? 0)%Z.
