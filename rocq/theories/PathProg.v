(** Programs of method calls that define paths (model), and what they mean (specification). *)
From Verif Require Import Base Charset XmlScanner PathAtm PathSelect PathSpec.

(** The public methods of PathElement, xmlpathautomaton.hpp:672-749; [None] is the null pointer passed as name or value. *)
Inductive pathop :=
| BTag (name : option (list N))            (* operator[], selectTag *)
| BClose                                   (* selectCloseTag *)
| BAttr (name : option (list N))           (* operator()(name), selectAttribute *)
| BCond (name value : option (list N))     (* operator()(name,value), ifAttribute *)
| BContent                                 (* operator()(), selectContent *)
| BFollow                                  (* operator--, forAllDescendants *)
| BTo (i : Z) | BFrom (i : Z) | BRange (i j : Z) | BIndex (i : Z)
| BOut (t : Z).                            (* operator=, assignType *)

Definition pe_opt (o : option pelem) (a : atm) : out atm pelem := match o with Some p => Ret a p | None => Undef end.
Definition pe_op (cs : charset) (o : pathop) (p : pelem) (a : atm) : out atm pelem :=
  match o with
  | BTag n => pe_selectTag cs n p a
  | BClose => pe_selectCloseTag cs p a
  | BAttr n => pe_selectAttribute cs n p a
  | BCond n v => pe_ifAttribute cs n v p a
  | BContent => Ret a (pe_selectContent p)
  | BFollow => Ret a (pe_doFollow p)
  | BTo i => pe_opt (pe_TO i p) a
  | BFrom i => pe_opt (pe_FROM i p) a
  | BRange i j => pe_opt (pe_RANGE i j p) a
  | BIndex i => pe_opt (pe_INDEX i p) a
  | BOut t => pe_assignType t p a
  end.
Fixpoint pe_ops (cs : charset) (os : list pathop) (p : pelem) (a : atm) : out atm pelem :=
  match os with
  | [] => Ret a p
  | o :: os => let! (a, p) := pe_op cs o p a in pe_ops cs os p a
  end.
(** operator* of the automaton and the calls on its result for each of the programs, beginning with an empty automaton *)
Fixpoint add_paths (cs : charset) (ps : list (list pathop)) (a : atm) : out atm unit :=
  match ps with
  | [] => Ret a tt
  | os :: ps => let! (a, _) := pe_ops cs os pe_root a in add_paths cs ps a
  end.

(** ** what the programs mean *)
(** the steps, what is reported, whether descendants are meant and the range of the path element. A range ends before its second number, -1 is no range; of a second range
    the end counts if it is smaller, else the start if it is larger. *)
Record ppos := mkPp { pp_edges : list edge; pp_rep : rep; pp_follow : bool; pp_range : option (Z * Z) }.
Definition pp_root : ppos := mkPp [] RNow false None.
Definition pp_step (o : sop) (n : option (list N)) (p : ppos) : ppos := mkPp (pp_edges p ++ [mkEdge o (pp_follow p) n]) (pp_rep p) false (pp_range p).
Definition pp_ranged (b e : Z) (p : ppos) : ppos :=
  let no_end (b e : Z) := if (e =? -1)%Z then None else Some (b, e) in
  mkPp (pp_edges p) (pp_rep p) (pp_follow p)
    match pp_range p with
    | None => no_end b e
    | Some (b1, e1) => if (e <? e1)%Z then no_end b1 e else Some (Z.max b b1, e1)
    end.
Definition pp_op (o : pathop) (p : ppos) : option (ppos * list expr) :=
  let go (p : ppos) := Some (p, []) in
  let rep r (p : ppos) := mkPp (pp_edges p) r (pp_follow p) (pp_range p) in
  match o with
  | BTag n => go (pp_step SOpen n p)
  | BClose => go (pp_step SClose None p)
  | BAttr n => go (rep RAttr (pp_step SAttr n p))
  | BCond n v => go (pp_step SValue v (pp_step SAttr n p))
  | BContent => go (rep RContent p)
  | BFollow => go (mkPp (pp_edges p) (pp_rep p) true (pp_range p))
  | BTo i => if (i <? 2 ^ 31 - 1)%Z then go (pp_ranged 0 (if (0 <=? i)%Z then i + 1 else -1)%Z p) else None
  | BFrom i => go (pp_ranged i (2 ^ 31 - 1) p)
  | BRange i j => if (j <? 2 ^ 31 - 1)%Z then go (pp_ranged i (if (0 <=? j)%Z then j + 1 else -1)%Z p) else None
  | BIndex i => if (i <? 2 ^ 31 - 1)%Z then go (pp_ranged i (i + 1) p) else None
  | BOut t => if (t =? 0)%Z then None else Some (p, [mkExpr (pp_edges p) (pp_rep p) (pp_follow p) (pp_range p) t])
  end.
Fixpoint pp_ops (os : list pathop) (p : ppos) : option (list expr) :=
  match os with
  | [] => Some []
  | o :: os => match pp_op o p with
               | None => None
               | Some (p, E) => match pp_ops os p with None => None | Some E' => Some (E ++ E') end
               end
  end.
(** the paths of a list of programs *)
Fixpoint paths_of (ps : list (list pathop)) : option (list expr) :=
  match ps with
  | [] => Some []
  | os :: ps => match pp_ops os pp_root, paths_of ps with Some E, Some E' => Some (E ++ E') | _, _ => None end
  end.

(** the names in a program *)
Definition op_names (o : pathop) : list (list N) :=
  let opt (n : option (list N)) := match n with Some n => [n] | None => [] end in
  match o with BTag n | BAttr n => opt n | BCond n v => opt n ++ opt v | _ => [] end.
Definition prog_names (ps : list (list pathop)) : list (list N) := flat_map (flat_map op_names) ps.
