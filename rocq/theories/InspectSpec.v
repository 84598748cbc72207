(** What the functions inspecting a path automaton are expected to deliver (specification). *)
From Verif Require Import Base Charset XmlScanner PathAtm PathSelect PathSpec PathProg PathInspect.

(** The step of a path a state stands for: its operation, told by the types of elements it matches, its flag and its name *)
Definition step_of (st : pstate) : edge :=
  mkEdge (if m_matches (c_mask (st_core st)) EOpenTag then SOpen else if m_matches (c_mask (st_core st)) ECloseTag then SClose
          else if m_matches (c_mask (st_core st)) ETagAttribName then SAttr else SValue)
         (c_follow (st_core st)) (st_key st).
(** The state is in the list of states of the automaton where the steps [es] lead to *)
Inductive leads (a : atm) : list edge -> nat -> Prop :=
| ld_root : leads a [] 0
| ld_link es i st j : leads a es i -> nth_error a i = Some st -> st_link st = Some j -> leads a es j
| ld_next es i st j : leads a es i -> nth_error a i = Some st -> st_next st = Some j -> leads a (es ++ [step_of st]) j.
(** The state makes the last of the steps [es] *)
Definition last_step (a : atm) (es : list edge) (i : nat) : Prop :=
  exists es' st j, leads a es' i /\ nth_error a i = Some st /\ st_next st = Some j /\ es = es' ++ [step_of st].
Definition edge_eq (x y : edge) : {x = y} + {x <> y}.
Proof. repeat decide equality. Defined.
(** The path has the steps [es], reports with elements of type [e], and has the type [t]. *)
Definition ends_at (es : list edge) (e : etype) (t : Z) (x : expr) : bool :=
  (if list_eq_dec edge_eq (x_edges x) es then true else false) && reports (x_rep x) (kind_of e) && (x_type x =? t)%Z.
Definition types_of (a : atm) (e : etype) (i : nat) : list Z := match atm_emitted a i e with Ret _ l => l | _ => [] end.

(** The name can be read from the null terminated text. *)
Definition name_read (cs : charset) (n : list N) : Prop := exists k, static_key cs n = Ret tt k.
(** No index is the largest integer: idx+1 is undefined for it. *)
Definition op_fits (o : pathop) : Prop :=
  match o with BTo i | BIndex i => i <> int_max | BRange _ j => j <> int_max | _ => True end.
