(** What calls on an automaton do when some do not get their memory, without memory (specification for C92). *)
From Verif Require Import Base XmlScanner PathAtm AtmFail AtmFailMem.

(** the number of allocations to come that fail *)
Definition nf (l : list bool) : nat := length (filter negb l).
(** an exception is caught; the automaton is as it left it *)
Definition caught {A} (o : out atm A) : out atm (option A) := match o with Ret a n => Ret a (Some n) | Throw a => Ret a None | Fuel => Fuel | _ => Undef end.
(** calls that did not get their memory *)
Definition one (m : option place) : nat := match m with Some _ => 1 | None => 0 end.
(** the blocks that may be lost: only a push_back into a vector with states copies some *)
Definition lossy (m : option place) : nat := match m with Some PlLink | Some PlNext => 1 | _ => 0 end.
(** The calls, for each the place where it gets no memory *)
Definition p_call (c : mcall) (m : option place) (a : atm) : out atm (option (option nat)) :=
  match c with
  | MNext i op name follow => caught (f_defineNext m i op (option_map fst name) follow a)
  | MOutput i k t follow b e => caught (f_defineOutput m i k t follow b e a)
  end.
Fixpoint p_calls (cs : list mcall) (ms : list (option place)) (a : atm) : out atm (list (option (option nat))) :=
  match cs with
  | [] => Ret a []
  | c :: cs => let! (a, r) := p_call c (hd None ms) a in let! (a, rs) := p_calls cs (tl ms) a in Ret a (r :: rs)
  end.
(** names have no byte 0 *)
Definition plain_name (c : mcall) : Prop := match c with MNext _ _ (Some (_, l)) _ => Forall (fun b => b <> 0) l | _ => True end.
Definition total (f : option place -> nat) (ms : list (option place)) : nat := list_sum (map f ms).
