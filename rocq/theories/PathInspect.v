(** The functions that inspect a path automaton and a path selector, and any sequence of calls on a selector (model). *)
From Verif Require Import Base XmlScanner PathAtm PathSelect PathExtra.

(** getEmmitedTokens, xmlpathautomaton.hpp:369-381: the list of states linked to the successor of a state; [Undef]: index outside of the states *)
Fixpoint emit_loop (fuel : nat) (a : atm) (e : etype) (si : option nat) : out atm (list Z) :=
  match fuel with
  | O => Fuel
  | S f =>
      match si with
      | None => Ret a []
      | Some i =>
          match nth_error a i with
          | None => Undef
          | Some st =>
              let c := st_core st in
              let! (a, l) := emit_loop f a e (st_link st) in
              Ret a (if negb (c_type c =? 0)%Z && m_matches (c_mask c) e then c_type c :: l else l)
          end
      end
  end.
Definition atm_emitted (a : atm) (i : nat) (e : etype) : out atm (list Z) :=
  match nth_error a i with
  | None => Undef
  | Some st => emit_loop (S (length a)) a e (st_next st)
  end.

(** getTokenTypeMatchingStates, xmlpathselect.hpp:299-321 *)
Definition tok_states (e : etype) (t : tok) : list nat := if m_matches (c_mask (t_core t)) e then [t_state t] else [].
(** the loop over follows, lines 314-320 *)
Fixpoint follow_states (n ti : nat) (e : etype) (s : sel) : out sel (list nat) :=
  match n with
  | O => Ret s []
  | S n =>
      match nth_error (s_follows s) ti with
      | None => Undef
      | Some k =>
          match nth_error (s_toks s) k with
          | None => Undef
          | Some t => let! (s, l) := follow_states n (S ti) e s in Ret s (tok_states e t ++ l)
          end
      end
  end.
Definition sel_states (e : etype) (withFollows : bool) (s : sel) : out sel (list nat) :=
  let! (s, l) := if withFollows then follow_states (sc_fidx (s_scope s)) 0 e s else Ret s [] in
  Ret s (flat_map (tok_states e) (skipn (sc_to (s_scope s)) (s_toks s)) ++ l).

(** The calls on a selector in any order: the constructor of an iterator calls initProcessElement and fetch (lines 396-402), an increment calls
    fetch (lines 357-368), the destructor of an iterator and of each of its copies calls closeProcessElement (lines 404-407). After a copy of the
    selector the calls are made on the copy. *)
Inductive selop := PInit (e : etype) (key : option (list N)) | PFetch | PClose | PCopy | PStates (e : etype) (withFollows : bool).
Definition sel_op (fuel : nat) (a : atm) (o : selop) (s : sel) : out sel (list Z) :=
  match o with
  | PInit e key => Ret (sel_init e key s) []
  | PFetch => let! (s, t) := sel_fetch fuel a s in Ret s [t]
  | PClose => let! (s, _) := sel_close s in Ret s []
  | PCopy => Ret (sel_copy s) []
  | PStates e b => let! (s, l) := sel_states e b s in Ret s (map Z.of_nat l)
  end.
Fixpoint sel_ops (fuel : nat) (a : atm) (os : list selop) (s : sel) : out sel (list (list Z)) :=
  match os with
  | [] => Ret s []
  | o :: os => let! (s, r) := sel_op fuel a o s in let! (s, rs) := sel_ops fuel a os s in Ret s (r :: rs)
  end.
Definition sel_session (fuel : nat) (a : atm) (os : list selop) : out sel (list (list Z)) := let! (s, _) := sel_new a in sel_ops fuel a os s.
