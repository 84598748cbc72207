(** XMLPathSelectAutomaton: xmlpathautomaton.hpp (model). *)
From Verif Require Import Base Iter CharMap Charset TextScanner XmlScanner.

(** enum Operation, lines 47-56 *)
Inductive pop := OpContent | OpOpenTag | OpCloseTag | OpAttribute | OpThisValue | OpValue | OpContentStart.

(** struct Mask, lines 69-197; unsigned short with one bit for each of the 15 element types *)
Record mask := mkMask { m_pos : N; m_neg : N }.
Definition m_zero : mask := mkMask 0 0.
Definition m_empty (m : mask) : bool := m_pos m =? 0.
Definition m_reject (e : etype) (m : mask) : mask := mkMask (m_pos m) (N.lor (m_neg m) (2 ^ etype_idx e)).
Definition m_match (e : etype) (m : mask) : mask := mkMask (N.lor (m_pos m) (2 ^ etype_idx e)) (m_neg m).
Definition m_eqb (a b : mask) : bool := (m_pos a =? m_pos b) && (m_neg a =? m_neg b).
Definition m_join (a b : mask) : mask := mkMask (N.lor (m_pos a) (m_pos b)) (N.lor (m_neg a) (m_neg b)).
Definition m_matches (m : mask) (e : etype) : bool := negb (N.land (m_pos m) (2 ^ etype_idx e) =? 0).
Definition m_rejects (m : mask) (e : etype) : bool := negb (N.land (m_neg m) (2 ^ etype_idx e) =? 0).
(** seekop, lines 104-142 *)
Definition m_seekop (op : pop) (m : mask) : mask :=
  match op with
  | OpOpenTag => m_match EHeaderStart (m_match EOpenTag m)
  | OpCloseTag => m_match EHeaderEnd (m_match ECloseTagIm (m_match ECloseTag m))
  | OpAttribute => m_reject EContent (m_match EHeaderAttribName (m_match ETagAttribName m))
  | OpThisValue => m_reject EOpenTag (m_reject EContent (m_reject EHeaderAttribName (m_reject ETagAttribName
                     (m_match EHeaderAttribValue (m_match ETagAttribValue m)))))
  | OpValue => m_reject EContent (m_match EHeaderAttribValue (m_match ETagAttribValue m))
  | OpContent => m_match EContent m
  | OpContentStart => m_match EHeaderEnd m
  end.
Definition m_op (op : pop) : mask := m_seekop op m_zero.

(** struct Core, lines 201-214; cnt_end -1: no range *)
Record core := mkCore { c_mask : mask; c_follow : bool; c_type : Z; c_start : Z; c_end : Z }.
Definition core_new : core := mkCore m_zero false 0 0 (-1).

(** struct State, lines 218-344. [st_key]: key and keysize, [None] is the null pointer. The indices next and link are -1 ([None]) or an
    index of a state. srckey is only used for printing the automaton and is left out. *)
Record pstate := mkSt { st_core : core; st_key : option (list N); st_next : option nat; st_link : option nat }.
Definition st_new : pstate := mkSt core_new None None None.
(** isempty, line 248: next and link are compared with 0 *)
Definition is_zero (i : option nat) : bool := match i with Some O => true | _ => false end.
Definition st_isempty (s : pstate) : bool :=
  match st_key s with None => true | _ => false end && (c_type (st_core s) =? 0)%Z && is_zero (st_next s) && is_zero (st_link s) && m_empty (c_mask (st_core s)).
(** defineNext, lines 288-294, defineKey, lines 254-279 *)
Definition st_defineNext (op : pop) (key : option (list N)) (next : nat) (follow : bool) (s : pstate) : pstate :=
  let c := st_core s in
  mkSt (mkCore (m_seekop op (c_mask c)) follow (c_type c) (c_start c) (c_end c)) key (Some next) (st_link s).
(** defineOutput, lines 302-309 *)
Definition st_defineOutput (m : mask) (t : Z) (follow : bool) (b e : Z) (s : pstate) : pstate :=
  mkSt (mkCore m follow t b e) (st_key s) (st_next s) (st_link s).
(** defLink and the assignments of link in lines 467 and 514 *)
Definition st_setLink (i : nat) (s : pstate) : pstate := mkSt (st_core s) (st_key s) (st_next s) (Some i).

Definition atm := list pstate.
Definition atm_upd (i : nat) (f : pstate -> pstate) (a : atm) : atm :=
  match nth_error a i with Some s => upd i (f s) a | None => a end.

(** comparison of keys, lines 455-459: same size and same bytes *)
Fixpoint key_eqb (a b : list N) : bool :=
  match a, b with
  | [], [] => true
  | x :: a', y :: b' => (x =? y) && key_eqb a' b'
  | _, _ => false
  end.

(** the loop of lines 453-461: a state with the same key that is found in the list linked to the state [ee] *)
Fixpoint atm_find (fuel : nat) (op : pop) (key : option (list N)) (follow : bool) (ee : option nat) (a : atm) : out atm (option (option nat)) :=
  match fuel with
  | O => Fuel
  | S f =>
      match ee with
      | None => Ret a None
      | Some i =>
          match nth_error a i with
          | None => Undef
          | Some s =>
              if match st_key s, key with
                 | Some k, k' => Bool.eqb (c_follow (st_core s)) follow && m_eqb (m_op op) (c_mask (st_core s))
                                 && key_eqb k match k' with Some k' => k' | None => [] end
                 | None, _ => false
                 end
              then Ret a (Some (st_next s))
              else atm_find f op key follow (st_link s) a
          end
      end
  end.

(** lines 464-466 and 511-513: the last state of the list *)
Fixpoint atm_last (fuel : nat) (i : nat) (a : atm) : out atm nat :=
  match fuel with
  | O => Fuel
  | S f =>
      match nth_error a i with
      | None => Undef
      | Some s => match st_link s with Some j => atm_last f j a | None => Ret a i end
      end
  end.

(** lines 462-470 and 509-519: a new state is linked, if the state is not empty *)
Definition atm_alt (i : nat) (a : atm) : out atm nat :=
  match nth_error a i with
  | None => Undef
  | Some s =>
      if st_isempty s then Ret a i
      else let! (a1, j) := atm_last (S (length a)) i a in
           Ret (atm_upd j (st_setLink (length a1)) a1 ++ [st_new]) (length a1)
  end.

(** defineNext, lines 442-486. The null pointer passed as key has size 0, line 603, and is equal to the key of size 0 in the search (but not
    for the states without key). Exceptions for lack of memory are left out. *)
Definition atm_defineNext (i : nat) (op : pop) (key : option (list N)) (follow : bool) (a : atm) : out atm nat :=
  let (i, a) := match a with [] => (O, [st_new]) | _ => (i, a) end in
  let! (a, found) := atm_find (S (length a)) op key follow (Some i) a in
  match found with
  | Some (Some n) => Ret a n
  | Some None => Undef
  | None =>
      let! (a, i) := atm_last (S (length a)) i a in
      let! (a, j) := atm_alt i a in
      let a := a ++ [st_new] in
      let n := (length a - 1)%nat in
      Ret (atm_upd j (st_defineNext op key n follow) a) n
  end.

(** defineOutput, lines 497-531; [Throw]: IllegalParam, which is caught in line 527 and replaced by Unknown *)
Definition atm_defineOutput (i : nat) (m : mask) (t : Z) (follow : bool) (b e : Z) (a : atm) : out atm nat :=
  let (i, a) := match a with [] => (O, [st_new]) | _ => (i, a) end in
  if Nat.leb (length a) i then Throw a
  else let! (a, j) := atm_alt i a in
       Ret (atm_upd j (st_defineOutput m t follow b e) a) j.

(** ** PathElement, lines 537-750. The member xs is not null. pushOpMask is never used. *)
Record pelem := mkPe { pe_idx : nat; pe_start : Z; pe_end : Z; pe_follow : bool; pe_print : mask }.
(** operator*, lines 754-757, constructor, line 667 *)
Definition pe_root : pelem := mkPe 0 0 (-1) false m_zero.
(** defineOutput, lines 571-576 *)
Definition pe_output (op : pop) (p : pelem) : pelem := mkPe (pe_idx p) (pe_start p) (pe_end p) (pe_follow p) (m_op op).
(** the members stateidx and follow after doSelect, lines 599-606 *)
Definition pe_selected (i : nat) (p : pelem) : pelem := mkPe i (pe_start p) (pe_end p) false (pe_print p).

(** key of a name given as text: StaticXMLScanner::parseStaticToken on the text with a terminating null character into a buffer
    of 1024 bytes, lines 588-596. The result is always true, so that no exception is thrown. [Undef]: access behind the null character. *)
Definition static_key (cs : charset) (value : list N) : out unit (list N) :=
  match parseStaticToken (ts_ops cptr_ops cs) (2 * length value + 3) isTagChar cs [] (ts_make (mkCptr (value ++ [0]) 0)) with
  | Ret _ k => Ret tt (firstn 1024 k)
  | Jump _ => Jump tt
  | Throw _ => Throw tt
  | Undef => Undef
  | Fuel => Fuel
  end.
(** doSelect, lines 582-606 *)
Definition pe_doSelect (cs : charset) (op : pop) (value : option (list N)) (p : pelem) (a : atm) : out atm pelem :=
  let! (a, key) := match value with
                   | None => Ret a None
                   | Some v => match static_key cs v with Ret _ k => Ret a (Some k) | Throw _ => Throw a | Jump _ => Jump a | Undef => Undef | Fuel => Fuel end
                   end in
  let! (a, i) := atm_defineNext (pe_idx p) op key (pe_follow p) a in
  Ret a (pe_selected i p).
(** doFollow, lines 610-614 *)
Definition pe_doFollow (p : pelem) : pelem := mkPe (pe_idx p) (pe_start p) (pe_end p) true (pe_print p).
(** doRange, lines 620-635 *)
Definition pe_doRange (b e : Z) (p : pelem) : pelem :=
  let set b e := mkPe (pe_idx p) b e (pe_follow p) (pe_print p) in
  if (pe_end p =? -1)%Z then set b e
  else if (e <? pe_end p)%Z then set (pe_start p) e
  else if (pe_start p <? b)%Z then set b (pe_end p)
  else p.
(** doCount, lines 640-643; doStart, lines 648-651 *)
Definition int_max : Z := 2147483647.
Definition pe_doCount (n : Z) (p : pelem) : pelem := pe_doRange 0 n p.
Definition pe_doStart (b : Z) (p : pelem) : pelem := pe_doRange b int_max p.
(** TO, FROM, RANGE, INDEX, lines 718-731; idx+1 is undefined for the largest int *)
Definition pe_TO (i : Z) (p : pelem) : option pelem :=
  if (0 <=? i)%Z then (if (i =? int_max)%Z then None else Some (pe_doCount (i + 1) p)) else Some (pe_doCount (-1) p).
Definition pe_FROM (i : Z) (p : pelem) : option pelem := Some (pe_doStart i p).
Definition pe_RANGE (i j : Z) (p : pelem) : option pelem :=
  if (0 <=? j)%Z then (if (j =? int_max)%Z then None else Some (pe_doRange i (j + 1) p)) else Some (pe_doRange i (-1) p).
Definition pe_INDEX (i : Z) (p : pelem) : option pelem := if (i =? int_max)%Z then None else Some (pe_doRange i (i + 1) p).
(** selectTag, selectCloseTag, selectAttribute, ifAttribute, selectContent, lines 683-713 and 746-749 *)
Definition pe_selectTag (cs : charset) (name : option (list N)) := pe_doSelect cs OpOpenTag name.
Definition pe_selectCloseTag (cs : charset) := pe_doSelect cs OpCloseTag None.
Definition pe_selectAttribute (cs : charset) (name : option (list N)) (p : pelem) (a : atm) : out atm pelem :=
  let! (a, p1) := pe_doSelect cs OpAttribute name p a in Ret a (pe_output OpThisValue p1).
Definition pe_ifAttribute (cs : charset) (name value : option (list N)) (p : pelem) (a : atm) : out atm pelem :=
  let! (a, p1) := pe_doSelect cs OpAttribute name p a in pe_doSelect cs OpThisValue value p1 a.
Definition pe_selectContent (p : pelem) : pelem := pe_output OpContent p.
(** push, lines 656-660; assignType, line 741 *)
Definition pe_assignType (t : Z) (p : pelem) (a : atm) : out atm pelem :=
  let! (a, i) := atm_defineOutput (pe_idx p) (pe_print p) t (pe_follow p) (pe_start p) (pe_end p) a in
  Ret a (mkPe i (pe_start p) (pe_end p) (pe_follow p) (pe_print p)).
