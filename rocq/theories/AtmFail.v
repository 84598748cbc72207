(** Building the path automaton when memory cannot be allocated (xmlpathautomaton.hpp:218-309 and 442-606). *)
From Verif Require Import Base Charset XmlScanner PathAtm PathSelect PathSpec PathProg.

(** Where defineNext or defineOutput gets no memory: at the push_back into the automaton without states (lines 450 and 505), at the push_back of the state
    that has been linked (lines 472 and 517), at the push_back of the state that follows (line 474), or in defineKey at the new for the key (line 269)
    or for the text of the key in the source (line 275). A push_back allocates the array and, for copying the states, their keys; as State has no
    constructor for moving, the vector is left as it was whichever of these allocations fails, so that one place stands for all of them. *)
Inductive place := PlFirst | PlLink | PlNext | PlKey | PlName.
Definition fails (x : place) (m : option place) : bool :=
  match m, x with
  | Some PlFirst, PlFirst | Some PlLink, PlLink | Some PlNext, PlNext | Some PlKey, PlKey | Some PlName, PlName => true
  | _, _ => false
  end.
(** [Throw] carries the automaton as the exception OutOfMem (or Unknown) leaves it *)
Definition f_push (f : bool) (a : atm) : out atm unit := if f then Throw a else Ret (a ++ [st_new]) tt.
Definition f_first (m : option place) (i : option nat) (a : atm) : out atm (option nat) :=
  match a with [] => let! (a, _) := f_push (fails PlFirst m) a in Ret a (Some O) | _ => Ret a i end.
(** lines 464-473 and 509-519: the link is set before the state is there *)
Definition f_alt (m : option place) (i : nat) (a : atm) : out atm nat :=
  match nth_error a i with
  | None => Undef
  | Some s =>
      if st_isempty s then Ret a i
      else let! (a, j) := atm_last (S (length a)) i a in
           let n := length a in
           let! (a, _) := f_push (fails PlLink m) (atm_upd j (st_setLink n) a) in
           Ret a n
  end.
(** State::defineNext, lines 288-294, with defineKey, lines 254-279: the mask is set first, then the key (the old one has been deleted), then the rest.
    For the null pointer as key there is no allocation. *)
Definition f_define (m : option place) (j : nat) (op : pop) (key : option (list N)) (n : nat) (follow : bool) (a : atm) : out atm unit :=
  let left (key : option (list N)) (s : pstate) :=
    let c := st_core s in mkSt (mkCore (m_seekop op (c_mask c)) (c_follow c) (c_type c) (c_start c) (c_end c)) key (st_next s) (st_link s) in
  match key with
  | None => Ret (atm_upd j (st_defineNext op None n follow) a) tt
  | Some k =>
      if fails PlKey m then Throw (atm_upd j (left None) a)
      else if fails PlName m then Throw (atm_upd j (left (Some k)) a)
      else Ret (atm_upd j (st_defineNext op (Some k) n follow) a) tt
  end.
(** defineNext, lines 442-486; the index of a state is [None] for -1, which is what the search returns for a state that got its key but not what follows *)
Definition f_defineNext (m : option place) (i : option nat) (op : pop) (key : option (list N)) (follow : bool) (a : atm) : out atm (option nat) :=
  let! (a, i) := f_first m i a in
  match i with
  | None => Undef
  | Some i =>
      let! (a, found) := atm_find (S (length a)) op key follow (Some i) a in
      match found with
      | Some n => Ret a n
      | None =>
          let! (a, i) := atm_last (S (length a)) i a in
          let! (a, j) := f_alt m i a in
          let! (a, _) := f_push (fails PlNext m) a in
          let n := (length a - 1)%nat in
          let! (a, _) := f_define m j op key n follow a in
          Ret a (Some n)
      end
  end.
(** defineOutput, lines 497-531; -1 as unsigned int is not below the number of states *)
Definition f_defineOutput (m : option place) (i : option nat) (k : mask) (t : Z) (follow : bool) (b e : Z) (a : atm) : out atm (option nat) :=
  let! (a, i) := f_first m i a in
  match i with
  | None => Throw a
  | Some i =>
      if Nat.leb (length a) i then Throw a
      else let! (a, j) := f_alt m i a in Ret (atm_upd j (st_defineOutput k t follow b e) a) (Some j)
  end.

(** ** The automaton and for each call to come of defineNext or defineOutput the place where it gets no memory ([None]: there is enough; a place that is
    not reached has no effect) *)
Record fw := mkFw { fw_atm : atm; fw_ans : list (option place) }.
Definition f_call {A} (f : option place -> atm -> out atm A) (s : fw) : out fw A :=
  let (m, r) := match fw_ans s with [] => (None, []) | m :: r => (m, r) end in
  match f m (fw_atm s) with Ret a x => Ret (mkFw a r) x | Throw a => Throw (mkFw a r) | Jump a => Jump (mkFw a r) | Undef => Undef | Fuel => Fuel end.

(** PathElement, lines 537-750: [fe_idx] is the member stateidx, the other members are those of [fe_rest], the index of which is not used *)
Record felem := mkFe { fe_idx : option nat; fe_rest : pelem }.
Definition fe_root : felem := mkFe (Some O) pe_root.
(** doSelect, lines 582-606 *)
Definition fe_doSelect (cs : charset) (op : pop) (value : option (list N)) (p : felem) (s : fw) : out fw felem :=
  let! (s, key) := match value with
                   | None => Ret s None
                   | Some v => match static_key cs v with Ret _ k => Ret s (Some k) | Throw _ => Throw s | Jump _ => Jump s | Undef => Undef | Fuel => Fuel end
                   end in
  let! (s, i) := f_call (fun m => f_defineNext m (fe_idx p) op key (pe_follow (fe_rest p))) s in
  Ret s (mkFe i (pe_selected 0 (fe_rest p))).
Definition fe_with (o : option pelem) (p : felem) (s : fw) : out fw felem := match o with Some q => Ret s (mkFe (fe_idx p) q) | None => Undef end.
(** the methods, lines 672-749 (see [pe_op]) *)
Definition fe_op (cs : charset) (o : pathop) (p : felem) (s : fw) : out fw felem :=
  let q := fe_rest p in
  match o with
  | BTag n => fe_doSelect cs OpOpenTag n p s
  | BClose => fe_doSelect cs OpCloseTag None p s
  | BAttr n => let! (s, p) := fe_doSelect cs OpAttribute n p s in Ret s (mkFe (fe_idx p) (pe_output OpThisValue (fe_rest p)))
  | BCond n v => let! (s, p) := fe_doSelect cs OpAttribute n p s in fe_doSelect cs OpThisValue v p s
  | BContent => fe_with (Some (pe_selectContent q)) p s
  | BFollow => fe_with (Some (pe_doFollow q)) p s
  | BTo i => fe_with (pe_TO i q) p s
  | BFrom i => fe_with (pe_FROM i q) p s
  | BRange i j => fe_with (pe_RANGE i j q) p s
  | BIndex i => fe_with (pe_INDEX i q) p s
  | BOut t => let! (s, i) := f_call (fun m => f_defineOutput m (fe_idx p) (pe_print q) t (pe_follow q) (pe_start q) (pe_end q)) s in Ret s (mkFe i q)
  end.

(** A client that defines paths one after the other and catches the exception of a path: the number of the calls of each path that returned *)
Fixpoint f_path (cs : charset) (os : list pathop) (p : felem) (s : fw) : out fw nat :=
  match os with
  | [] => Ret s O
  | o :: os =>
      match fe_op cs o p s with
      | Ret s p => let! (s, n) := f_path cs os p s in Ret s (S n)
      | Throw s => Ret s O
      | Jump s => Jump s
      | Undef => Undef
      | Fuel => Fuel
      end
  end.
Fixpoint f_paths (cs : charset) (ps : list (list pathop)) (s : fw) : out fw (list nat) :=
  match ps with
  | [] => Ret s []
  | os :: ps => let! (s, n) := f_path cs os fe_root s in let! (s, ns) := f_paths cs ps s in Ret s (n :: ns)
  end.
