(** The memory of an automaton when allocations fail: xmlpathautomaton.hpp (model). As AtmMemory.v, with an answer for each allocation. *)
From Verif Require Import Base XmlScanner PathAtm AtmMemory.

(** The blocks, and for each allocation to come whether it succeeds; after the last answer all succeed *)
Record fm := mkFm { fm_blks : blocks; fm_ans : list bool }.
Definition fm_lift {A} (f : blocks -> out blocks A) (s : fm) : out fm A :=
  match f (fm_blks s) with Ret H x => Ret (mkFm H (fm_ans s)) x | Fuel => Fuel | _ => Undef end.
Definition fm_alloc (s : fm) : fm * bool := match fm_ans s with [] => (s, true) | b :: r => (mkFm (fm_blks s) r, b) end.
(** new of bytes; [None]: std::bad_alloc *)
Definition fm_new (l : list N) (s : fm) : out fm (option nat) :=
  let (s, b) := fm_alloc s in
  if b then let! (s, p) := fm_lift (new_block l) s in Ret s (Some p) else Ret s None.
Definition fm_opt (o : option (list N)) (s : fm) : out fm (option (option nat)) :=
  match o with None => Ret s (Some None) | Some l => let! (s, p) := fm_new l s in Ret s (option_map Some p) end.

(** defineKey, lines 254-279; the state as left, and false for std::bad_alloc *)
Definition fm_defineKey (key src : option (list N)) (x : astate) (s : fm) : out fm (astate * bool) :=
  let! (s, _) := fm_lift (delete_block (as_key x)) s in
  let! (s, _) := fm_lift (delete_block (as_src x)) s in
  let left k q := mkAs (as_core x) (match key with Some l => length l | None => as_keysize x end) k q (as_next x) (as_link x) in
  let! (s, k) := fm_opt key s in
  match k with
  | None => Ret s (left None None, false)
  | Some k =>
      let! (s, q) := fm_opt (option_map (fun l => l ++ [0]) src) s in
      match q with
      | None => Ret s (left k None, false)
      | Some q => Ret s (left k q, true)
      end
  end.
(** copy constructor, lines 234-238; [None]: std::bad_alloc. The destructor is not called for a state that could not be constructed. *)
Definition fm_copy (o : astate) (s : fm) : out fm (option astate) :=
  match match as_key o with None => Some None | Some p => option_map Some (read_bytes p (as_keysize o) (fm_blks s)) end,
        match as_src o with None => Some None | Some p => option_map Some (read_string p (fm_blks s)) end with
  | Some key, Some src =>
      let! (s, r) := fm_defineKey key src (mkAs (as_core o) (as_keysize o) None None (as_next o) (as_link o)) s in
      Ret s (if snd r then Some (fst r) else None)
  | _, _ => Undef
  end.
(** defineNext, lines 288-294 *)
Definition fm_define (op : pop) (key src : option (list N)) (next : nat) (follow : bool) (x : astate) (s : fm) : out fm (astate * bool) :=
  let c := as_core x in
  let! (s, r) := fm_defineKey key src (mkAs (mkCore (m_seekop op (c_mask c)) (c_follow c) (c_type c) (c_start c) (c_end c)) (as_keysize x) (as_key x) (as_src x) (as_next x) (as_link x)) s in
  let (x, ok) := r in
  let c := as_core x in
  Ret s (if ok then mkAs (mkCore (c_mask c) follow (c_type c) (c_start c) (c_end c)) (as_keysize x) (as_key x) (as_src x) (Some next) (as_link x) else x, ok).

(** The states copied to new memory; if a copy cannot be constructed, the copies before it are destroyed *)
Fixpoint fm_copy_all (l cs : list astate) (s : fm) : out fm (option (list astate)) :=
  match l with
  | [] => Ret s (Some cs)
  | x :: l =>
      let! (s, c) := fm_copy x s in
      match c with
      | None => let! (s, _) := fm_lift (destroy_all cs) s in Ret s None
      | Some c => fm_copy_all l (cs ++ [c]) s
      end
  end.
(** push_back of a state without key and name: without place the array is allocated, the states are copied, and the old ones destroyed. The vector is unchanged if any of it fails (false). *)
Definition fm_push (grow : nat -> nat) (v : avec) (s : fm) : out fm (avec * bool) :=
  let n := length (av_states v) in
  if Nat.ltb n (av_cap v) then Ret s (mkAv (av_states v ++ [as_new]) (av_cap v), true)
  else let (s, b) := fm_alloc s in
       if b then let! (s, l) := fm_copy_all (av_states v) [] s in
                 match l with
                 | None => Ret s (v, false)
                 | Some l => let! (s, _) := fm_lift (destroy_all (av_states v)) s in Ret s (mkAv (l ++ [as_new]) (Nat.max (S n) (grow n)), true)
                 end
       else Ret s (v, false).

(** lines 446-450 and 502-506; the vector, and [None] for the exception *)
Definition fm_first (grow : nat -> nat) (i : option nat) (v : avec) (s : fm) : out fm (avec * option (option nat)) :=
  match av_states v with
  | [] => let! (s, r) := fm_push grow v s in Ret s (fst r, if snd r then Some (Some O) else None)
  | _ => Ret s (v, Some i)
  end.
(** lines 464-473 and 509-519 *)
Definition fm_alt (grow : nat -> nat) (i : nat) (v : avec) (s : fm) : out fm (avec * option nat) :=
  match nth_error (av_states v) i with
  | None => Undef
  | Some x =>
      if as_isempty x then Ret s (v, Some i)
      else let! (s, j) := fm_lift (av_last (S (length (av_states v))) i v) s in
           let n := length (av_states v) in
           let! (s, r) := fm_push grow (av_upd j (as_setLink n) v) s in Ret s (fst r, if snd r then Some n else None)
  end.
(** defineNext, lines 442-486; the answer: [None] the exception OutOfMem, [Some None] the state -1 *)
Definition fm_defineNext (grow : nat -> nat) (i : option nat) (op : pop) (key src : option (list N)) (follow : bool) (v : avec) (s : fm) : out fm (avec * option (option nat)) :=
  let! (s, r) := fm_first grow i v s in
  let v := fst r in
  match snd r with
  | None => Ret s (v, None)
  | Some None => Undef
  | Some (Some i) =>
      let! (s, found) := fm_lift (av_find (S (length (av_states v))) op key follow (Some i) v) s in
      match found with
      | Some n => Ret s (v, Some n)
      | None =>
          let! (s, i) := fm_lift (av_last (S (length (av_states v))) i v) s in
          let! (s, r) := fm_alt grow i v s in
          let v := fst r in
          match snd r with
          | None => Ret s (v, None)
          | Some j =>
              let! (s, r) := fm_push grow v s in
              let v := fst r in
              if snd r
              then let n := (length (av_states v) - 1)%nat in
                   match nth_error (av_states v) j with
                   | None => Undef
                   | Some x => let! (s, r) := fm_define op key src n follow x s in
                               Ret s (mkAv (upd j (fst r) (av_states v)) (av_cap v), if snd r then Some (Some n) else None)
                   end
              else Ret s (v, None)
          end
      end
  end.
(** defineOutput, lines 497-531; the answer [None]: the exception OutOfMem or Unknown *)
Definition fm_defineOutput (grow : nat -> nat) (i : option nat) (m : mask) (t : Z) (follow : bool) (b e : Z) (v : avec) (s : fm) : out fm (avec * option (option nat)) :=
  let! (s, r) := fm_first grow i v s in
  let v := fst r in
  match snd r with
  | None | Some None => Ret s (v, None)
  | Some (Some i) =>
      if Nat.leb (length (av_states v)) i then Ret s (v, None)
      else let! (s, r) := fm_alt grow i v s in
           match snd r with
           | None => Ret s (fst r, None)
           | Some j => Ret s (av_upd j (as_defineOutput m t follow b e) (fst r), Some (Some j))
           end
  end.

(** ** Calls on an automaton; exceptions are caught after each call *)
Inductive mcall :=
| MNext (i : option nat) (op : pop) (name : option (list N * list N)) (follow : bool)     (* PathElement::doSelect, lines 582-606, from state i: the key of the name and the name *)
| MOutput (i : option nat) (m : mask) (t : Z) (follow : bool) (b e : Z).                   (* PathElement::push, lines 656-660, in state i *)
Definition m_call (grow : nat -> nat) (c : mcall) (v : avec) (s : fm) : out fm (avec * option (option nat)) :=
  match c with
  | MNext i op name follow => fm_defineNext grow i op (option_map fst name) (option_map snd name) follow v s
  | MOutput i m t follow b e => fm_defineOutput grow i m t follow b e v s
  end.
Fixpoint m_calls (grow : nat -> nat) (cs : list mcall) (v : avec) (s : fm) : out fm (avec * list (option (option nat))) :=
  match cs with
  | [] => Ret s (v, [])
  | c :: cs => let! (s, r) := m_call grow c v s in let! (s, r') := m_calls grow cs (fst r) s in Ret s (fst r', snd r :: snd r')
  end.
(** an automaton is constructed, the calls are done, and it is destroyed *)
Definition m_life (grow : nat -> nat) (cs : list mcall) (s : fm) : out fm (list (option (option nat))) :=
  let! (s, r) := m_calls grow cs av_new s in
  let! (s, _) := fm_lift (destroy_all (av_states (fst r))) s in
  Ret s (snd r).
