(** The memory of automata: xmlpathautomaton.hpp (model). In PathAtm.v every state has a key of its own; here the states hold pointers to memory got with new. *)
From Verif Require Import Base XmlScanner PathAtm.

(** Blocks of bytes in the order of allocation, [None] is a block deleted. Allocation succeeds, and an address is never used again. *)
Definition blocks := list (option (list N)).
Definition read_block (p : nat) (H : blocks) : option (list N) := match nth_error H p with Some b => b | None => None end.
Definition new_block (l : list N) (H : blocks) : out blocks nat := Ret (H ++ [Some l]) (length H).
(** delete [] of a pointer that is not null; undefined for a block deleted already *)
Definition delete_block (p : option nat) (H : blocks) : out blocks unit :=
  match p with
  | None => Ret H tt
  | Some p => match read_block p H with Some _ => Ret (upd p None H) tt | None => Undef end
  end.
(** the first [n] bytes of a block; [None] is access behind it or to deleted memory. No byte: no access. *)
Definition read_bytes (p n : nat) (H : blocks) : option (list N) :=
  if Nat.eqb n 0 then Some []
  else match read_block p H with Some l => if Nat.leb n (length l) then Some (firstn n l) else None | None => None end.
(** a null terminated string *)
Fixpoint before_zero (l : list N) : option (list N) :=
  match l with
  | [] => None
  | c :: l => if c =? 0 then Some [] else option_map (cons c) (before_zero l)
  end.
Definition read_string (p : nat) (H : blocks) : option (list N) := match read_block p H with Some l => before_zero l | None => None end.

(** struct State, lines 219-226 *)
Record astate := mkAs { as_core : core; as_keysize : nat; as_key : option nat; as_src : option nat; as_next : option nat; as_link : option nat }.
(** lines 229-230 *)
Definition as_new : astate := mkAs core_new 0 None None None None.
(** defineKey, lines 254-279, with the bytes the pointers point to *)
Definition as_defineKey (key src : option (list N)) (s : astate) (H : blocks) : out blocks astate :=
  let! (H, _) := delete_block (as_key s) H in
  let! (H, _) := delete_block (as_src s) H in
  let! (H, k) := match key with None => Ret H None | Some l => let! (H, p) := new_block l H in Ret H (Some p) end in
  let! (H, q) := match src with None => Ret H None | Some l => let! (H, p) := new_block (l ++ [0]) H in Ret H (Some p) end in
  Ret H (mkAs (as_core s) (match key with Some l => length l | None => as_keysize s end) k q (as_next s) (as_link s)).
(** copy constructor, lines 234-238 *)
Definition as_copy (o : astate) (H : blocks) : out blocks astate :=
  match match as_key o with None => Some None | Some p => option_map Some (read_bytes p (as_keysize o) H) end,
        match as_src o with None => Some None | Some p => option_map Some (read_string p H) end with
  | Some key, Some src => as_defineKey key src (mkAs (as_core o) (as_keysize o) None None (as_next o) (as_link o)) H
  | _, _ => Undef
  end.
(** destructor, lines 241-245 *)
Definition as_destroy (s : astate) (H : blocks) : out blocks unit :=
  let! (H, _) := delete_block (as_key s) H in delete_block (as_src s) H.
(** defineNext, lines 288-294 *)
Definition as_defineNext (op : pop) (key src : option (list N)) (next : nat) (follow : bool) (s : astate) (H : blocks) : out blocks astate :=
  let c := as_core s in
  let! (H, s) := as_defineKey key src (mkAs (mkCore (m_seekop op (c_mask c)) (c_follow c) (c_type c) (c_start c) (c_end c)) (as_keysize s) (as_key s) (as_src s) (as_next s) (as_link s)) H in
  let c := as_core s in
  Ret H (mkAs (mkCore (c_mask c) follow (c_type c) (c_start c) (c_end c)) (as_keysize s) (as_key s) (as_src s) (Some next) (as_link s)).
(** defineOutput, lines 302-309; link in lines 467 and 514 *)
Definition as_defineOutput (m : mask) (t : Z) (follow : bool) (b e : Z) (s : astate) : astate :=
  mkAs (mkCore m follow t b e) (as_keysize s) (as_key s) (as_src s) (as_next s) (as_link s).
Definition as_setLink (i : nat) (s : astate) : astate := mkAs (as_core s) (as_keysize s) (as_key s) (as_src s) (as_next s) (Some i).
(** isempty, line 249 *)
Definition as_isempty (s : astate) : bool :=
  match as_key s with None => true | _ => false end && (c_type (as_core s) =? 0)%Z && is_zero (as_next s) && is_zero (as_link s) && m_empty (c_mask (as_core s)).

(** std::vector<State>: elements and capacity. [grow]: the capacity got when [n] elements have no place any more, if it is enough. *)
Record avec := mkAv { av_states : list astate; av_cap : nat }.
Definition av_new : avec := mkAv [] 0.
Fixpoint copy_all (l : list astate) (H : blocks) : out blocks (list astate) :=
  match l with [] => Ret H [] | s :: l => let! (H, c) := as_copy s H in let! (H, cs) := copy_all l H in Ret H (c :: cs) end.
Fixpoint destroy_all (l : list astate) (H : blocks) : out blocks unit :=
  match l with [] => Ret H tt | s :: l => let! (H, _) := as_destroy s H in destroy_all l H end.
(** push_back: without place all elements are copied to new memory and the old ones destroyed *)
Definition av_push (grow : nat -> nat) (s : astate) (v : avec) (H : blocks) : out blocks avec :=
  let n := length (av_states v) in
  let! (H, c) := as_copy s H in
  if Nat.ltb n (av_cap v) then Ret H (mkAv (av_states v ++ [c]) (av_cap v))
  else let! (H, l) := copy_all (av_states v) H in
       let! (H, _) := destroy_all (av_states v) H in
       Ret H (mkAv (l ++ [c]) (Nat.max (S n) (grow n))).
(** copy constructor *)
Definition av_copy (v : avec) (H : blocks) : out blocks avec := let! (H, l) := copy_all (av_states v) H in Ret H (mkAv l (length l)).
(** Assignment of another vector. Elements both have are assigned, with the assignment operator the compiler generates for State: it copies every member. The others
    are copied or destroyed. If there is no place, all elements are copied to new memory and the old ones destroyed. *)
Definition av_assign (v w : avec) (H : blocks) : out blocks avec :=
  let n := length (av_states v) in
  let m := length (av_states w) in
  if Nat.ltb (av_cap v) m
  then let! (H, l) := copy_all (av_states w) H in let! (H, _) := destroy_all (av_states v) H in Ret H (mkAv l m)
  else if Nat.leb m n
       then let! (H, _) := destroy_all (skipn m (av_states v)) H in Ret H (mkAv (av_states w) (av_cap v))
       else let! (H, l) := copy_all (skipn n (av_states w)) H in Ret H (mkAv (firstn n (av_states w) ++ l) (av_cap v)).
Definition av_upd (i : nat) (f : astate -> astate) (v : avec) : avec :=
  match nth_error (av_states v) i with Some s => mkAv (upd i (f s) (av_states v)) (av_cap v) | None => v end.

(** the loop of lines 453-461; the bytes of the keys are compared up to the first difference, all of them are in the same block *)
Fixpoint av_find (fuel : nat) (op : pop) (key : option (list N)) (follow : bool) (ee : option nat) (v : avec) (H : blocks) : out blocks (option (option nat)) :=
  let k' := match key with Some k' => k' | None => [] end in
  match fuel with
  | O => Fuel
  | S f =>
      match ee with
      | None => Ret H None
      | Some i =>
          match nth_error (av_states v) i with
          | None => Undef
          | Some s =>
              match as_key s with
              | Some p =>
                  if Nat.eqb (length k') (as_keysize s) && Bool.eqb (c_follow (as_core s)) follow && m_eqb (m_op op) (c_mask (as_core s))
                  then match read_bytes p (as_keysize s) H with
                       | None => Undef
                       | Some k => if key_eqb k k' then Ret H (Some (as_next s)) else av_find f op key follow (as_link s) v H
                       end
                  else av_find f op key follow (as_link s) v H
              | None => av_find f op key follow (as_link s) v H
              end
          end
      end
  end.
(** lines 464-466 and 511-513 *)
Fixpoint av_last (fuel : nat) (i : nat) (v : avec) (H : blocks) : out blocks nat :=
  match fuel with
  | O => Fuel
  | S f => match nth_error (av_states v) i with
           | None => Undef
           | Some s => match as_link s with Some j => av_last f j v H | None => Ret H i end
           end
  end.
(** lines 462-470 and 509-519 *)
Definition av_alt (grow : nat -> nat) (i : nat) (v : avec) (H : blocks) : out blocks (nat * avec) :=
  match nth_error (av_states v) i with
  | None => Undef
  | Some s =>
      if as_isempty s then Ret H (i, v)
      else let! (H, j) := av_last (S (length (av_states v))) i v H in
           let n := length (av_states v) in
           let! (H, v) := av_push grow as_new (av_upd j (as_setLink n) v) H in Ret H (n, v)
  end.
(** lines 446-450 and 502-506 *)
Definition av_first (grow : nat -> nat) (i : nat) (v : avec) (H : blocks) : out blocks (nat * avec) :=
  match av_states v with
  | [] => let! (H, v) := av_push grow as_new v H in Ret H (O, v)
  | _ => Ret H (i, v)
  end.
(** defineNext, lines 442-486; the state returned and the vector *)
Definition av_defineNext (grow : nat -> nat) (i : nat) (op : pop) (key src : option (list N)) (follow : bool) (v : avec) (H : blocks) : out blocks (nat * avec) :=
  let! (H, iv) := av_first grow i v H in
  let (i, v) := iv in
  let! (H, found) := av_find (S (length (av_states v))) op key follow (Some i) v H in
  match found with
  | Some (Some n) => Ret H (n, v)
  | Some None => Undef
  | None =>
      let! (H, i) := av_last (S (length (av_states v))) i v H in
      let! (H, jv) := av_alt grow i v H in
      let! (H, v) := av_push grow as_new (snd jv) H in
      let n := (length (av_states v) - 1)%nat in
      match nth_error (av_states v) (fst jv) with
      | None => Undef
      | Some s => let! (H, s) := as_defineNext op key src n follow s H in Ret H (n, mkAv (upd (fst jv) s (av_states v)) (av_cap v))
      end
  end.
(** defineOutput, lines 497-531; [None]: the exception *)
Definition av_defineOutput (grow : nat -> nat) (i : nat) (m : mask) (t : Z) (follow : bool) (b e : Z) (v : avec) (H : blocks) : out blocks (option nat * avec) :=
  let! (H, iv) := av_first grow i v H in
  let (i, v) := iv in
  if Nat.leb (length (av_states v)) i then Ret H (None, v)
  else let! (H, jv) := av_alt grow i v H in
       Ret H (Some (fst jv), av_upd (fst jv) (as_defineOutput m t follow b e) (snd jv)).

(** ** Calls on several automata. The constructor, the copy constructor, the assignment operator and the destructor of XMLPathSelectAutomaton are those the compiler generates. *)
Inductive acall :=
| ANew                                        (* XMLPathSelectAutomaton() *)
| ACopy (k : nat)                             (* copy constructor, on automaton k *)
| AAssign (k j : nat)                         (* automaton k = automaton j *)
| ADestroy (k : nat)
| ANext (k i : nat) (op : pop) (name : option (list N * list N)) (follow : bool)           (* PathElement::doSelect, lines 582-606, from state i: the key of the name and the name *)
| AOutput (k i : nat) (m : mask) (t : Z) (follow : bool) (b e : Z).                        (* PathElement::push, lines 656-660, in state i *)
Inductive aanswer := ANothing | AState (n : nat) | AException.
Record aheap := mkAh { ah_blks : blocks; ah_atms : list (option avec) }.
Definition ah_new : aheap := mkAh [] [].
Definition ah_get (h : aheap) (k : nat) : option avec := match nth_error (ah_atms h) k with Some o => o | None => None end.
Definition with_blocks {A} (x : out blocks A) (f : A -> list (option avec) * aanswer) : out aheap aanswer :=
  match x with
  | Ret H a => Ret (mkAh H (fst (f a))) (snd (f a))
  | Fuel => Fuel
  | _ => Undef
  end.
Definition a_call (grow : nat -> nat) (c : acall) (h : aheap) : out aheap aanswer :=
  let put k v := upd k v (ah_atms h) in
  match c with
  | ANew => Ret (mkAh (ah_blks h) (ah_atms h ++ [Some av_new])) ANothing
  | ACopy k => match ah_get h k with Some v => with_blocks (av_copy v (ah_blks h)) (fun w => (ah_atms h ++ [Some w], ANothing)) | None => Undef end
  | AAssign k j =>
      match ah_get h k, ah_get h j with
      | Some v, Some w => if Nat.eqb k j then Ret h ANothing else with_blocks (av_assign v w (ah_blks h)) (fun v => (put k (Some v), ANothing))
      | _, _ => Undef
      end
  | ADestroy k => match ah_get h k with Some v => with_blocks (destroy_all (av_states v) (ah_blks h)) (fun _ => (put k None, ANothing)) | None => Undef end
  | ANext k i op name follow =>
      match ah_get h k with
      | Some v => with_blocks (av_defineNext grow i op (option_map fst name) (option_map snd name) follow v (ah_blks h)) (fun r => (put k (Some (snd r)), AState (fst r)))
      | None => Undef
      end
  | AOutput k i m t follow b e =>
      match ah_get h k with
      | Some v => with_blocks (av_defineOutput grow i m t follow b e v (ah_blks h)) (fun r => (put k (Some (snd r)), match fst r with Some n => AState n | None => AException end))
      | None => Undef
      end
  end.
Fixpoint a_calls (grow : nat -> nat) (cs : list acall) (h : aheap) : out aheap (list aanswer) :=
  match cs with
  | [] => Ret h []
  | c :: cs => let! (h, a) := a_call grow c h in let! (h, l) := a_calls grow cs h in Ret h (a :: l)
  end.
