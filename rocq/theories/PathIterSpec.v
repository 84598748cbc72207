(** What iterators of a path selection are expected to deliver (specification for C94). *)
From Verif Require Import Base XmlScanner PathSpec PathAtm PathSelect PathIter.

Definition closes (e : etype) : bool := match e with ECloseTag | ECloseTagIm => true | _ => false end.
(** the elements pushed *)
Definition pushed (l : list vop) : list (etype * list N) := flat_map (fun o => match o with VPush e k => [(e, k)] | _ => [] end) l.
(** The results of an element are a list that all its iterators read from together. An iterator keeps the result it got with its last increment, 0 behind the last one. *)
Record reading := mkRd { r_its : iters; r_elem : option etype; r_left : list Z; r_ended : bool; r_closed : bool; r_todo : list (list Z) }.
Definition r_set (g : iters) (r : reading) : reading := mkRd g (r_elem r) (r_left r) (r_ended r) (r_closed r) (r_todo r).
Definition tag_closed (r : reading) : bool := match r_elem r with Some e => closes e | None => false end.
(** the next result. After the destruction of the iterator of a close tag there is none *)
Definition r_next (r : reading) : option (reading * Z) :=
  if tag_closed r && r_closed r then None
  else if r_ended r then Some (r, 0%Z)
  else match r_left r with
       | [] => Some (mkRd (r_its r) (r_elem r) [] true (r_closed r) (r_todo r), 0%Z)
       | t :: l => Some (mkRd (r_its r) (r_elem r) l false (r_closed r) (r_todo r), t)
       end.
(** An iterator is destroyed. For a close tag this is only allowed once, when all results have been read. *)
Definition r_destroy (x : piter) (r : reading) : option reading :=
  if v_on x && tag_closed r
  then if r_ended r && negb (r_closed r) then Some (mkRd (r_its r) (r_elem r) (r_left r) (r_ended r) true (r_todo r)) else None
  else Some r.
Definition r_skip (x : piter) (r : reading) : option (reading * piter) :=
  if v_on x then match r_next r with Some (r, t) => Some (r, mkIt t true) | None => None end else Some (r, mkIt 0 false).
(** The next element is given only if all results of the one before have been read and an iterator of it has been destroyed, if it was a close tag *)
Definition r_ready (r : reading) : bool := match r_elem r with Some e => r_ended r && (negb (closes e) || r_closed r) | None => true end.
(** [None]: a call not allowed *)
Definition r_op (o : vop) (r : reading) : option (reading * list Z) :=
  let g := r_its r in
  let at1 (i : nat) (k : piter -> option (reading * list Z)) := match v_at i g with Some x => k x | None => None end in
  match o with
  | VEnd => Some (r_set (g ++ [Some (mkIt 0 false)]) r, [])
  | VPush e key =>
      if r_ready r
      then match r_todo r with
           | [] => None
           | l :: todo => match r_next (mkRd g (Some e) l false false todo) with Some (r, t) => Some (r_set (g ++ [Some (mkIt t true)]) r, []) | None => None end
           end
      else None
  | VCopy i => at1 i (fun x => Some (r_set (g ++ [Some x]) r, []))
  | VAssign i j => at1 i (fun _ => at1 j (fun y => Some (r_set (v_set i (Some y) g) r, [])))
  | VNext i => at1 i (fun x => match r_skip x r with Some (r, y) => Some (r_set (v_set i (Some y) g) r, []) | None => None end)
  | VPost i => at1 i (fun x => match r_skip x r with
                               | Some (r, y) => match r_destroy x r with Some r => Some (r_set (v_set i (Some y) g) r, [v_el x]) | None => None end
                               | None => None
                               end)
  | VDestroy i => at1 i (fun x => match r_destroy x r with Some r => Some (r_set (v_set i None g) r, []) | None => None end)
  | VGet i => at1 i (fun x => Some (r, [v_el x]))
  | VEqual i j => at1 i (fun x => at1 j (fun y => Some (r, [if (v_el x =? v_el y)%Z then 1%Z else 0%Z])))
  end.
Fixpoint r_run (l : list vop) (r : reading) : option (reading * list Z) :=
  match l with
  | [] => Some (r, [])
  | o :: l => match r_op o r with
              | Some (r, xs) => match r_run l r with Some (r, ys) => Some (r, xs ++ ys) | None => None end
              | None => None
              end
  end.
(** the reading of the results [rs] of some elements, without iterators at first *)
Definition reading_of (rs : list (list Z)) : reading := mkRd [] None [] true true rs.

(** Only iterators that exist are used. The flags tell which of the iterators constructed so far are not destroyed. *)
Definition there (i : nat) (b : list bool) : bool := nth i b false.
Definition lives (o : vop) (b : list bool) : option (list bool) :=
  match o with
  | VEnd | VPush _ _ => Some (b ++ [true])
  | VCopy i => if there i b then Some (b ++ [true]) else None
  | VDestroy i => if there i b then Some (upd i false b) else None
  | VAssign i j | VEqual i j => if there i b then if there j b then Some b else None else None
  | VNext i | VPost i | VGet i => if there i b then Some b else None
  end.
Fixpoint all_live (l : list vop) (b : list bool) : option (list bool) := match l with [] => Some b | o :: l => match lives o b with Some b => all_live l b | None => None end end.
