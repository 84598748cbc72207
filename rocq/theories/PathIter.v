(** XMLPathSelect::iterator as an object: xmlpathselect.hpp:339-474 (model). *)
From Verif Require Import Base XmlScanner PathAtm PathSelect.

(** The members element and input, lines 350-351; [v_on]: the pointer to the selector is not null. There is one selector. *)
Record piter := mkIt { v_el : Z; v_on : bool }.
(** The iterators in the order of their construction; [None] is an iterator destroyed. *)
Definition iters := list (option piter).
(** Calls of iterators: end(), lines 470-473, and the default constructor, lines 409-411; push, lines 457-466, with the copy elided; the copy constructor, lines 384-387;
    operator=, lines 416-420; the increments, lines 438 and 442; the destructor, lines 404-407; operator*, lines 424-427; operator==, line 446. *)
Inductive vop := VEnd | VPush (e : etype) (key : list N) | VCopy (i : nat) | VAssign (i j : nat) | VNext (i : nat) | VPost (i : nat) | VDestroy (i : nat) | VGet (i : nat) | VEqual (i j : nat).
Definition v_at (i : nat) (g : iters) : option piter := match nth_error g i with Some (Some x) => Some x | _ => None end.
Definition v_set (i : nat) (x : option piter) (g : iters) : iters := upd i x g.
Definition v_flag (b : bool) : Z := if b then 1 else 0.
(** skip, lines 355-367 *)
Definition v_skip (ff : nat) (a : atm) (x : piter) (s : sel) : out sel piter :=
  if v_on x then let! (s, t) := sel_fetch ff a s in Ret s (mkIt t true) else Ret s (mkIt 0 false).
(** the destructor, lines 404-407 *)
Definition v_close (x : piter) (s : sel) : out sel unit := if v_on x then sel_close s else Ret s tt.
(** The values delivered are those of operator* and operator==, and for the postfix increment the one of operator* of the iterator returned, which is then destroyed. [Undef]: use of an object that
    does not exist. *)
Definition v_op (ff : nat) (a : atm) (o : vop) (g : iters) (s : sel) : out (iters * sel) (list Z) :=
  let at1 (i : nat) (k : piter -> out (iters * sel) (list Z)) := match v_at i g with Some x => k x | None => Undef end in
  let lift {A} (m : out sel A) (k : sel -> A -> out (iters * sel) (list Z)) : out (iters * sel) (list Z) :=
    match m with Ret s x => k s x | Jump s => Jump (g, s) | Throw s => Throw (g, s) | Undef => Undef | Fuel => Fuel end in
  match o with
  | VEnd => Ret (g ++ [Some (mkIt 0 false)], s) []
  | VPush e key => lift (v_skip ff a (mkIt 0 true) (sel_init e (Some key) s)) (fun s x => Ret (g ++ [Some x], s) [])
  | VCopy i => at1 i (fun x => Ret (g ++ [Some x], s) [])
  | VAssign i j => at1 i (fun _ => at1 j (fun y => Ret (v_set i (Some y) g, s) []))
  | VNext i => at1 i (fun x => lift (v_skip ff a x s) (fun s x => Ret (v_set i (Some x) g, s) []))
  | VPost i => at1 i (fun x => lift (v_skip ff a x s) (fun s y => lift (v_close x s) (fun s _ => Ret (v_set i (Some y) g, s) [v_el x])))
  | VDestroy i => at1 i (fun x => lift (v_close x s) (fun s _ => Ret (v_set i None g, s) []))
  | VGet i => at1 i (fun x => Ret (g, s) [v_el x])
  | VEqual i j => at1 i (fun x => at1 j (fun y => Ret (g, s) [v_flag (v_el x =? v_el y)%Z]))
  end.
Fixpoint v_run (ff : nat) (a : atm) (l : list vop) (g : iters) (s : sel) : out (iters * sel) (list Z) :=
  match l with
  | [] => Ret (g, s) []
  | o :: l => match v_op ff a o g s with
              | Ret (g, s) r => let! (x, rs) := v_run ff a l g s in Ret x (r ++ rs)
              | Jump x => Jump x | Throw x => Throw x | Undef => Undef | Fuel => Fuel
              end
  end.
