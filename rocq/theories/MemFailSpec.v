(** What calls do when allocations fail (specification). *)
From Verif Require Import Base Iter Memory MemSpec.

Definition creates (c : mcall) : bool := match c with MNewBuf _ | MNewStack | MNewIter _ _ | MCopy _ => true | _ => false end.
(** bytes of memory for a stack *)
Definition space (st : list (list N)) : N := fold_right N.add 0 (map (fun s => 8 * ((N.of_nat (length s) + 7) / 8) + 8) st).
(** [step V B g c V' B' a n]: the call [c] changes the values [V] of the objects to [V'], answers [a] and loses [n] blocks. [g] tells if the memory it asks for is there. [B] are the stacks a
    push has failed on; nothing must be pushed on them. A push that does not find its memory may have had no need for it; a stack has memory for 256 bytes. *)
Inductive step (V : list (option val)) (B : list nat) : bool -> mcall -> list (option val) -> list nat -> answer -> nat -> Prop :=
| st_call g c V' a n : call_spec c V = Some (V', a, n) -> g = true \/ creates c = false -> (forall k s, c = MStack k (KPush s) -> ~ In k B) -> step V B g c V' B a n
| st_create c V' a n : call_spec c V = Some (V', a, n) -> creates c = true -> step V B false c (V ++ [None]) B AThrown 0
| st_push k s st V' a n : call_spec (MStack k (KPush s)) V = Some (V', a, n) -> value V k = Some (VStack st) -> 256 < space (s :: st) -> ~ In k B -> step V B false (MStack k (KPush s)) V (k :: B) AThrown 0.
Inductive steps (V : list (option val)) (B : list nat) : list (bool * mcall) -> list (option val) -> list nat -> list answer -> nat -> Prop :=
| ss_nil : steps V B [] V B [] 0
| ss_cons g c l V1 B1 a n V2 B2 r m : step V B g c V1 B1 a n -> steps V1 B1 l V2 B2 r m -> steps V B ((g, c) :: l) V2 B2 (a :: r) (n + m).
(** whatever the calls before did, the next one can be made *)
Inductive allowed (V : list (option val)) (B : list nat) : list (bool * mcall) -> Prop :=
| al_nil : allowed V B []
| al_cons g c l : (exists V' B' a n, step V B g c V' B' a n) -> (forall V' B' a n, step V B g c V' B' a n -> allowed V' B' l) -> allowed V B ((g, c) :: l).
