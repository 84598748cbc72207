(** What is left of a call of the printer when the buffer throws (specification for C97). *)
From Verif Require Import Base Iter Charset TagStack XmlPrinter PrintSpec PrintFail.

(** the first of [n] calls of push_back that throws *)
Fixpoint refused (n : nat) (answers : list bool) : option nat :=
  match n, answers with
  | S _, false :: _ => Some 0%nat
  | S n, true :: r => option_map S (refused n r)
  | _, _ => None
  end.
(** The printer left by a call that would print [b] and leave the printer [p'], if the byte [k] of it is refused: as before the call, but behind the end of a start tag when this was the first
    printed, and but for the new line printed behind the close tag of the root. *)
Definition left_by (ocs : charset) (c : pcall) (k : nat) (p p' : printer) (b : list N) : printer :=
  match c, p_state p with
  | POpen _, PTagElement | POpen _, PTagAttribute | PValue _, PTagElement => if Nat.ltb k (length (cs_print ocs 62)) then p else mkPrinter PContent (p_tags p) (p_error p)
  | PClose, _ => if tg_empty (p_tags p') && Nat.leb (length b) (k + length (cs_print ocs 10)) then p' else p
  | _, _ => p
  end.
(** [told h rs t h' rs']: the calls [h] answered [rs] (None: thrown) and printed [t]. The printer is left by the calls [h'] when nothing is refused, which answer and print [rs']: the calls that
    returned, with the same answer and text, and for those that threw nothing, or the end of the start tag, or the close tag. *)
Inductive told : list pcall -> list (option bool) -> list N -> list pcall -> list presult -> Prop :=
| td_nil : told [] [] [] [] []
| td_returned c r b h rs t h' rs' : told h rs t h' rs' -> told (c :: h) (Some r :: rs) (b ++ t) (c :: h') ((r, b) :: rs')
| td_undone c b h rs t h' rs' : told h rs t h' rs' -> told (c :: h) (None :: rs) (b ++ t) h' rs'
| td_exit c b b' h rs t h' rs' : match c with POpen _ | PValue _ => True | _ => False end -> told h rs t h' rs' -> told (c :: h) (None :: rs) ((b ++ b') ++ t) (PExit :: h') ((true, b) :: rs')
| td_close b b' h rs t h' rs' : b' <> [] -> told h rs t h' rs' -> told (PClose :: h) (None :: rs) (b ++ t) (PClose :: h') ((true, b ++ b') :: rs').
Definition throws (rs : list (option bool)) : nat := length (filter (fun r => match r with None => true | _ => false end) rs).
Definition refusals (l : list bool) : nat := length (filter negb l).
