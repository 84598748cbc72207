(** Iterators of clients (specification). *)
From Verif Require Import Base Iter.

(** [R i l]: the iterator in the state [i] stands before the bytes [l]. Element access delivers the next byte, and the null character behind the last one,
    any number of times; the increment goes to the next one. This is what is asked from InputIterator in textscanner.hpp:65 and xmlscanner.hpp:420-421. *)
Definition reads_null {I} (o : iterops I) (R : I -> list N -> Prop) : Prop :=
  forall i l, R i l ->
    (exists i1, deref o i = Ret i1 (hd 0 l) /\ R i1 l) /\
    (exists i2, incr o i = Ret i2 tt /\ R i2 (tl l)).
