(** What tests/test_XMLPathSelect.cpp prints (specification). *)
From Verif Require Import Base XmlScanner ExampleSpec TestSpec.

(** a number of type int *)
Inductive integer : list N -> Z -> Prop :=
| in_natural : forall ds n, decimal ds n -> integer ds (Z.of_N n)
| in_negative : forall ds n, decimal ds n -> n <> 0 -> integer (45 :: ds) (- Z.of_N n).
Definition number_says (z : Z) (ds : list N) : Prop := (- 2 ^ 31 <= z < 2 ^ 31)%Z -> integer ds z.
(** a line for each element, and one for each of the numbers it is selected with *)
Inductive tries : list (etype * list N) -> list (list Z) -> list N -> Prop :=
| try_none : tries [] [] []
| try_one : forall t v els r rs c lines out, up_to_null v c -> Forall2 (fun z line => exists ds, number_says z ds /\ line = str "Element " ++ ds ++ str ": " ++ c ++ [10]) r lines -> tries els rs out ->
    tries ((t, v) :: els) (r :: rs) (str "Try " ++ name_of t ++ str " '" ++ c ++ str "'" ++ [10] ++ concat lines ++ out).
