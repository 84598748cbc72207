(** The automaton printed for debugging: xmlpathautomaton.hpp:318-361 (model). *)
From Verif Require Import Base XmlScanner PathAtm AtmMemory AtmValue Names Examples.

(** State::tostring, lines 318-345. In line 338 the stream is written to itself: in C++98 it is converted to void* and the address is printed ([adr]), in later
    standards the line is not compiled. *)
Definition st_print (adr : list N) (v : vstate) : list N :=
  let s := fst v in
  let c := st_core s in
  match st_next s with Some n => str " ->" ++ show_int (Z.of_nat n) | None => [] end
  ++ match st_link s with Some n => str " ~" ++ show_int (Z.of_nat n) | None => [] end
  ++ str " " ++ (if c_follow c then str "/" else []) ++ str "/" ++ seekopName (c_mask c)
  ++ match snd v with Some n => str " '" ++ n ++ str "'" | None => str " (null)" end
  ++ (if (0 <? c_end c)%Z then str "[" ++ show_int (c_start c) ++ str "," ++ adr ++ show_int (c_end c) ++ str "]" else [])
  ++ (if (c_type c =? 0)%Z then [] else str " =>" ++ show_int (c_type c)).
(** tostring, lines 350-361; the streams of the states may be at different addresses *)
Fixpoint atm_print_from (i : nat) (adr : nat -> list N) (a : vatm) : list N :=
  match a with
  | [] => []
  | s :: a => show_int (Z.of_nat i) ++ str ": " ++ st_print (adr i) s ++ endl ++ atm_print_from (S i) adr a
  end.
Definition atm_print (adr : nat -> list N) (a : vatm) : list N := atm_print_from 0 adr a.
