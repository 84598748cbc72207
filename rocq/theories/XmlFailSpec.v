(** What exceptions of the output buffer change in the texts delivered (specification). *)
From Verif Require Import Base Charset XmlScanner ScanSpec.

(** [changed P Q a b]: [b] is [a] where texts of [P] are inserted and texts of [Q] are left out *)
Inductive changed (P Q : list N -> Prop) : list N -> list N -> Prop :=
| ch_same a : changed P Q a a
| ch_insert a x p y : changed P Q a (x ++ y) -> P p -> changed P Q a (x ++ p ++ y)
| ch_leave a x q y : changed P Q a (x ++ q ++ y) -> Q q -> changed P Q a (x ++ y).
(** the bytes printed for a sequence of characters *)
Definition printed (outcs : charset) (l : list N) : list N := concat (map (cs_print outcs) l).
(** What an exception leaves in the buffer, to be printed again: a beginning of a character printed, of a character copied from the text (as if the text was followed by null
    characters), or of an ampersand with up to 17 characters behind it that are not a reference; one more semicolon behind a number with more than 32 bits. *)
Inductive piece (outcs : charset) (text : list N) : list N -> Prop :=
| pc_char c p r : p <> [] -> r <> [] -> cs_print outcs c = p ++ r -> piece outcs text p
| pc_copied x p y : p <> [] -> (length p < 8)%nat -> text ++ repeat 0 8 = x ++ p ++ y -> piece outcs text p
| pc_ampersand l p r : (length l <= 17)%nat -> p <> [] -> r <> [] -> printed outcs (38 :: l) = p ++ r -> piece outcs text p
| pc_semicolon : piece outcs text (cs_print outcs 59).
(** what is missing in the text of the start of a header: an end of ?xml *)
Definition missing (outcs : charset) (q : list N) : Prop := exists p, q <> [] /\ printed outcs (str "?xml") = p ++ q.
(** the same element, of which the text only is changed *)
Definition same_but (W : list N -> list N -> Prop) (e e' : event) : Prop :=
  ev_type e' = ev_type e /\ W (ev_item e) (ev_item e') /\ ev_err e' = ev_err e /\ ev_tokpos e' = ev_tokpos e /\ ev_pos e' = ev_pos e.
(** the same without the positions *)
Definition same_text (W : list N -> list N -> Prop) (e e' : event) : Prop :=
  ev_type e' = ev_type e /\ W (ev_item e) (ev_item e') /\ ev_err e' = ev_err e.
