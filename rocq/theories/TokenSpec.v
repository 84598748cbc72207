(** Tokens and their place in the source (specification). *)
From Verif Require Import Base Iter CharMap Charset TextScanner Ideal XmlScanner.

(** [k] bytes of the source, beginning at the position [p]; null characters behind its end *)
Definition source (text : list N) (p : N) (k : nat) : list N := pad k (skipn (N.to_nat p) text).

(** a character that is neither an ampersand nor part of the end of a line *)
Definition ordinary (u : uchr) : Prop := u_asc u <> 38 /\ u_asc u <> 13 /\ u_asc u <> 10.

(** The token consists of the bytes of the source at its position, if there is no reference and no end of line in them. *)
Definition token_at (cs : charset) (text : list N) (p : N) (item : list N) : Prop :=
  Forall ordinary (units cs (source text p (length item))) -> item = source text p (length item).

(** elements with a token as content *)
Definition is_token (t : etype) : Prop := t <> EHeaderStart /\ t <> EErrorOccurred.
