(** Streams with reads that fail for a time (specification). *)
From Verif Require Import Base Iter Charset.

(** a read either delivers something or fails without delivering anything *)
Definition flaky (bufsize : N) (r : rdres) : Prop := (rd_err r = true /\ rd_data r = []) \/ (rd_err r = false /\ rd_data r <> [] /\ N.of_nat (length (rd_data r)) <= bufsize).
Definition failures (reads : list rdres) : nat := length (filter rd_err reads).
(** a read that delivers nothing is not taken as the end of the stream but as a null character *)
Definition given (r : rdres) : list N := match rd_data r with [] => [0] | d => d end.
Definition fits (bufsize : N) (r : rdres) : Prop := N.of_nat (length (rd_data r)) <= bufsize.
(** The text a text scanner reads: the last byte before reads that fail is lost, the first one of what they deliver, or a null character, stands in its place.
    [last] are the bytes of the last read. *)
Fixpoint holes (last : list N) (reads : list rdres) : list N :=
  match reads with
  | [] => last
  | r :: reads => (if rd_err r then removelast last else last) ++ holes (given r) reads
  end.
(** character sets with characters that are read as a whole when they are looked at; of UTF-8 the characters of one byte *)
Definition at_once (cs : charset) (text : list N) : Prop := match cs with UTF8 => Forall (fun b => b < 128) text | _ => True end.
