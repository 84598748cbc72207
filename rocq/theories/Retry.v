(** Calls repeated after FileReadError: IStreamIterator with an IStream whose read fails for a time (model). The exception of istreamiterator.hpp:162 leaves TextScanner and
    XMLScanner as they are; the caller catches it and makes the same call again. *)
From Verif Require Import Base Iter CharMap Charset TextScanner XmlScanner ReadSpec ScanSpec.

(** a call, made again up to [n] times as long as it throws *)
Fixpoint retry {S A : Type} (n : nat) (op : S -> out S A) (s : S) : out S A :=
  match op s with
  | Throw s1 => match n with O => Throw s1 | Datatypes.S n1 => retry n1 op s1 end
  | x => x
  end.
(** [k] increments (istreamiterator.hpp:133-144) *)
Fixpoint increments_retry (n k : nat) (i : istrm) : out istrm unit :=
  match k with
  | O => Ret i tt
  | S k1 => let! (i1, _) := retry n (incr istrm_ops) i in increments_retry n k1 i1
  end.
(** one call of nextItem (xmlscanner.hpp:1097-1194) for each of the masks *)
Fixpoint scan_retry (incs : charset) (cfg : config) (n fuel : nat) (masks : list N) (s : scanner (tscan istrm)) : out (scanner (tscan istrm)) (list event) :=
  match masks with
  | [] => Ret s []
  | m :: masks =>
      let! (s1, t) := retry n (nextItem (ts_ops istrm_ops incs) cfg fuel m) s in
      let! (s2, evs) := scan_retry incs cfg n fuel masks s1 in
      Ret s2 (observe (ts_ops istrm_ops incs) t s1 :: evs)
  end.
