(** XMLScanner::iterator, xmlscanner.hpp:1200-1363 *)
From Verif Require Import Base Iter CharMap Charset TextScanner XmlScanner.

(** const char*: null, the literal of getItemPtr, or a pointer into the output buffer of the scanner
    (std::string). The pointer is invalidated by the next call of nextItem, that changes the buffer: it
    holds the number of the call it was got after. *)
Inductive cptr := PNull | PEmpty | PBuf (call : nat).

(** class iterator::Element, lines 1207-1240 *)
Record itelem := mkItel { ie_type : etype; ie_content : cptr; ie_size : nat }.
(** Element(), line 1232, and Element(const End&), line 1234 *)
Definition ie_none : itelem := mkItel ENone PNull 0.
Definition ie_end : itelem := mkItel EExit PNull 0.
(** valid, line 1217; error, line 1220 *)
Definition ie_valid (e : itelem) : bool := match ie_type e with EExit | EErrorOccurred => false | _ => true end.
Definition ie_error (e : itelem) : cptr := match ie_type e with EErrorOccurred => ie_content e | _ => PNull end.

(** class iterator, lines 1250-1251; [xi_input] is input != 0 *)
Record xiter := mkXi { xi_elem : itelem; xi_input : bool }.

Section XmlIter.
Context {R : Type} (rops : readerops R) (cfg : config).

(** the scanner the iterators point to and the number of calls of nextItem *)
Definition xsc : Type := (scanner R * nat)%type.

(** getItemPtr, getItemSize, lines 1050-1054 *)
Definition x_itemPtr (s : xsc) : cptr := match sc_obuf (fst s) with [] => PEmpty | _ => PBuf (snd s) end.
Definition x_itemSize (s : xsc) : nat := length (sc_obuf (fst s)).

(** lines 1260-1262 and 1301-1303 *)
Definition x_next (fuel : nat) (mask : N) (s : xsc) : out xsc itelem :=
  let! (s1, t) := omap (fun s' => (s', S (snd s))) (nextItem rops cfg fuel mask (fst s)) in
  Ret s1 (mkItel t (x_itemPtr s1) (x_itemSize s1)).

(** skip, lines 1256-1265 *)
Definition x_skip (fuel : nat) (mask : N) (it : xiter) (s : xsc) : out xsc xiter :=
  if xi_input it
  then let! (s1, e) := x_next fuel mask s in Ret s1 (mkXi e true)
  else Ret s it.

(** compare, lines 1270-1277 *)
Definition x_eq (a b : xiter) : bool :=
  match ie_type (xi_elem a), ie_type (xi_elem b) with
  | EExit, EExit | ENone, ENone => true
  | _, _ => false
  end.

(** constructors, lines 1296-1309; begin and end, lines 1345-1356 *)
Definition x_begin (fuel : nat) (doSkipToFirst : bool) (s : xsc) : out xsc xiter :=
  if doSkipToFirst
  then let! (s1, e) := x_next fuel 0xFFFF s in Ret s1 (mkXi e true)
  else Ret s (mkXi ie_none true).
Definition x_end : xiter := mkXi ie_end false.

(** operator++, line 1329, operator++(int), line 1332: the result and the iterator afterwards *)
Definition x_preinc (fuel : nat) (it : xiter) (s : xsc) : out xsc xiter := x_skip fuel 0xFFFF it s.
Definition x_postinc (fuel : nat) (it : xiter) (s : xsc) : out xsc (xiter * xiter) :=
  let! (s1, it') := x_skip fuel 0xFFFF it s in Ret s1 (it, it').

(** reading [n] bytes behind a pointer; [None] for access with a pointer that is null or not valid any more or
    behind the terminating null character *)
Definition x_read (s : xsc) (p : cptr) (n : nat) : option (list N) :=
  match p with
  | PNull => None
  | PEmpty => if Nat.leb n 4 then Some (repeat 0 n) else None
  | PBuf k => if Nat.eqb k (snd s) && Nat.leb n (length (sc_obuf (fst s)) + 1) then Some (firstn n (sc_obuf (fst s) ++ [0])) else None
  end.
End XmlIter.
