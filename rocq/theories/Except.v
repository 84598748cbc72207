(** exception: exception.hpp (model). *)
From Verif Require Import Base.

(** enum throws_exception::Cause, exception.hpp:24-43 *)
Inductive cause :=
| Unknown | DimOutOfRange | StateNumbersNotAscending | InvalidParamState | InvalidParamChar | DuplicateStateTransition
| InvalidState | IllegalParam | IllegalAttributeName | OutOfMem | ArrayBoundsReadWrite | NotAllowedOperation | FileReadError
| IllegalXmlHeader | InvalidTagOffset | CorruptTagStack | CodePageIndexNotSupported.
Definition cause_idx (c : cause) : nat :=
  match c with
  | Unknown => 0 | DimOutOfRange => 1 | StateNumbersNotAscending => 2 | InvalidParamState => 3 | InvalidParamChar => 4
  | DuplicateStateTransition => 5 | InvalidState => 6 | IllegalParam => 7 | IllegalAttributeName => 8 | OutOfMem => 9
  | ArrayBoundsReadWrite => 10 | NotAllowedOperation => 11 | FileReadError => 12 | IllegalXmlHeader => 13 | InvalidTagOffset => 14
  | CorruptTagStack => 15 | CodePageIndexNotSupported => 16
  end.

(** The table nameCause, lines 74-80. There is no comma after "NotAllowedOperation", so it is one string literal with the next one. *)
Definition nameCause_init : list (list N) :=
  [str "Unknown"; str "DimOutOfRange"; str "StateNumbersNotAscending"; str "InvalidParamState";
   str "InvalidParamChar"; str "DuplicateStateTransition"; str "InvalidState"; str "IllegalParam";
   str "IllegalAttributeName"; str "OutOfMem"; str "ArrayBoundsReadWrite"; str "NotAllowedOperation" ++
   str "FileReadError"; str "IllegalXmlHeader"; str "InvalidTagOffset"; str "CorruptTagStack";
   str "CodePageIndexNotSupported"].
(** static const char* nameCause[17]: the elements without initialiser are null pointers *)
Definition nameCause : list (option (list N)) :=
  map Some nameCause_init ++ repeat None (17 - length nameCause_init).
(** what, lines 71-82; the outer [None]: access outside of the table *)
Definition what (c : cause) : option (option (list N)) := nth_error nameCause (cause_idx c).
