(** Character maps and control characters: char.hpp (model). *)
From Verif Require Import Base.

(** enum ControlCharacter, char.hpp:78-98 *)
Inductive ctl :=
| CUndef | CEndOfText | CEndOfLine | CCntrl | CSpace | CAmp | CLt | CEqual | CGt
| CSlash | CDash | CExclam | CQuestm | CSq | CDq | COsb | CCsb | CAny.

(** numeric values of the enumeration, char.hpp:80-97 *)
Definition ctl_idx (c : ctl) : nat :=
  match c with
  | CUndef => 0 | CEndOfText => 1 | CEndOfLine => 2 | CCntrl => 3 | CSpace => 4 | CAmp => 5
  | CLt => 6 | CEqual => 7 | CGt => 8 | CSlash => 9 | CDash => 10 | CExclam => 11
  | CQuestm => 12 | CSq => 13 | CDq => 14 | COsb => 15 | CCsb => 16 | CAny => 17
  end.

(** enum {NofControlCharacter=18}, char.hpp:99 *)
Definition NofControlCharacter : nat := 18.

Definition ctl_eqb (a b : ctl) : bool := Nat.eqb (ctl_idx a) (ctl_idx b).

Definition all_ctl : list ctl :=
  [CUndef; CEndOfText; CEndOfLine; CCntrl; CSpace; CAmp; CLt; CEqual; CGt; CSlash; CDash;
   CExclam; CQuestm; CSq; CDq; COsb; CCsb; CAny].

(** class CharMap, char.hpp:49-74, as the list of its elements [ar] *)
(** constructor, line 60 *)
Definition cm_new {A} (null : A) (range : nat) : list A := repeat null range.
(** operator()(at,value), line 69 *)
Definition cm_at {A} (at_ : N) (v : A) (m : list A) : list A := upd (N.to_nat at_) v m.
(** operator()(from,to,value), line 65 *)
Fixpoint cm_range_n {A} (n : nat) (from : N) (v : A) (m : list A) : list A :=
  match n with
  | O => m
  | S n' => cm_range_n n' (from + 1) v (cm_at from v m)
  end.
Definition cm_range {A} (from to : N) (v : A) (m : list A) : list A :=
  cm_range_n (N.to_nat (to + 1 - from)) from v m.
(** operator[](unsigned char), line 73; [None] is an access outside of the array *)
Definition cm_get {A} (m : list A) (i : N) : option A := nth_error m (N.to_nat i).

(** struct TextScanner::ControlCharMap, textscanner.hpp:82-109 *)
Definition controlCharMap : list ctl :=
  Eval vm_compute in
  (cm_at 93 CCsb (cm_at 91 COsb (cm_at 34 CDq (cm_at 39 CSq (cm_at 63 CQuestm
  (cm_at 33 CExclam (cm_at 45 CDash (cm_at 47 CSlash (cm_at 62 CGt (cm_at 61 CEqual
  (cm_at 60 CLt (cm_at 38 CAmp (cm_at 32 CSpace (cm_at 10 CEndOfLine (cm_at 13 CSpace
  (cm_at 9 CSpace (cm_range 128 255 CUndef (cm_range 33 127 CAny (cm_at 5 CUndef
  (cm_range 1 31 CCntrl (cm_at 0 CEndOfText (cm_new CUndef 256)))))))))))))))))))))).

(** Sets of control characters: IsTokenCharMap = CharMap<bool,false,18>, xmlscanner.hpp:363 *)
Definition set_true (cs : list ctl) (m : list bool) : list bool :=
  fold_left (fun m c => cm_at (N.of_nat (ctl_idx c)) true m) cs m.
Definition set_false (cs : list ctl) (m : list bool) : list bool :=
  fold_left (fun m c => cm_at (N.of_nat (ctl_idx c)) false m) cs m.

(** xmlscanner.hpp:367-373 *)
Definition isTagChar : list bool :=
  Eval vm_compute in set_true [CUndef; CAny; CDash] (cm_new false NofControlCharacter).
(** xmlscanner.hpp:378-384 *)
Definition isWordChar : list bool :=
  Eval vm_compute in
  set_true [CUndef; CEqual; CGt; CSlash; CDash; CExclam; CQuestm; CSq; CDq; COsb; CCsb; CAny]
           (cm_new false NofControlCharacter).
(** xmlscanner.hpp:388-394 *)
Definition isContentChar : list bool :=
  Eval vm_compute in
  set_true [CCntrl; CSpace; CEndOfLine; CUndef; CEqual; CGt; CSlash; CDash; CExclam; CQuestm;
            CSq; CDq; COsb; CCsb; CAny]
           (cm_new false NofControlCharacter).
(** xmlscanner.hpp:398-404 *)
Definition isSQStringChar : list bool :=
  Eval vm_compute in set_true [CSpace] (set_false [CSq] isContentChar).
(** xmlscanner.hpp:408-414 *)
Definition isDQStringChar : list bool :=
  Eval vm_compute in set_true [CSpace] (set_false [CDq] isContentChar).

(** XMLScanner::HEX, xmlscanner.hpp:515-528 *)
Definition hexCharMap : list N :=
  Eval vm_compute in
  fold_left (fun m p => cm_at (fst p) (snd p) m)
    [(48,0);(49,1);(50,2);(51,3);(52,4);(53,5);(54,6);(55,7);(56,8);(57,9);
     (65,10);(66,11);(67,12);(68,13);(69,14);(70,15);
     (97,10);(98,11);(99,12);(100,13);(101,14);(102,15)]
    (cm_new 255 256).

(** struct UTF8::CharLengthTab, charset_utf8.hpp:57-71 *)
Definition utf8LengthTab : list N :=
  Eval vm_compute in
  cm_range 255 255 8 (cm_range 254 254 7 (cm_range 252 253 6 (cm_range 248 251 5
  (cm_range 240 247 4 (cm_range 224 239 3 (cm_range 192 223 2 (cm_range 0 127 1
  (cm_new 0 256)))))))).
