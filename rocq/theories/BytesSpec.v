(** Reading of arbitrary bytes (specification): the character at the start of a text in every character set, also of a text that is not
    well formed. *)
From Verif Require Import Base Charset CharsetSpec.

(** byte [i], null bytes behind the end *)
Definition byte_at (l : list N) (i : nat) : N := nth i l 0.
(** the 16 bit unit at byte [i] *)
Definition unit_at (be : bool) (l : list N) (i : nat) : N :=
  if be then 256 * byte_at l i + byte_at l (S i) else byte_at l i + 256 * byte_at l (S i).
(** the table of ISO-8859-3 of the code has the characters of the standard without the gaps for the bytes not assigned, so all characters
    behind the first gap are moved; null characters at the end *)
Definition iso_moved : list N := filter (fun c => negb (c =? 0xFFFD)) iso8859_3.
Definition iso_read (page b : N) : N :=
  if (page =? 3) && (128 <=? b) then nth (N.to_nat (b - 128)) iso_moved 0 else iso8859_char page b.

(** character and number of bytes it takes *)
Definition char_at (cs : charset) (l : list N) : N * nat :=
  match cs with
  | UTF8 => spec_utf8_read l
  | UTF16 be =>
      let u := unit_at be l 0 in
      if (0xD800 <=? u) && (u <? 0xDC00)
      then let w := unit_at be l 2 in
           (if 0xE000 <=? w then 0xFFFF else (u - 0xD800) * 0x400 + w + 0x10000 - 0xDC00, 4%nat)
      else (u, 2%nat)
  | UCS2 be => (unit_at be l 0, 2%nat)
  | UCS4 be => (if be then 65536 * unit_at be l 0 + unit_at be l 2 else unit_at be l 0 + 65536 * unit_at be l 2, 4%nat)
  | IsoLatin p => (iso_read p (byte_at l 0), 1%nat)
  end.
(** the first [n] characters, null characters behind the end; the number of bytes they take *)
Fixpoint chars_at (cs : charset) (n : nat) (l : list N) : list N :=
  match n with
  | O => []
  | S n' => fst (char_at cs l) :: chars_at cs n' (skipn (snd (char_at cs l)) l)
  end.
Fixpoint size_at (cs : charset) (n : nat) (l : list N) : nat :=
  match n with
  | O => O
  | S n' => (snd (char_at cs l) + size_at cs n' (skipn (snd (char_at cs l)) l))%nat
  end.

(** all characters of a text with their bytes *)
Fixpoint characters_n (n : nat) (cs : charset) (l : list N) : list (list N * N) :=
  match n, l with
  | S n', _ :: _ => let k := snd (char_at cs l) in (firstn k (l ++ repeat 0 k), fst (char_at cs l)) :: characters_n n' cs (skipn k l)
  | _, _ => []
  end.
Definition characters (cs : charset) (l : list N) : list (list N * N) := characters_n (length l) cs l.

(** ** Texts of bytes as texts of characters. An ASCII character stands for itself. Any other one is a letter and nothing else for the
    scanner: the number [i] of it is taken for one, 2^32 + i to keep it apart from characters written as references. *)
Definition is_ascii (cs : charset) (p : list N * N) : bool :=
  match cs with
  | UTF8 | IsoLatin _ => hd 0 (fst p) <? 128
  | _ => snd p <? 128
  end.
Fixpoint numbered (cs : charset) (i : N) (l : list (list N * N)) : list N :=
  match l with
  | [] => []
  | p :: r => (if is_ascii cs p then snd p else 2 ^ 32 + i) :: numbered cs (i + 1) r
  end.
Definition letters (cs : charset) (text : list N) : list N := numbered cs 0 (characters cs text).

Definition charset_eqb (a b : charset) : bool :=
  match a, b with
  | UTF8, UTF8 => true
  | UTF16 x, UTF16 y | UCS2 x, UCS2 y | UCS4 x, UCS4 y => Bool.eqb x y
  | IsoLatin p, IsoLatin q => p =? q
  | _, _ => false
  end.
(** what is written for a letter: the bytes of it, if the character set of the output is the one of the input, or its character *)
Definition written (incs outcs : charset) (text : list N) (c : N) : list N :=
  if c <? 2 ^ 32 then cs_print outcs c
  else match nth_error (characters incs text) (N.to_nat (c - 2 ^ 32)) with
       | Some p => if charset_eqb incs outcs then fst p else cs_print outcs (snd p)
       | None => []
       end.
