(** The test program tests/test_TextReader.cpp (model).
    The copies of the iterator made by the constructor of TextScanner hold copies of the buffer and are equal to the original. *)
From Verif Require Import Base Iter CharMap Charset TextScanner StaticBuffer.

(** character, lines 12-32; [idx] is at most 10000, so nothing exceeds 32 bits *)
Definition tt_character (idx maxchar : N) : N :=
  let rt :=
    if idx <? 1000 then idx
    else if idx <? 2000 then idx + (idx - 1000) * 3
    else if idx <? 3000 then idx + (idx - 2000) * 17
    else if idx <? 4000 then idx + (idx - 3000) * 123
    else if idx <? 5000 then idx + (idx - 4000) * 376
    else if idx <? 6000 then idx + (idx - 5000) * 377
    else if idx <? 7000 then idx + (idx - 6000) * 7231
    else if idx <? 8000 then idx + (idx - 7000) * 7232
    else if idx <? 9000 then idx + (idx - 8000) * 33121
    else if idx <? 10000 then idx + (idx - 9000) * 33122
    else idx in
  let rt := (rt mod (maxchar - 1)) + 1 in
  if maxchar =? 0x10FFFF
  then if (0xD800 <=? rt) && (rt <? 0xDC00) then rt - 0xD800 else rt
  else rt.
(** NOF_TESTS, line 33 *)
Definition tt_nof : N := 10000.
(** MaxChar of the character sets: charset_utf8.hpp:26, charset_isolatin.hpp:26, charset_ucs.hpp:36 and 139, charset_utf16.hpp:46 *)
Definition tt_maxchar (cs : charset) : N :=
  match cs with UTF8 => 0x7FFFFFFF | UTF16 _ => 0x10FFFF | UCS2 _ => 0xFFFF | UCS4 _ => 0xFFFFFFFF | IsoLatin _ => 0xFF end.

(** class EnumCharIterator, lines 37-92 *)
Record enumit := mkEn { en_ii : N; en_pos : N; en_buf : sbuf }.

Section Enum.
Context (cs : charset) (character : N -> N) (nof : N).

(** eof, lines 47-50 *)
Definition en_eof (i : enumit) : bool := (nof <=? en_ii i) && (en_pos i =? sb_getSize (en_buf i)).

(** the calls of push_back in print *)
Fixpoint en_print (l : list N) (b : sbuf) : out sbuf unit :=
  match l with
  | [] => Ret b tt
  | c :: l' => let! (b1, u) := sb_push c b in en_print l' b1
  end.

(** skip, lines 52-71 *)
Definition en_skip (i : enumit) : out enumit bool :=
  let pos := u32 (en_pos i + 1) in
  if sb_getSize (en_buf i) <=? pos
  then if nof <=? en_ii i
       then Ret (mkEn (en_ii i) (u32 (sb_getSize (en_buf i))) (en_buf i)) false
       else let ii := u32 (en_ii i + 1) in
            let! (i1, u) := omap (fun b => mkEn ii 0 b) (en_print (cs_print cs (character ii)) (sb_clear (en_buf i))) in
            Ret i1 true
  else Ret (mkEn (en_ii i) pos (en_buf i)) true.

(** operator*, lines 83-87; operator++, lines 88-92. Traits is not specialised for this iterator, getPosition is not used. *)
Definition en_deref (i : enumit) : out enumit N :=
  if en_eof i then Ret i 0 else omap (fun b => mkEn (en_ii i) (en_pos i) b) (sb_at (en_pos i) (en_buf i)).
Definition en_incr (i : enumit) : out enumit unit := let! (i1, u) := en_skip i in Ret i1 tt.
Definition en_ops : iterops enumit := mkIterops en_deref en_incr (fun _ => 0).

(** constructor, lines 77-82 *)
Definition en_make (start : N) : out enumit unit :=
  let! (i1, u) := en_skip (mkEn start 0 (sb_new 16)) in Ret i1 tt.

(** rnd, lines 106-110 *)
Definition tt_rnd (seed : N) : N := u32 (u32 (seed + 1) * 2654435761).

(** the loop in lines 124-150: the value of rndSeed and whether all checks succeeded *)
Fixpoint tt_checks (fuel : nat) (echr seed : N) (t : tscan enumit) : out (tscan enumit) (N * bool) :=
  match fuel with
  | O => Fuel
  | S f =>
      let seed1 := tt_rnd seed in
      let rr := seed1 mod 3 in
      let! (t1, ok) :=
        (if N.land rr 1 =? 0
         then let! (t1, a) := ts_ascii en_ops cs t in
              Ret t1 (a =? (if 127 <? echr then 0 else N.land echr 0xFF))
         else let! (t1, c) := ts_chr en_ops cs t in
              Ret t1 (c =? echr)) in
      if ok
      then if 1 <? rr then tt_checks f echr seed1 t1 else Ret t1 (seed1, true)
      else Ret t1 (seed1, false)
  end.

(** lines 119-154: the value returned and whether PASSED is printed *)
Fixpoint tt_loop (fuel : nat) (ii seed : N) (t : tscan enumit) : out (tscan enumit) (N * bool) :=
  match fuel with
  | O => Fuel
  | S f =>
      let! (t1, c) := ts_control en_ops cs t in
      if negb (match c with CEndOfText => true | _ => false end) && (ii <? nof)
      then let! (t2, r) := tt_checks f (character (u32 (ii + 1))) seed t1 in
           if snd r
           then let! (t3, u) := ts_skip en_ops cs t2 in
                tt_loop f (u32 (ii + 1)) (fst r) t3
           else Ret t2 (ii, false)
      else if ii <? nof then Ret t1 (u32 (ii + 1), false) else Ret t1 (0, true)
  end.
(** operator*, lines 112-155 *)
Definition tt_test (fuel : nat) (start : N) : out (tscan enumit) (N * bool) :=
  match en_make start with
  | Ret i _ => tt_loop fuel start 0 (ts_make i)
  | _ => Undef
  end.
End Enum.

(** lines 183-190 *)
Definition tt_charsets : list charset := [UTF8; IsoLatin 1; UCS2 true; UCS2 false; UCS4 true; UCS4 false; UTF16 true; UTF16 false].
Definition tt_run (fuel : nat) (cs : charset) : option (N * bool) :=
  match tt_test cs (fun idx => tt_character idx (tt_maxchar cs)) tt_nof fuel 0 with
  | Ret _ r => Some r
  | _ => None
  end.
Definition tt_all (fuel : nat) : list (option (N * bool)) := map (tt_run fuel) tt_charsets.
