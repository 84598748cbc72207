(** Character sets: charset_*.hpp, codepages.hpp (model). *)
From Verif Require Import Base Iter CharMap CodePages.

(** The character set classes usable as template parameter. [be] is true for
    ByteOrder::BE (charset_interface.hpp:118-125). IsoLatin carries the code page index
    given to the constructor (charset_isolatin.hpp:33). *)
Inductive charset :=
| UTF8
| UTF16 (be : bool)
| UCS2 (be : bool)
| UCS4 (be : bool)
| IsoLatin (page : N).

(** The state shared between the character set functions and their caller:
    char buf[8], bufpos and the iterator (charset_interface.hpp:63-99,
    textscanner.hpp:72-76). *)
Record rd (I : Type) := mkRdr { rbuf : list N; rpos : nat; rit : I }.
Arguments mkRdr {I}. Arguments rbuf {I}. Arguments rpos {I}. Arguments rit {I}.

Section WithIterator.
Context {I : Type} (ops : iterops I).

Definition rd_it (r : rd I) (i : I) : rd I := mkRdr (rbuf r) (rpos r) i.

(** buf[bufpos] = *itr; ++itr; ++bufpos   (e.g. charset_utf8.hpp:83-85).
    The write behind the end of char buf[8] is undefined. *)
Definition fetch1 (r : rd I) : out (rd I) unit :=
  match deref ops (rit r) with
  | Ret i b =>
      if Nat.ltb (rpos r) 8
      then let r1 := mkRdr (upd (rpos r) b (rbuf r)) (rpos r) i in
           let! (r2, u) := omap (rd_it r1) (incr ops i) in
           Ret (mkRdr (rbuf r2) (S (rpos r2)) (rit r2)) tt
      else Undef
  | Jump i => Jump (rd_it r i)
  | Throw i => Throw (rd_it r i)
  | Undef => Undef
  | Fuel => Fuel
  end.

(** ++itr in a loop header ++bufpos (e.g. charset_utf8.hpp:95-98) *)
Definition skip1 (r : rd I) : out (rd I) unit :=
  let! (r2, u) := omap (rd_it r) (incr ops (rit r)) in
  Ret (mkRdr (rbuf r2) (S (rpos r2)) (rit r2)) tt.

(** n times *)
Fixpoint repeatM (n : nat) (f : rd I -> out (rd I) unit) (r : rd I) : out (rd I) unit :=
  match n with
  | O => Ret r tt
  | S n' => let! (r', u) := f r in repeatM n' f r'
  end.

(** for (;bufpos < n; ++bufpos) {buf[bufpos] = *itr; ++itr;} *)
Definition fill (n : nat) (r : rd I) : out (rd I) unit := repeatM (n - rpos r) fetch1 r.
(** for (;bufpos < n; ++bufpos) {++itr;} *)
Definition advance (n : nat) (r : rd I) : out (rd I) unit := repeatM (n - rpos r) skip1 r.

(** buf[i]; the accesses in the code are at constant indices below 8 or below bufpos *)
Definition bufat (r : rd I) (i : nat) : N := nth i (rbuf r) 0.

(** *** UTF8, charset_utf8.hpp *)

(** lines 83-85 and 107-109, 120-122 *)
Definition utf8_first (r : rd I) : out (rd I) unit :=
  if Nat.eqb (rpos r) 0 then fetch1 r else Ret r tt.

(** size, lines 78-88 *)
Definition utf8_size (r : rd I) : out (rd I) nat :=
  let! (r1, u) := utf8_first r in
  match cm_get utf8LengthTab (bufat r1 0) with
  | Some n => Ret r1 (N.to_nat n)
  | None => Undef
  end.

(** skip, lines 92-99 *)
Definition utf8_skip (r : rd I) : out (rd I) unit :=
  let! (r1, n) := utf8_size r in advance n r1.

(** asciichar, lines 103-112; the signed char -1 is represented as 255 *)
Definition utf8_ascii (r : rd I) : out (rd I) N :=
  let! (r1, u) := utf8_first r in
  Ret r1 (if 127 <? bufat r1 0 then 255 else bufat r1 0).

(** fetchbytes, lines 116-130 *)
Definition utf8_fetch (r : rd I) : out (rd I) unit :=
  let! (r1, u) := utf8_first r in
  let! (r2, n) := utf8_size r1 in
  fill n r2.

(** MaxChar, line 26 *)
Definition utf8_MaxChar : N := 0x7FFFFFFF.

(** the loop of lines 145-153, over the bytes buf[1..bufpos-1] *)
Fixpoint utf8_loop (res : N) (bytes : list N) : N :=
  match bytes with
  | [] => res
  | xx :: bytes' =>
      let res' := N.lor (u32 (N.shiftl res 6)) (N.land xx 0x3F) in
      if N.land xx 0xC0 =? 0x80 then utf8_loop res' bytes' else utf8_MaxChar
  end.

(** value, lines 134-156. [gg] = bufpos - 2; the bytes read in the loop are buf[1..bufpos-1] *)
Definition utf8_value_of (buf : list N) (bufpos : nat) : N :=
  let b0 := nth 0 buf 0 in
  if 127 <? b0
  then if Nat.ltb bufpos 2 then utf8_MaxChar
       else utf8_loop (N.land b0 (N.shiftr 0x1F (N.of_nat (bufpos - 2))))
                      (firstn (bufpos - 1) (tl buf))
  else b0.

Definition utf8_value (r : rd I) : out (rd I) N :=
  let! (r1, u) := utf8_fetch r in
  Ret r1 (utf8_value_of (rbuf r1) (rpos r1)).

(** *** UTF16, charset_utf16.hpp *)

(** LSB, MSB, lines 37-38 *)
Definition lsb (be : bool) : nat := if be then 1 else 0.
Definition msb (be : bool) : nat := if be then 0 else 1.

(** fetchbytes, lines 55-69 *)
Definition utf16_fetch (r : rd I) : out (rd I) unit := fill 2 r.

(** lines 80-88; [rt - 0xD8] is computed in UChar *)
Definition utf16_size_of (b : N) : nat := if 0x03 <? sub32 b 0xD8 then 2 else 4.

(** size, lines 76-89 *)
Definition utf16_size (be : bool) (r : rd I) : out (rd I) nat :=
  let! (r1, u) := utf16_fetch r in
  Ret r1 (utf16_size_of (bufat r1 (msb be))).

(** skip, lines 93-100 *)
Definition utf16_skip (be : bool) (r : rd I) : out (rd I) unit :=
  let! (r1, n) := utf16_size be r in advance n r1.

(** lines 116-118 and 128-135. [lo - 0xDC] is computed in int (unsigned short is promoted). *)
Definition utf16_value_of (be : bool) (buf : list N) (bufsize : nat) : N :=
  let b i := nth i buf 0 in
  let rt := u32 (N.shiftl (b (msb be)) 8 + b (lsb be)) in
  if Nat.eqb bufsize 4
  then
    let rt := u32 (sub32 rt 0xD800 * 0x400) in
    let lo := b (2 + msb be)%nat in
    if (0x03 <? Z.of_N lo - 0xDC)%Z then 0xFFFF
    else let lo := u16 (u16 (N.shiftl lo 8) + b (2 + lsb be)%nat) in
         u32 (sub32 (rt + lo) 0xDC00 + 0x010000)
  else rt.

(** value_impl, lines 112-136 *)
Definition utf16_value (be : bool) (r : rd I) : out (rd I) N :=
  let! (r1, n) := utf16_size be r in
  let! (r2, u) := (if Nat.eqb n 4 then fill n r1 else Ret r1 tt) in
  Ret r2 (utf16_value_of be (rbuf r2) n).

(** (ch > 127)?-1:(char)ch, e.g. charset_utf16.hpp:107 *)
Definition ascii_of (v : N) : N := if 127 <? v then 255 else v.

(** asciichar, lines 104-108 *)
Definition utf16_ascii (be : bool) (r : rd I) : out (rd I) N :=
  let! (r1, v) := utf16_value be r in Ret r1 (ascii_of v).

(** *** UCS2, charset_ucs.hpp:28-121 *)
(** fetchbytes lines 54-68, skip lines 44-50 *)
Definition ucs2_fetch (r : rd I) : out (rd I) unit := fill 2 r.
Definition ucs2_skip (r : rd I) : out (rd I) unit := advance 2 r.
(** lines 74-75 *)
Definition ucs2_value_of (be : bool) (buf : list N) : N :=
  u32 (N.shiftl (nth (msb be) buf 0) 8 + nth (lsb be) buf 0).
(** value_impl, lines 71-76 *)
Definition ucs2_value (be : bool) (r : rd I) : out (rd I) N :=
  let! (r1, u) := ucs2_fetch r in Ret r1 (ucs2_value_of be (rbuf r1)).
(** asciichar, lines 87-91 *)
Definition ucs2_ascii (be : bool) (r : rd I) : out (rd I) N :=
  let! (r1, v) := ucs2_value be r in Ret r1 (ascii_of v).

(** *** UCS4, charset_ucs.hpp:127-200 *)
(** fetchbytes lines 147-154, skip lines 169-175 *)
Definition ucs4_fetch (r : rd I) : out (rd I) unit := fill 4 r.
Definition ucs4_skip (r : rd I) : out (rd I) unit := advance 4 r.
(** B0..B3, lines 131-134 *)
Definition ucs4_b (be : bool) (k : nat) : nat := if be then (3 - k)%nat else k.
(** lines 161-164 *)
Definition ucs4_value_of (be : bool) (buf : list N) : N :=
  let b k := nth (ucs4_b be k) buf 0 in
  u32 (u32 (N.shiftl (u32 (u32 (N.shiftl (u32 (u32 (N.shiftl (b 3%nat) 8) + b 2%nat)) 8)
                           + b 1%nat)) 8) + b 0%nat).
(** value, lines 158-165 *)
Definition ucs4_value (be : bool) (r : rd I) : out (rd I) N :=
  let! (r1, u) := ucs4_fetch r in Ret r1 (ucs4_value_of be (rbuf r1)).
(** asciichar, lines 179-183 *)
Definition ucs4_ascii (be : bool) (r : rd I) : out (rd I) N :=
  let! (r1, v) := ucs4_value be r in Ret r1 (ascii_of v).

(** *** IsoLatin, charset_isolatin.hpp:24-98 *)
(** fetchbytes lines 49-57, skip lines 38-45 *)
Definition iso_fetch (r : rd I) : out (rd I) unit := fill 1 r.
Definition iso_skip (r : rd I) : out (rd I) unit := advance 1 r.
(** asciichar, lines 61-65 *)
Definition iso_ascii (r : rd I) : out (rd I) N :=
  let! (r1, u) := iso_fetch r in Ret r1 (if 127 <? bufat r1 0 then 255 else bufat r1 0).
(** IsoLatinCodePage::ucharcode, codepages.hpp:119-123 *)
Definition ucharcode (page : N) (ch : N) : option N :=
  if ch <? 128 then Some ch
  else match codePage page with
       | Some cd => nth_error cd (N.to_nat (ch - 128))
       | None => None
       end.
(** value, lines 69-73; there is no IsoLatin object for a page outside 1..9 *)
Definition iso_value (page : N) (r : rd I) : out (rd I) N :=
  let! (r1, u) := iso_fetch r in
  match ucharcode page (bufat r1 0) with
  | Some v => Ret r1 v
  | None => Undef
  end.

(** *** Dispatch over the template parameter CharSet *)
Definition cs_fetch (cs : charset) (r : rd I) : out (rd I) unit :=
  match cs with
  | UTF8 => utf8_fetch r
  | UTF16 _ => utf16_fetch r
  | UCS2 _ => ucs2_fetch r
  | UCS4 _ => ucs4_fetch r
  | IsoLatin _ => iso_fetch r
  end.
Definition cs_skip (cs : charset) (r : rd I) : out (rd I) unit :=
  match cs with
  | UTF8 => utf8_skip r
  | UTF16 be => utf16_skip be r
  | UCS2 _ => ucs2_skip r
  | UCS4 _ => ucs4_skip r
  | IsoLatin _ => iso_skip r
  end.
Definition cs_ascii (cs : charset) (r : rd I) : out (rd I) N :=
  match cs with
  | UTF8 => utf8_ascii r
  | UTF16 be => utf16_ascii be r
  | UCS2 be => ucs2_ascii be r
  | UCS4 be => ucs4_ascii be r
  | IsoLatin _ => iso_ascii r
  end.
Definition cs_value (cs : charset) (r : rd I) : out (rd I) N :=
  match cs with
  | UTF8 => utf8_value r
  | UTF16 be => utf16_value be r
  | UCS2 be => ucs2_value be r
  | UCS4 be => ucs4_value be r
  | IsoLatin p => iso_value p r
  end.
End WithIterator.

(** ** Printing. The functions deliver the bytes passed to buf.push_back in order. *)

(** "0123456789abcdef", charset_interface.hpp:31 *)
Definition HEXdigits : list N := Eval vm_compute in str "0123456789abcdef".

(** Digits written to bb, least significant first, charset_interface.hpp:35-39. At most 8
    iterations are needed for a 32 bit value. *)
Fixpoint enc_digits (n : nat) (chr : N) : list N :=
  match n with
  | O => []
  | S n' => if chr =? 0 then []
            else nth (N.to_nat (N.land chr 0xf)) HEXdigits 0 :: enc_digits n' (chr / 16)
  end.

(** Encoder::encode, charset_interface.hpp:29-50, without the terminating null character; the result has at
    most 13 bytes with it, so it always fits in the 32 byte buffers passed by the callers. *)
Definition encode (chr : N) : list N :=
  [38; 35; 120] ++ rev (enc_digits 8 chr) ++ [59].

(** UTF8::print, charset_utf8.hpp:160-182 *)
(** number of bytes following the first: loop of lines 169-172 *)
Definition utf8_pp (chr : N) : N :=
  if chr <? N.shiftl 64 5 then 1
  else if chr <? N.shiftl 64 10 then 2
  else if chr <? N.shiftl 64 15 then 3
  else if chr <? N.shiftl 64 20 then 4
  else 5.

(** continuation bytes, lines 178-181 *)
Fixpoint utf8_cont (n : nat) (chr : N) : list N :=
  match n with
  | O => []
  | S n' => u8 (N.lor (N.land (N.shiftr chr (6 * N.of_nat n')) 0x3F) 0x80) :: utf8_cont n' chr
  end.

Definition utf8_print (chr : N) : list N :=
  if chr <=? 127 then [chr]
  else
    let pp := utf8_pp chr in
    let HB := u8 (N.shiftl 0xFF (8 - (pp + 1))) in
    (* ~HB >> 1 is computed in int: arithmetic shift of the complement. Only the low byte is used. *)
    let mask := Z.to_N (Z.land (Z.shiftr (Z.lnot (Z.of_N HB)) 1) 0xFF) in
    u8 (N.lor (N.land (u8 (N.shiftr chr (pp * 6))) mask) HB)
      :: utf8_cont (N.to_nat pp) chr.

(** Print1shift, Print2shift of UTF16 and UCS2: the two bytes of a 16 bit unit
    (charset_utf16.hpp:39-40, charset_ucs.hpp:34-35) *)
Definition print16 (be : bool) (u : N) : list N :=
  let p1 := if be then 8 else 0 in
  let p2 := if be then 0 else 8 in
  [u8 (N.shiftr u p1); u8 (N.shiftr u p2)].

(** UTF16::print, charset_utf16.hpp:146-181 *)
Definition utf16_print (be : bool) (ch : N) : list N :=
  if ch <=? 0xFFFF
  then if sub32 ch 0xD800 <? 0x400
       then flat_map (print16 be) (encode ch)
       else print16 be ch
  else if ch <=? 0x10FFFF
  then let ch := ch - 0x10000 in
       let hi := u16 (ch / 0x400 + 0xD800) in
       let lo := u16 (ch mod 0x400 + 0xDC00) in
       print16 be hi ++ print16 be lo
  else flat_map (print16 be) (encode ch).

(** UCS2::print, charset_ucs.hpp:95-114 *)
Definition ucs2_print (be : bool) (chr : N) : list N :=
  if 0xFFFF <? chr then flat_map (print16 be) (encode chr) else print16 be chr.

(** UCS4::print, charset_ucs.hpp:187-193, Print1shift..Print4shift lines 135-138 *)
Definition ucs4_print (be : bool) (chr : N) : list N :=
  map (fun s => u8 (N.shiftr chr s)) (if be then [24; 16; 8; 0] else [0; 8; 16; 24]).

(** lookup in the std::map built by InvOvlCodeMap, codepages.hpp:51-59 and 136 *)
Definition ovl_find (m : list (N * N)) (k : N) : option N :=
  match find (fun p => fst p =? k) m with
  | Some p => Some (snd p)
  | None => None
  end.

(** IsoLatinCodePage::invcode, codepages.hpp:128-141; [1<<sizeof(unsigned short)] is 4 *)
Definition invcode (page : N) (ch : N) : option N :=
  match invcodePage page, ovlPage page with
  | Some inv, Some ovl =>
      if ch <=? 128 then Some ch
      else
        let rt := if ch <=? 255 then u8 (nth (N.to_nat (ch - 128)) inv 0) else 0 in
        if rt =? 0
        then if N.shiftl 1 2 <=? ch then Some 0
             else match ovl_find ovl (u16 ch) with
                  | None => Some 0
                  | Some b => Some b
                  end
        else Some rt
  | _, _ => None
  end.

(** IsoLatin::print, charset_isolatin.hpp:77-91; [None] never arises for pages 1..9, the only
    ones that can be constructed *)
Definition iso_print (page : N) (chr : N) : list N :=
  match invcode page chr with
  | Some c => if c =? 0 then encode chr else [c]
  | None => []
  end.

Definition cs_print (cs : charset) (chr : N) : list N :=
  match cs with
  | UTF8 => utf8_print chr
  | UTF16 be => utf16_print be chr
  | UCS2 be => ucs2_print be chr
  | UCS4 be => ucs4_print be chr
  | IsoLatin p => iso_print p chr
  end.

(** the object exists: the constructor of the code page throws CodePageIndexNotSupported for other
    indices (codepages.hpp:110) *)
Definition cs_constructible (cs : charset) : bool :=
  match cs with
  | IsoLatin p => (1 <=? p) && (p <=? 9)
  | _ => true
  end.

(** traits::TypeCheck::is_same on the character set classes, used in XMLScanner::copychar
    (xmlscanner.hpp:508-511); the byte order is part of the class, the code page is not *)
Definition cs_same_class (a b : charset) : bool :=
  match a, b with
  | UTF8, UTF8 => true
  | UTF16 x, UTF16 y => Bool.eqb x y
  | UCS2 x, UCS2 y => Bool.eqb x y
  | UCS4 x, UCS4 y => Bool.eqb x y
  | IsoLatin _, IsoLatin _ => true
  | _, _ => false
  end.

(** CharSet::is_equal on two objects of the same class: charset_utf8.hpp:185, charset_utf16.hpp:184,
    charset_ucs.hpp:117 and 196, charset_isolatin.hpp:94 (identity of the code page) *)
Definition cs_is_equal (a b : charset) : bool :=
  match a, b with
  | IsoLatin p, IsoLatin q => p =? q
  | _, _ => cs_same_class a b
  end.
