(** Character encodings as defined by their standards, written with div and mod, independent of
    the shifts and masks of the code (specification). *)
From Verif Require Import Base Charset.

(** UTF-8 in its original form up to 31 bits (RFC 2279): number of bits after the first byte *)
Definition spec_utf8 (c : N) : list N :=
  let t k := 128 + (c / 64 ^ k) mod 64 in
  if c <? 2 ^ 7 then [c]
  else if c <? 2 ^ 11 then [192 + c / 64; t 0]
  else if c <? 2 ^ 16 then [224 + c / 64 ^ 2; t 1; t 0]
  else if c <? 2 ^ 21 then [240 + c / 64 ^ 3; t 2; t 1; t 0]
  else if c <? 2 ^ 26 then [248 + c / 64 ^ 4; t 3; t 2; t 1; t 0]
  else [252 + c / 64 ^ 5; t 4; t 3; t 2; t 1; t 0].

(** 16 bit unit *)
Definition spec_unit16 (be : bool) (u : N) : list N :=
  if be then [u / 256; u mod 256] else [u mod 256; u / 256].

(** UTF-16 (RFC 2781) *)
Definition spec_utf16 (be : bool) (c : N) : list N :=
  if c <? 0x10000 then spec_unit16 be c
  else spec_unit16 be (0xD800 + (c - 0x10000) / 1024)
       ++ spec_unit16 be (0xDC00 + (c - 0x10000) mod 1024).

(** UCS-2 and UCS-4: the number in base 256 *)
Definition spec_ucs2 (be : bool) (c : N) : list N := spec_unit16 be c.
Definition spec_ucs4 (be : bool) (c : N) : list N :=
  let d := [c / 256 ^ 3; (c / 256 ^ 2) mod 256; (c / 256) mod 256; c mod 256] in
  if be then d else rev d.

(** ** ISO-8859: characters of the bytes 128..255, from the Unicode mapping tables of the standard *)
(** ISO-8859-1 *)
Definition iso8859_1 : list N := [
  0x80; 0x81; 0x82; 0x83; 0x84; 0x85; 0x86; 0x87; 0x88; 0x89; 0x8A; 0x8B; 0x8C; 0x8D; 0x8E; 0x8F;
  0x90; 0x91; 0x92; 0x93; 0x94; 0x95; 0x96; 0x97; 0x98; 0x99; 0x9A; 0x9B; 0x9C; 0x9D; 0x9E; 0x9F;
  0xA0; 0xA1; 0xA2; 0xA3; 0xA4; 0xA5; 0xA6; 0xA7; 0xA8; 0xA9; 0xAA; 0xAB; 0xAC; 0xAD; 0xAE; 0xAF;
  0xB0; 0xB1; 0xB2; 0xB3; 0xB4; 0xB5; 0xB6; 0xB7; 0xB8; 0xB9; 0xBA; 0xBB; 0xBC; 0xBD; 0xBE; 0xBF;
  0xC0; 0xC1; 0xC2; 0xC3; 0xC4; 0xC5; 0xC6; 0xC7; 0xC8; 0xC9; 0xCA; 0xCB; 0xCC; 0xCD; 0xCE; 0xCF;
  0xD0; 0xD1; 0xD2; 0xD3; 0xD4; 0xD5; 0xD6; 0xD7; 0xD8; 0xD9; 0xDA; 0xDB; 0xDC; 0xDD; 0xDE; 0xDF;
  0xE0; 0xE1; 0xE2; 0xE3; 0xE4; 0xE5; 0xE6; 0xE7; 0xE8; 0xE9; 0xEA; 0xEB; 0xEC; 0xED; 0xEE; 0xEF;
  0xF0; 0xF1; 0xF2; 0xF3; 0xF4; 0xF5; 0xF6; 0xF7; 0xF8; 0xF9; 0xFA; 0xFB; 0xFC; 0xFD; 0xFE; 0xFF
].
(** ISO-8859-2 *)
Definition iso8859_2 : list N := [
  0x80; 0x81; 0x82; 0x83; 0x84; 0x85; 0x86; 0x87; 0x88; 0x89; 0x8A; 0x8B; 0x8C; 0x8D; 0x8E; 0x8F;
  0x90; 0x91; 0x92; 0x93; 0x94; 0x95; 0x96; 0x97; 0x98; 0x99; 0x9A; 0x9B; 0x9C; 0x9D; 0x9E; 0x9F;
  0xA0; 0x104; 0x2D8; 0x141; 0xA4; 0x13D; 0x15A; 0xA7; 0xA8; 0x160; 0x15E; 0x164; 0x179; 0xAD; 0x17D; 0x17B;
  0xB0; 0x105; 0x2DB; 0x142; 0xB4; 0x13E; 0x15B; 0x2C7; 0xB8; 0x161; 0x15F; 0x165; 0x17A; 0x2DD; 0x17E; 0x17C;
  0x154; 0xC1; 0xC2; 0x102; 0xC4; 0x139; 0x106; 0xC7; 0x10C; 0xC9; 0x118; 0xCB; 0x11A; 0xCD; 0xCE; 0x10E;
  0x110; 0x143; 0x147; 0xD3; 0xD4; 0x150; 0xD6; 0xD7; 0x158; 0x16E; 0xDA; 0x170; 0xDC; 0xDD; 0x162; 0xDF;
  0x155; 0xE1; 0xE2; 0x103; 0xE4; 0x13A; 0x107; 0xE7; 0x10D; 0xE9; 0x119; 0xEB; 0x11B; 0xED; 0xEE; 0x10F;
  0x111; 0x144; 0x148; 0xF3; 0xF4; 0x151; 0xF6; 0xF7; 0x159; 0x16F; 0xFA; 0x171; 0xFC; 0xFD; 0x163; 0x2D9
].
(** ISO-8859-3; 0xFFFD for the bytes not assigned *)
Definition iso8859_3 : list N := [
  0x80; 0x81; 0x82; 0x83; 0x84; 0x85; 0x86; 0x87; 0x88; 0x89; 0x8A; 0x8B; 0x8C; 0x8D; 0x8E; 0x8F;
  0x90; 0x91; 0x92; 0x93; 0x94; 0x95; 0x96; 0x97; 0x98; 0x99; 0x9A; 0x9B; 0x9C; 0x9D; 0x9E; 0x9F;
  0xA0; 0x126; 0x2D8; 0xA3; 0xA4; 0xFFFD; 0x124; 0xA7; 0xA8; 0x130; 0x15E; 0x11E; 0x134; 0xAD; 0xFFFD; 0x17B;
  0xB0; 0x127; 0xB2; 0xB3; 0xB4; 0xB5; 0x125; 0xB7; 0xB8; 0x131; 0x15F; 0x11F; 0x135; 0xBD; 0xFFFD; 0x17C;
  0xC0; 0xC1; 0xC2; 0xFFFD; 0xC4; 0x10A; 0x108; 0xC7; 0xC8; 0xC9; 0xCA; 0xCB; 0xCC; 0xCD; 0xCE; 0xCF;
  0xFFFD; 0xD1; 0xD2; 0xD3; 0xD4; 0x120; 0xD6; 0xD7; 0x11C; 0xD9; 0xDA; 0xDB; 0xDC; 0x16C; 0x15C; 0xDF;
  0xE0; 0xE1; 0xE2; 0xFFFD; 0xE4; 0x10B; 0x109; 0xE7; 0xE8; 0xE9; 0xEA; 0xEB; 0xEC; 0xED; 0xEE; 0xEF;
  0xFFFD; 0xF1; 0xF2; 0xF3; 0xF4; 0x121; 0xF6; 0xF7; 0x11D; 0xF9; 0xFA; 0xFB; 0xFC; 0x16D; 0x15D; 0x2D9
].
(** ISO-8859-4 *)
Definition iso8859_4 : list N := [
  0x80; 0x81; 0x82; 0x83; 0x84; 0x85; 0x86; 0x87; 0x88; 0x89; 0x8A; 0x8B; 0x8C; 0x8D; 0x8E; 0x8F;
  0x90; 0x91; 0x92; 0x93; 0x94; 0x95; 0x96; 0x97; 0x98; 0x99; 0x9A; 0x9B; 0x9C; 0x9D; 0x9E; 0x9F;
  0xA0; 0x104; 0x138; 0x156; 0xA4; 0x128; 0x13B; 0xA7; 0xA8; 0x160; 0x112; 0x122; 0x166; 0xAD; 0x17D; 0xAF;
  0xB0; 0x105; 0x2DB; 0x157; 0xB4; 0x129; 0x13C; 0x2C7; 0xB8; 0x161; 0x113; 0x123; 0x167; 0x14A; 0x17E; 0x14B;
  0x100; 0xC1; 0xC2; 0xC3; 0xC4; 0xC5; 0xC6; 0x12E; 0x10C; 0xC9; 0x118; 0xCB; 0x116; 0xCD; 0xCE; 0x12A;
  0x110; 0x145; 0x14C; 0x136; 0xD4; 0xD5; 0xD6; 0xD7; 0xD8; 0x172; 0xDA; 0xDB; 0xDC; 0x168; 0x16A; 0xDF;
  0x101; 0xE1; 0xE2; 0xE3; 0xE4; 0xE5; 0xE6; 0x12F; 0x10D; 0xE9; 0x119; 0xEB; 0x117; 0xED; 0xEE; 0x12B;
  0x111; 0x146; 0x14D; 0x137; 0xF4; 0xF5; 0xF6; 0xF7; 0xF8; 0x173; 0xFA; 0xFB; 0xFC; 0x169; 0x16B; 0x2D9
].
(** ISO-8859-9 *)
Definition iso8859_9 : list N := [
  0x80; 0x81; 0x82; 0x83; 0x84; 0x85; 0x86; 0x87; 0x88; 0x89; 0x8A; 0x8B; 0x8C; 0x8D; 0x8E; 0x8F;
  0x90; 0x91; 0x92; 0x93; 0x94; 0x95; 0x96; 0x97; 0x98; 0x99; 0x9A; 0x9B; 0x9C; 0x9D; 0x9E; 0x9F;
  0xA0; 0xA1; 0xA2; 0xA3; 0xA4; 0xA5; 0xA6; 0xA7; 0xA8; 0xA9; 0xAA; 0xAB; 0xAC; 0xAD; 0xAE; 0xAF;
  0xB0; 0xB1; 0xB2; 0xB3; 0xB4; 0xB5; 0xB6; 0xB7; 0xB8; 0xB9; 0xBA; 0xBB; 0xBC; 0xBD; 0xBE; 0xBF;
  0xC0; 0xC1; 0xC2; 0xC3; 0xC4; 0xC5; 0xC6; 0xC7; 0xC8; 0xC9; 0xCA; 0xCB; 0xCC; 0xCD; 0xCE; 0xCF;
  0x11E; 0xD1; 0xD2; 0xD3; 0xD4; 0xD5; 0xD6; 0xD7; 0xD8; 0xD9; 0xDA; 0xDB; 0xDC; 0x130; 0x15E; 0xDF;
  0xE0; 0xE1; 0xE2; 0xE3; 0xE4; 0xE5; 0xE6; 0xE7; 0xE8; 0xE9; 0xEA; 0xEB; 0xEC; 0xED; 0xEE; 0xEF;
  0x11F; 0xF1; 0xF2; 0xF3; 0xF4; 0xF5; 0xF6; 0xF7; 0xF8; 0xF9; 0xFA; 0xFB; 0xFC; 0x131; 0x15F; 0xFF
].
(** ISO-8859-10 *)
Definition iso8859_10 : list N := [
  0x80; 0x81; 0x82; 0x83; 0x84; 0x85; 0x86; 0x87; 0x88; 0x89; 0x8A; 0x8B; 0x8C; 0x8D; 0x8E; 0x8F;
  0x90; 0x91; 0x92; 0x93; 0x94; 0x95; 0x96; 0x97; 0x98; 0x99; 0x9A; 0x9B; 0x9C; 0x9D; 0x9E; 0x9F;
  0xA0; 0x104; 0x112; 0x122; 0x12A; 0x128; 0x136; 0xA7; 0x13B; 0x110; 0x160; 0x166; 0x17D; 0xAD; 0x16A; 0x14A;
  0xB0; 0x105; 0x113; 0x123; 0x12B; 0x129; 0x137; 0xB7; 0x13C; 0x111; 0x161; 0x167; 0x17E; 0x2015; 0x16B; 0x14B;
  0x100; 0xC1; 0xC2; 0xC3; 0xC4; 0xC5; 0xC6; 0x12E; 0x10C; 0xC9; 0x118; 0xCB; 0x116; 0xCD; 0xCE; 0xCF;
  0xD0; 0x145; 0x14C; 0xD3; 0xD4; 0xD5; 0xD6; 0x168; 0xD8; 0x172; 0xDA; 0xDB; 0xDC; 0xDD; 0xDE; 0xDF;
  0x101; 0xE1; 0xE2; 0xE3; 0xE4; 0xE5; 0xE6; 0x12F; 0x10D; 0xE9; 0x119; 0xEB; 0x117; 0xED; 0xEE; 0xEF;
  0xF0; 0x146; 0x14D; 0xF3; 0xF4; 0xF5; 0xF6; 0x169; 0xF8; 0x173; 0xFA; 0xFB; 0xFC; 0xFD; 0xFE; 0x138
].
(** ISO-8859-13 *)
Definition iso8859_13 : list N := [
  0x80; 0x81; 0x82; 0x83; 0x84; 0x85; 0x86; 0x87; 0x88; 0x89; 0x8A; 0x8B; 0x8C; 0x8D; 0x8E; 0x8F;
  0x90; 0x91; 0x92; 0x93; 0x94; 0x95; 0x96; 0x97; 0x98; 0x99; 0x9A; 0x9B; 0x9C; 0x9D; 0x9E; 0x9F;
  0xA0; 0x201D; 0xA2; 0xA3; 0xA4; 0x201E; 0xA6; 0xA7; 0xD8; 0xA9; 0x156; 0xAB; 0xAC; 0xAD; 0xAE; 0xC6;
  0xB0; 0xB1; 0xB2; 0xB3; 0x201C; 0xB5; 0xB6; 0xB7; 0xF8; 0xB9; 0x157; 0xBB; 0xBC; 0xBD; 0xBE; 0xE6;
  0x104; 0x12E; 0x100; 0x106; 0xC4; 0xC5; 0x118; 0x112; 0x10C; 0xC9; 0x179; 0x116; 0x122; 0x136; 0x12A; 0x13B;
  0x160; 0x143; 0x145; 0xD3; 0x14C; 0xD5; 0xD6; 0xD7; 0x172; 0x141; 0x15A; 0x16A; 0xDC; 0x17B; 0x17D; 0xDF;
  0x105; 0x12F; 0x101; 0x107; 0xE4; 0xE5; 0x119; 0x113; 0x10D; 0xE9; 0x17A; 0x117; 0x123; 0x137; 0x12B; 0x13C;
  0x161; 0x144; 0x146; 0xF3; 0x14D; 0xF5; 0xF6; 0xF7; 0x173; 0x142; 0x15B; 0x16B; 0xFC; 0x17C; 0x17E; 0x2019
].
(** ISO-8859-14 *)
Definition iso8859_14 : list N := [
  0x80; 0x81; 0x82; 0x83; 0x84; 0x85; 0x86; 0x87; 0x88; 0x89; 0x8A; 0x8B; 0x8C; 0x8D; 0x8E; 0x8F;
  0x90; 0x91; 0x92; 0x93; 0x94; 0x95; 0x96; 0x97; 0x98; 0x99; 0x9A; 0x9B; 0x9C; 0x9D; 0x9E; 0x9F;
  0xA0; 0x1E02; 0x1E03; 0xA3; 0x10A; 0x10B; 0x1E0A; 0xA7; 0x1E80; 0xA9; 0x1E82; 0x1E0B; 0x1EF2; 0xAD; 0xAE; 0x178;
  0x1E1E; 0x1E1F; 0x120; 0x121; 0x1E40; 0x1E41; 0xB6; 0x1E56; 0x1E81; 0x1E57; 0x1E83; 0x1E60; 0x1EF3; 0x1E84; 0x1E85; 0x1E61;
  0xC0; 0xC1; 0xC2; 0xC3; 0xC4; 0xC5; 0xC6; 0xC7; 0xC8; 0xC9; 0xCA; 0xCB; 0xCC; 0xCD; 0xCE; 0xCF;
  0x174; 0xD1; 0xD2; 0xD3; 0xD4; 0xD5; 0xD6; 0x1E6A; 0xD8; 0xD9; 0xDA; 0xDB; 0xDC; 0xDD; 0x176; 0xDF;
  0xE0; 0xE1; 0xE2; 0xE3; 0xE4; 0xE5; 0xE6; 0xE7; 0xE8; 0xE9; 0xEA; 0xEB; 0xEC; 0xED; 0xEE; 0xEF;
  0x175; 0xF1; 0xF2; 0xF3; 0xF4; 0xF5; 0xF6; 0x1E6B; 0xF8; 0xF9; 0xFA; 0xFB; 0xFC; 0xFD; 0x177; 0xFF
].
(** ISO-8859-15 *)
Definition iso8859_15 : list N := [
  0x80; 0x81; 0x82; 0x83; 0x84; 0x85; 0x86; 0x87; 0x88; 0x89; 0x8A; 0x8B; 0x8C; 0x8D; 0x8E; 0x8F;
  0x90; 0x91; 0x92; 0x93; 0x94; 0x95; 0x96; 0x97; 0x98; 0x99; 0x9A; 0x9B; 0x9C; 0x9D; 0x9E; 0x9F;
  0xA0; 0xA1; 0xA2; 0xA3; 0x20AC; 0xA5; 0x160; 0xA7; 0x161; 0xA9; 0xAA; 0xAB; 0xAC; 0xAD; 0xAE; 0xAF;
  0xB0; 0xB1; 0xB2; 0xB3; 0x17D; 0xB5; 0xB6; 0xB7; 0x17E; 0xB9; 0xBA; 0xBB; 0x152; 0x153; 0x178; 0xBF;
  0xC0; 0xC1; 0xC2; 0xC3; 0xC4; 0xC5; 0xC6; 0xC7; 0xC8; 0xC9; 0xCA; 0xCB; 0xCC; 0xCD; 0xCE; 0xCF;
  0xD0; 0xD1; 0xD2; 0xD3; 0xD4; 0xD5; 0xD6; 0xD7; 0xD8; 0xD9; 0xDA; 0xDB; 0xDC; 0xDD; 0xDE; 0xDF;
  0xE0; 0xE1; 0xE2; 0xE3; 0xE4; 0xE5; 0xE6; 0xE7; 0xE8; 0xE9; 0xEA; 0xEB; 0xEC; 0xED; 0xEE; 0xEF;
  0xF0; 0xF1; 0xF2; 0xF3; 0xF4; 0xF5; 0xF6; 0xF7; 0xF8; 0xF9; 0xFA; 0xFB; 0xFC; 0xFD; 0xFE; 0xFF
].
(** the part of the standard for the index passed to IsoLatin *)
Definition iso8859 (page : N) : list N :=
  match page with
  | 1 => iso8859_1 | 2 => iso8859_2 | 3 => iso8859_3 | 4 => iso8859_4 | 5 => iso8859_9
  | 6 => iso8859_10 | 7 => iso8859_13 | 8 => iso8859_14 | _ => iso8859_15
  end.
Definition iso8859_char (page b : N) : N :=
  if b <? 128 then b else nth (N.to_nat (b - 128)) (iso8859 page) 0xFFFD.

(** the byte of a character of the upper half, if the standard has one *)
Definition iso8859_byte (page c : N) : option N :=
  find (fun b => iso8859_char page b =? c) (map (fun n => N.of_nat n + 128) (seq 0 128)).
(** the bytes where the table of the code is the one of the standard (C04) *)
Definition iso8859_right (page b : N) : bool := negb (page =? 3) || (b <? 165).

(** Characters a character set can represent *)
Definition representable (cs : charset) (c : N) : Prop :=
  match cs with
  | UTF8 => c < 2 ^ 31
  | UTF16 _ => c <= 0x10FFFF /\ ~ (0xD800 <= c < 0xDC00)
  | UCS2 _ => c < 2 ^ 16
  | UCS4 _ => c < 2 ^ 32
  | IsoLatin p => 0 < c < 128 \/ (128 <= c < 256 /\ exists b, iso8859_byte p c = Some b /\ iso8859_right p b = true)
  end.

(** Encoding of a representable character *)
Definition spec_encode (cs : charset) (c : N) : list N :=
  match cs with
  | UTF8 => spec_utf8 c
  | UTF16 be => spec_utf16 be c
  | UCS2 be => spec_ucs2 be c
  | UCS4 be => spec_ucs4 be c
  | IsoLatin p => if c <? 128 then [c] else match iso8859_byte p c with Some b => [b] | None => [] end
  end.

(** ** Reading of arbitrary bytes as UTF-8 *)

(** number of bytes that follow the first byte [b] >= 0xC0 of a character *)
Definition utf8_following (b : N) : nat :=
  if b <? 0xE0 then 1 else if b <? 0xF0 then 2 else if b <? 0xF8 then 3
  else if b <? 0xFC then 4 else if b <? 0xFE then 5 else if b <? 0xFF then 6 else 7.

(** payload of the first byte *)
Definition utf8_payload (b : N) : N :=
  if b <? 0xE0 then b - 0xC0 else if b <? 0xF0 then b - 0xE0 else if b <? 0xF8 then b - 0xF0
  else if b <? 0xFC then b - 0xF8 else if b <? 0xFE then b - 0xFC else 0.

Definition continuation (b : N) : bool := (0x80 <=? b) && (b <? 0xC0).

(** The character at the start of the text [l] (a null character behind its end) and the number of bytes it takes.
    Malformed sequences are delivered as the character 0x7FFFFFFF. *)
Definition spec_utf8_read (l : list N) : N * nat :=
  match l with
  | [] => (0, 1%nat)
  | b :: t =>
      if b <? 0x80 then (b, 1%nat)
      else if continuation b then (0x7FFFFFFF, 1%nat)
      else
        let k := utf8_following b in
        let f := firstn k (t ++ repeat 0 k) in
        (if forallb continuation f
         then (fold_left (fun v x => v * 64 + (x - 0x80)) f (utf8_payload b)) mod 2 ^ 32
         else 0x7FFFFFFF,
         S k)
  end.

(** the first [n] characters and the number of bytes they take *)
Fixpoint spec_utf8_chars (n : nat) (l : list N) : list N :=
  match n with
  | O => []
  | S n' => fst (spec_utf8_read l) :: spec_utf8_chars n' (skipn (snd (spec_utf8_read l)) l)
  end.
Fixpoint spec_utf8_size (n : nat) (l : list N) : nat :=
  match n with
  | O => O
  | S n' => (snd (spec_utf8_read l) + spec_utf8_size n' (skipn (snd (spec_utf8_read l)) l))%nat
  end.

(** ** Numeric character references *)
(** value of a lower case hexadecimal digit *)
Definition hexval (c : N) : option N :=
  if (48 <=? c) && (c <=? 57) then Some (c - 48)
  else if (97 <=? c) && (c <=? 102) then Some (c - 87) else None.
(** number denoted by a digit sequence *)
Fixpoint hexnum (acc : N) (l : list N) : option N :=
  match l with
  | [] => Some acc
  | c :: l' => match hexval c with Some d => hexnum (acc * 16 + d) l' | None => None end
  end.
(** [text] is the reference &#x...; of the character [c] *)
Definition is_reference (text : list N) (c : N) : Prop :=
  exists digits, digits <> [] /\ text = str "&#x" ++ digits ++ str ";" /\ hexnum 0 digits = Some c.

(** Texts whose multi byte sequences are complete: each first byte from 0xC0 on is followed by as many continuation bytes as it
    announces (all valid UTF-8 texts are of this form) *)
Inductive utf8_sequences : list N -> Prop :=
| us_nil : utf8_sequences []
| us_single : forall b l, b < 0xC0 -> utf8_sequences l -> utf8_sequences (b :: l)
| us_multi : forall b conts l, 0xC0 <= b < 256 -> length conts = utf8_following b ->
    forallb continuation conts = true -> utf8_sequences l -> utf8_sequences (b :: conts ++ l).

(** no restriction for other character sets *)
Definition complete_text (cs : charset) (l : list N) : Prop := cs = UTF8 -> utf8_sequences l.
