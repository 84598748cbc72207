(** Differences of source iterators (model). *)
From Verif Require Import Base Iter.

(** Conversion to int (of two's complement, 32 bit) *)
Definition to_int (z : Z) : Z := let v := (z mod 2 ^ 32)%Z in if (v <? 2 ^ 31)%Z then v else (v - 2 ^ 32)%Z.

(** CStringIterator::operator-, cstringiterator.hpp:81-85; [same] tells if both have the same pointer m_src *)
Definition cstr_diff (same : bool) (i o : cstr) : Z := if same then to_int (Z.of_N (sub32 (cs_pos i) (cs_pos o))) else 0%Z.

(** IStreamIterator::operator-, istreamiterator.hpp:146-149: m_readpos is converted to int and back to size_t for the subtraction with a size_t, the result to int *)
Definition istrm_diff (i o : istrm) : Z := to_int ((to_int (Z.of_N (is_readpos i)) - Z.of_N (is_readpos o)) mod 2 ^ 64).

(** SrcIterator::operator-, sourceiterator.hpp:87-91; [at_i] and [at_o] are the addresses of the chunks (m_start). The pointers are compared as numbers, also if they
    point to different objects. *)
Definition src_diff (at_i at_o : N) (i o : srcit) : out unit N :=
  if negb (at_o + N.of_nat (length (si_buf o)) =? at_i + N.of_nat (length (si_buf i))) || (at_i + si_itr i <? at_o + si_itr o) then Throw tt
  else Ret tt (at_i + si_itr i - (at_o + si_itr o)).
