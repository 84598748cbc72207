(** SrcIterator and char* with undefined pointer arithmetic (model).
    In Iter.v an increment beyond the end of the chunk or of the memory has no effect of its own. In C++ a pointer must not get further than one
    behind the last byte of the memory it points into; here such an increment is undefined. *)
From Verif Require Import Base Iter.

(** sourceiterator.hpp:80-84: ++m_itr is undefined for m_itr = m_end, if the memory of the caller ends with the chunk *)
Definition srcs_incr (i : srcit) : out srcit unit :=
  if si_itr i <? N.of_nat (length (si_buf i)) then src_incr i else Undef.

(** All else is as in Iter.v: lines 69-77 compare the pointers before the access *)
Definition srcs_ops : iterops srcit := mkIterops src_deref srcs_incr src_position.

(** ++ of a char*, e.g. charset_utf8.hpp:84 *)
Definition cptrs_incr (i : cptr) : out cptr unit :=
  if cp_pos i <? N.of_nat (length (cp_mem i)) then cptr_incr i else Undef.
Definition cptrs_ops : iterops cptr := mkIterops cptr_deref cptrs_incr cp_pos.
