(** StaticBuffer: staticbuffer.hpp (model). *)
From Verif Require Import Base.

(** class StaticBuffer, members staticbuffer.hpp:144-148. The memory m_ar points to is a list of bytes; m_allocated is only used by the
    destructor and is left out. malloc and calloc are assumed to succeed. *)
Record sbuf := mkSb { sb_pos : N; sb_size : N; sb_mem : list N; sb_over : bool }.

(** StaticBuffer( n), lines 28-33 *)
Definition sb_new (n : N) : sbuf := mkSb 0 n (repeat 0 (N.to_nat n)) false.
(** StaticBuffer( p, n, i), lines 36-41; [mem] is the memory at p. Nothing is checked. *)
Definition sb_of (mem : list N) (n i : N) : sbuf := mkSb i n mem false.
(** copy constructor, lines 44-54: memcpy of m_size bytes *)
Definition sb_copy (b : sbuf) : out sbuf sbuf :=
  if sb_size b <=? N.of_nat (length (sb_mem b))
  then Ret b (mkSb (sb_pos b) (sb_size b) (firstn (N.to_nat (sb_size b)) (sb_mem b)) (sb_over b))
  else Undef.
(** clear, lines 63-67 *)
Definition sb_clear (b : sbuf) : sbuf := mkSb 0 (sb_size b) (sb_mem b) false.

(** memcpy( m_ar+pos, bytes) and m_ar[pos] = byte *)
Definition mem_write (mem : list N) (pos : N) (bytes : list N) : option (list N) :=
  if pos + N.of_nat (length bytes) <=? N.of_nat (length mem)
  then Some (firstn (N.to_nat pos) mem ++ bytes ++ skipn (N.to_nat pos + length bytes) mem)
  else None.

(** push_back, lines 71-81 *)
Definition sb_push (c : N) (b : sbuf) : out sbuf unit :=
  if sb_pos b <? sb_size b
  then match mem_write (sb_mem b) (sb_pos b) [c] with
       | Some m => Ret (mkSb (u64 (sb_pos b + 1)) (sb_size b) m (sb_over b)) tt
       | None => Undef
       end
  else Ret (mkSb (sb_pos b) (sb_size b) (sb_mem b) true) tt.

(** append, lines 86-95. If the size to copy is bigger than the source, the source is left. *)
Definition sb_append (cc : list N) (b : sbuf) : out sbuf unit :=
  let n := N.of_nat (length cc) in
  let cut := sb_size b <? u64 (sb_pos b + n) in
  let n' := if cut then sub64 (sb_size b) (sb_pos b) else n in
  if n <? n' then Undef
  else match mem_write (sb_mem b) (sb_pos b) (firstn (N.to_nat n') cc) with
       | Some m => Ret (mkSb (u64 (sb_pos b + n')) (sb_size b) m (sb_over b || cut)) tt
       | None => Undef
       end.

(** size, line 99; overflow, line 141 *)
Definition sb_getSize (b : sbuf) : N := sb_pos b.
Definition sb_overflow (b : sbuf) : bool := sb_over b.
(** the first size() bytes at ptr(), line 103 *)
Definition sb_content (b : sbuf) : list N := firstn (N.to_nat (sb_pos b)) (sb_mem b).

(** the loop of resize, line 117 *)
Fixpoint sb_pushes (k : nat) (c : N) (b : sbuf) : out sbuf unit :=
  match k with
  | O => Ret b tt
  | S k' => let! (b1, u) := sb_push c b in sb_pushes k' c b1
  end.
(** resize, lines 108-119 *)
Definition sb_resize (n c : N) (b : sbuf) : out sbuf unit :=
  if n <? sb_pos b then Ret (mkSb n (sb_size b) (sb_mem b) (sb_over b)) tt
  else let n' := if sb_size b <? n then sb_size b else n in
       sb_pushes (N.to_nat (n' - sb_pos b)) c b.

(** operator[], lines 124-128, and at, lines 133-137 (read access) *)
Definition sb_at (i : N) (b : sbuf) : out sbuf N :=
  if sb_pos b <? i then Throw b
  else match nth_error (sb_mem b) (N.to_nat i) with
       | Some c => Ret b c
       | None => Undef
       end.
(** write access with the reference at( i) *)
Definition sb_put (i c : N) (b : sbuf) : out sbuf unit :=
  if sb_pos b <? i then Throw b
  else match mem_write (sb_mem b) i [c] with
       | Some m => Ret (mkSb (sb_pos b) (sb_size b) m (sb_over b)) tt
       | None => Undef
       end.
