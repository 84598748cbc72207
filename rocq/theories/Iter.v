(** Source iterators (model). *)
From Verif Require Import Base.

(** What TextScanner requires from its template parameter Iterator:
    element access, pre-increment (textscanner.hpp:65) and the position
    given by Traits<Iterator>::getPosition (textscanner.hpp:23-60). *)
Record iterops (I : Type) := mkIterops {
  deref : I -> out I N;
  incr : I -> out I unit;
  ipos : I -> N
}.
Arguments deref {I}. Arguments incr {I}. Arguments ipos {I}.
Arguments mkIterops {I}.

(** ** Byte stream: the common specification of the iterators.
    The bytes not read yet, what happens behind the last byte, and the number of
    increments done. It is the meaning the documentation gives to the template
    parameter InputIterator (xmlscanner.hpp:420). *)
Inductive endmode := EndZero | EndJump | EndUndef.

Record stream := mkStream { rest : list N; emode : endmode; spos : N }.

Definition stream_deref (s : stream) : out stream N :=
  match rest s with
  | b :: _ => Ret s b
  | [] => match emode s with
          | EndZero => Ret s 0
          | EndJump => Jump s
          | EndUndef => Undef
          end
  end.

Definition stream_incr (s : stream) : out stream unit :=
  Ret (mkStream (tl (rest s)) (emode s) (spos s + 1)) tt.

Definition stream_ops : iterops stream := mkIterops stream_deref stream_incr spos.

(** ** CStringIterator, cstringiterator.hpp:23-91.
    m_src is a list of at least m_size bytes, m_size and m_pos are unsigned int. *)
Record cstr := mkCstr { cs_src : list N; cs_size : N; cs_pos : N }.

(** CStringIterator( const char*, unsigned int) lines 35-38 and
    CStringIterator( const std::string&) lines 49-52: the size is converted to unsigned int *)
Definition cstr_make (src : list N) : cstr :=
  mkCstr src (u32 (N.of_nat (length src))) 0.

(** lines 63-66; reading m_src outside of the text is undefined *)
Definition cstr_deref (i : cstr) : out cstr N :=
  if cs_pos i <? cs_size i
  then match nth_error (cs_src i) (N.to_nat (cs_pos i)) with
       | Some b => Ret i b
       | None => Undef
       end
  else Ret i 0.

(** lines 69-73 *)
Definition cstr_incr (i : cstr) : out cstr unit :=
  Ret (mkCstr (cs_src i) (cs_size i) (u32 (cs_pos i + 1))) tt.

(** line 76 *)
Definition cstr_ops : iterops cstr := mkIterops cstr_deref cstr_incr cs_pos.

(** line 79: void pos( unsigned int) *)
Definition cstr_setpos (i : cstr) (p : N) : cstr :=
  mkCstr (cs_src i) (cs_size i) (if u32 p <? cs_size i then u32 p else cs_size i).

(** ** char*: a pointer into a text in memory; [cp_mem] are the bytes from the start of the
    iteration to the end of the memory object. Traits<char*> textscanner.hpp:27-33. *)
Record cptr := mkCptr { cp_mem : list N; cp_pos : N }.

Definition cptr_deref (i : cptr) : out cptr N :=
  match nth_error (cp_mem i) (N.to_nat (cp_pos i)) with
  | Some b => Ret i b
  | None => Undef
  end.

(** Incrementing a pointer further than one behind the end of its object is undefined in
    C++; it is not observable before the next access, where the model reports it. *)
Definition cptr_incr (i : cptr) : out cptr unit :=
  Ret (mkCptr (cp_mem i) (cp_pos i + 1)) tt.

Definition cptr_ops : iterops cptr := mkIterops cptr_deref cptr_incr cp_pos.

(** ** SrcIterator, sourceiterator.hpp:25-128. Chunk [si_buf] = [m_start,m_end),
    [si_itr] = m_itr - m_start, [si_eom] = (m_eom != 0), [si_abs] = m_abspos. *)
Record srcit := mkSrc { si_buf : list N; si_itr : N; si_eom : bool; si_abs : N }.

(** lines 50-55 *)
Definition src_make (buf : list N) (eom : bool) : srcit :=
  mkSrc buf 0 eom (N.of_nat (length buf)).

(** lines 30-35 *)
Definition src_empty : srcit := mkSrc [] 0 false 0.

(** lines 69-77 *)
Definition src_deref (i : srcit) : out srcit N :=
  match nth_error (si_buf i) (N.to_nat (si_itr i)) with
  | Some b => Ret i b
  | None => if si_eom i then Jump i else Ret i 0
  end.

(** lines 80-84 *)
Definition src_incr (i : srcit) : out srcit unit :=
  Ret (mkSrc (si_buf i) (si_itr i + 1) (si_eom i) (si_abs i)) tt.

(** lines 97-103 *)
Definition src_putInput (i : srcit) (buf : list N) (eom : bool) : srcit :=
  mkSrc buf 0 eom (u64 (si_abs i + N.of_nat (length buf))).

(** lines 107-110 *)
Definition src_getPosition (i : srcit) : N :=
  if si_itr i <=? N.of_nat (length (si_buf i)) then si_itr i else 0.

(** lines 112-115; m_end - m_itr is a signed difference converted to the unsigned PositionIndex *)
Definition src_position (i : srcit) : N :=
  u64 (sub64 (si_abs i) (N.of_nat (length (si_buf i))) + si_itr i).

(** lines 117-120 *)
Definition src_endOfChunk (i : srcit) : bool :=
  N.of_nat (length (si_buf i)) <=? si_itr i.

Definition src_ops : iterops srcit := mkIterops src_deref src_incr src_position.

(** ** IStreamIterator, istreamiterator.hpp:95-173.
    The IStream is an oracle: the list of results of its future read calls, each at most
    bufsize bytes, with an error flag for errorcode() after the read (lines 30-36).
    Behind the end of the list the stream is at end of file (read returns 0, no error). *)
Record rdres := mkRd { rd_data : list N; rd_err : bool }.

Record istrm := mkIs {
  is_input : list rdres;     (* future of m_input *)
  is_buf : list N;           (* m_buf[0..m_readsize) *)
  is_bufsize : N;            (* m_bufsize *)
  is_readpos : N;            (* m_readpos *)
  is_abs : N                 (* m_abspos *)
}.

(** lines 157-164 *)
Definition istrm_fillbuf (i : istrm) : out istrm unit :=
  let abs := u64 (is_abs i + N.of_nat (length (is_buf i))) in
  match is_input i with
  | [] => Ret (mkIs [] [] (is_bufsize i) 0 abs) tt
  | r :: rs =>
      let i' := mkIs rs (rd_data r) (is_bufsize i) 0 abs in
      if is_bufsize i <? N.of_nat (length (rd_data r)) then Undef
      else if rd_err r then Throw i' else Ret i' tt
  end.

(** lines 109-114 *)
Definition istrm_make (input : list rdres) (bufsize : N) : out istrm unit :=
  istrm_fillbuf (mkIs input [] bufsize 0 0).

(** lines 127-130 *)
Definition istrm_deref (i : istrm) : out istrm N :=
  match nth_error (is_buf i) (N.to_nat (is_readpos i)) with
  | Some b => Ret i b
  | None => Ret i 0
  end.

(** lines 133-144 *)
Definition istrm_incr (i : istrm) : out istrm unit :=
  if N.of_nat (length (is_buf i)) <=? is_readpos i + 1
  then istrm_fillbuf i
  else Ret (mkIs (is_input i) (is_buf i) (is_bufsize i) (is_readpos i + 1) (is_abs i)) tt.

(** lines 151-154 *)
Definition istrm_position (i : istrm) : N := u64 (is_abs i + is_readpos i).

Definition istrm_ops : iterops istrm := mkIterops istrm_deref istrm_incr istrm_position.
