(** Model of the input from a std::istream: StdInputStream, and IStreamIterator on it, istreamiterator.hpp:28-173. *)
From Verif Require Import Base Iter.

(** The std::istream of the C++ library as far as it is used: [in_rest] are the bytes the device still delivers, [in_fail] tells what
    happens behind them: the end of the file, or an error of the device that leaves this value in errno (and no other function
    changes errno). [in_eof] is eofbit, [in_bad] is badbit; the exceptions of failbit, badbit and eofbit are switched on by the
    constructor of StdInputStream, lines 45-46. *)
Record istate := mkIn { in_rest : list N; in_fail : option N; in_eof : bool; in_bad : bool }.

(** result of std::istream::read as seen by StdInputStream::read: gcount() with the bytes written, exception thrown? *)
Definition in_read (s : istate) (n : N) : istate * list N * bool :=
  if in_eof s || in_bad s then (s, [], true)
  else if n <=? N.of_nat (length (in_rest s))
  then (mkIn (skipn (N.to_nat n) (in_rest s)) (in_fail s) false false, firstn (N.to_nat n) (in_rest s), false)
  else match in_fail s with
       | None => (mkIn [] None true false, in_rest s, true)
       | Some e => (mkIn [] (Some e) false true, in_rest s, true)
       end.

(** errno when the device has failed *)
Definition in_errno (s : istate) : N := match in_fail s with Some e => e | None => 0 end.

(** StdInputStream::read and errorcode(), lines 51-79: the bytes counted and m_errno *)
Definition std_read (s : istate) (n : N) : istate * list N * N :=
  let '(s', data, thrown) := in_read s n in
  if thrown
  then if in_eof s' then (s', data, 0) else (s', [], in_errno s')
  else (s', data, 0).

(** IStreamIterator on a StdInputStream, lines 95-173; the fields are those of [istrm] with the stream itself in place of the
    list of future results *)
Record fistrm := mkFs { fi_in : istate; fi_buf : list N; fi_bufsize : N; fi_readpos : N; fi_abs : N }.

(** lines 157-164 *)
Definition fistrm_fillbuf (i : fistrm) : out fistrm unit :=
  let abs := u64 (fi_abs i + N.of_nat (length (fi_buf i))) in
  let '(s, data, errno) := std_read (fi_in i) (fi_bufsize i) in
  let i' := mkFs s data (fi_bufsize i) 0 abs in
  if errno =? 0 then Ret i' tt else Throw i'.

(** lines 109-114 *)
Definition fistrm_make (s : istate) (bufsize : N) : out fistrm unit := fistrm_fillbuf (mkFs s [] bufsize 0 0).

(** lines 127-130 *)
Definition fistrm_deref (i : fistrm) : out fistrm N :=
  match nth_error (fi_buf i) (N.to_nat (fi_readpos i)) with
  | Some b => Ret i b
  | None => Ret i 0
  end.

(** lines 133-144 *)
Definition fistrm_incr (i : fistrm) : out fistrm unit :=
  if N.of_nat (length (fi_buf i)) <=? fi_readpos i + 1
  then fistrm_fillbuf i
  else Ret (mkFs (fi_in i) (fi_buf i) (fi_bufsize i) (fi_readpos i + 1) (fi_abs i)) tt.

(** lines 151-154 *)
Definition fistrm_position (i : fistrm) : N := u64 (fi_abs i + fi_readpos i).

Definition fistrm_ops : iterops fistrm := mkIterops fistrm_deref fistrm_incr fistrm_position.

(** a file that has been opened *)
Definition file (data : list N) : istate := mkIn data None false false.
(** a file on a device that fails behind [data] *)
Definition failing_file (data : list N) (errno : N) : istate := mkIn data (Some errno) false false.

(** ** Copies of an IStreamIterator, lines 118-123. Both share the stream. The bytes behind m_readsize are not copied; they are not
    read either. The two iterators are modelled as a pair with the stream they share: the field [fi_in] of the one not in use
    is replaced when it is used next. *)
Inductive which := Orig | Copy.
Record twoits := mkTwo { tw_orig : fistrm; tw_copy : fistrm }.
Definition with_in (s : istate) (i : fistrm) : fistrm := mkFs s (fi_buf i) (fi_bufsize i) (fi_readpos i) (fi_abs i).
Definition fistrm_copy (i : fistrm) : twoits := mkTwo i (mkFs (fi_in i) (fi_buf i) (fi_bufsize i) (fi_readpos i) (fi_abs i)).
Definition two_incr (w : which) (t : twoits) : out twoits unit :=
  match w with
  | Orig => omap (fun i => mkTwo i (with_in (fi_in i) (tw_copy t))) (fistrm_incr (tw_orig t))
  | Copy => omap (fun i => mkTwo (with_in (fi_in i) (tw_orig t)) i) (fistrm_incr (tw_copy t))
  end.
Definition two_deref (w : which) (t : twoits) : N :=
  match fistrm_deref (match w with Orig => tw_orig t | Copy => tw_copy t end) with Ret _ b => b | _ => 0 end.
