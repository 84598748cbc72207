(** TextScanner: textscanner.hpp (model). *)
From Verif Require Import Base Iter CharMap Charset.

(** What XMLScanner uses of its InputReader (xmlscanner.hpp:485). [r_raw] is the part of
    TextScanner::copychar for equal character sets: the bytes of the current character. *)
Record readerops (R : Type) := mkReaderops {
  r_control : R -> out R ctl;
  r_ascii : R -> out R N;
  r_chr : R -> out R N;
  r_raw : R -> out R (list N);
  r_skip : R -> out R unit;
  r_pos : R -> N
}.
Arguments mkReaderops {R}.
Arguments r_control {R}. Arguments r_ascii {R}. Arguments r_chr {R}.
Arguments r_raw {R}. Arguments r_skip {R}. Arguments r_pos {R}.

(** class TextScanner, textscanner.hpp:68-77. The members buf, state and input are in [ts_rd].
    The member start is only used for the position of char* and is 0 in the model. *)
Record tscan (I : Type) := mkTs { ts_rd : rd I; ts_val : N; ts_cur : N }.
Arguments mkTs {I}. Arguments ts_rd {I}. Arguments ts_val {I}. Arguments ts_cur {I}.

Section WithIterator.
Context {I : Type} (ops : iterops I) (cs : charset).

(** constructor, lines 118-122 *)
Definition ts_make (i : I) : tscan I := mkTs (mkRdr (repeat 0 8) 0 i) 0 0.

(** setSource, lines 146-150: the state is kept *)
Definition ts_setSource (t : tscan I) (i : I) : tscan I :=
  mkTs (rd_it (ts_rd t) i) (ts_val t) (ts_cur t).

(** getPosition, lines 154-157 *)
Definition ts_position (t : tscan I) : N :=
  sub64 (ipos ops (rit (ts_rd t))) (N.of_nat (rpos (ts_rd t))).

Definition ts_lift {A} (t : tscan I) (m : out (rd I) A) : out (tscan I) A :=
  omap (fun r => mkTs r (ts_val t) (ts_cur t)) m.

(** chr, lines 161-168 *)
Definition ts_chr (t : tscan I) : out (tscan I) N :=
  if ts_val t =? 0
  then let! (t1, v) := ts_lift t (cs_value ops cs (ts_rd t)) in
       Ret (mkTs (ts_rd t1) v (ts_cur t1)) v
  else Ret t (ts_val t).

(** getcur, lines 171-174 *)
Definition ts_getcur (t : tscan I) : out (tscan I) unit :=
  let! (t1, c) := ts_lift t (cs_ascii ops cs (ts_rd t)) in
  Ret (mkTs (ts_rd t1) (ts_val t1) c) tt.

(** control, lines 218-223 *)
Definition ts_control (t : tscan I) : out (tscan I) ctl :=
  let! (t1, u) := ts_getcur t in
  match cm_get controlCharMap (ts_cur t1) with
  | Some c => Ret t1 c
  | None => Undef
  end.

(** ascii, lines 227-231; the signed char -1 is 255 in the model *)
Definition ts_ascii (t : tscan I) : out (tscan I) N :=
  let! (t1, u) := ts_getcur t in
  Ret t1 (if ts_cur t1 <? 128 then ts_cur t1 else 0).

(** skip, lines 235-242 *)
Definition ts_skip (t : tscan I) : out (tscan I) unit :=
  let! (t1, u) := ts_lift t (cs_skip ops cs (ts_rd t)) in
  Ret (mkTs (mkRdr (rbuf (ts_rd t1)) 0 (rit (ts_rd t1))) 0 0) tt.

(** copychar with equal character sets, lines 199-208 *)
Definition ts_raw (t : tscan I) : out (tscan I) (list N) :=
  let! (t1, u) := ts_lift t (cs_fetch ops cs (ts_rd t)) in
  Ret t1 (firstn (rpos (ts_rd t1)) (rbuf (ts_rd t1))).

(** copychar, lines 192-214: the bytes pushed to the output buffer *)
Definition ts_copychar (output : charset) (t : tscan I) : out (tscan I) (list N) :=
  if cs_is_equal cs output then ts_raw t
  else let! (t1, v) := ts_chr t in Ret t1 (cs_print output v).

Definition ts_ops : readerops (tscan I) :=
  mkReaderops ts_control ts_ascii ts_chr ts_raw ts_skip ts_position.
End WithIterator.
