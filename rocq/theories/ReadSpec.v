(** Programs of a user of the text scanner and the iterators (specification).

    They call the functions of the public interface only; the theorems speak about their results. *)
From Verif Require Import Base Iter Charset CharMap TextScanner.

Section Reading.
Context {I : Type} (ops : iterops I) (cs : charset).

(** read [n] characters with chr() and skip() *)
Fixpoint readChars (n : nat) (t : tscan I) : out (tscan I) (list N) :=
  match n with
  | O => Ret t []
  | S n' =>
      let! (t1, v) := ts_chr ops cs t in
      let! (t2, u) := ts_skip ops cs t1 in
      let! (t3, vs) := readChars n' t2 in
      Ret t3 (v :: vs)
  end.

(** calls that look at the current character *)
Inductive observer := ObsControl | ObsAscii | ObsChr.
Inductive answer := AnsControl (c : ctl) | AnsCode (n : N).

Definition ask (o : observer) (t : tscan I) : out (tscan I) answer :=
  match o with
  | ObsControl => let! (t1, c) := ts_control ops cs t in Ret t1 (AnsControl c)
  | ObsAscii => let! (t1, c) := ts_ascii ops cs t in Ret t1 (AnsCode c)
  | ObsChr => let! (t1, c) := ts_chr ops cs t in Ret t1 (AnsCode c)
  end.

Fixpoint askAll (os : list observer) (t : tscan I) : out (tscan I) (list answer) :=
  match os with
  | [] => Ret t []
  | o :: os' =>
      let! (t1, a) := ask o t in
      let! (t2, r) := askAll os' t1 in
      Ret t2 (a :: r)
  end.

(** for each list of observers: call them in this order, then skip() *)
Fixpoint session (oss : list (list observer)) (t : tscan I) : out (tscan I) (list (list answer)) :=
  match oss with
  | [] => Ret t []
  | os :: oss' =>
      let! (t1, a) := askAll os t in
      let! (t2, u) := ts_skip ops cs t1 in
      let! (t3, r) := session oss' t2 in
      Ret t3 (a :: r)
  end.
End Reading.

(** iterate: value and position after each of [n] increments *)
Fixpoint increments {I} (ops : iterops I) (n : nat) (i : I) : out I unit :=
  match n with
  | O => Ret i tt
  | S n' => let! (i1, u) := incr ops i in increments ops n' i1
  end.

(** ** Input in chunks: when an operation is interrupted at the end of a chunk, the next chunk is
    supplied and the operation is called again (examples/XMLScanner_chunkwise.cpp). All chunks except the last one
    are passed with an end-of-message jump. *)
Section Chunks.
Context {S : Type} (feed : S -> list N -> bool -> S).

Definition more {A} (l : list A) : bool := match l with [] => false | _ => true end.

Fixpoint resume {A} (op : S -> out S A) (chunks : list (list N)) (s : S) : out (S * list (list N)) A :=
  match op s with
  | Ret s' a => Ret (s', chunks) a
  | Jump s' => match chunks with
               | [] => Jump (s', [])
               | c :: chunks' => resume op chunks' (feed s' c (more chunks'))
               end
  | Throw s' => Throw (s', chunks)
  | Undef => Undef
  | Fuel => Fuel
  end.
End Chunks.

(** setSource with a new iterator on the chunk *)
Definition ts_feed (t : tscan srcit) (c : list N) (eom : bool) : tscan srcit :=
  ts_setSource t (src_make c eom).

(** read [n] characters from a text in chunks *)
Fixpoint readChunked (cs : charset) (n : nat) (st : tscan srcit * list (list N))
  : out (tscan srcit * list (list N)) (list N) :=
  match n with
  | O => Ret st []
  | S n' =>
      let! (st1, v) := resume ts_feed (ts_chr src_ops cs) (snd st) (fst st) in
      let! (st2, u) := resume ts_feed (ts_skip src_ops cs) (snd st1) (fst st1) in
      let! (st3, vs) := readChunked cs n' st2 in
      Ret st3 (v :: vs)
  end.

(** ** A SrcIterator fed with putInput: [k] increments, then the next chunk, for each step *)
Fixpoint src_consume (steps : list (nat * list N * bool)) (i : srcit) : out srcit unit :=
  match steps with
  | [] => Ret i tt
  | (k, c, eom) :: steps' =>
      let! (i1, u) := increments src_ops k i in src_consume steps' (src_putInput i1 c eom)
  end.

(** the chunk that is read at the end, starting with [c0] *)
Definition last_chunk (c0 : list N) (e0 : bool) (steps : list (nat * list N * bool)) : list N * bool :=
  last (map (fun s => (snd (fst s), snd s)) steps) (c0, e0).
(** all chunks before it *)
Definition earlier (c0 : list N) (steps : list (nat * list N * bool)) : list (list N) :=
  removelast (c0 :: map (fun s => snd (fst s)) steps).

