(** Ideal readers: the meaning of a TextScanner without buffering.

    Intermediate layer of the proofs, not part of the model of the code. The state of the
    ideal byte reader is the input from the first byte of the current character on. *)
From Verif Require Import Base Iter CharMap Charset TextScanner.

(** byte [i] of the input, null characters behind the end *)
Definition nb (l : list N) (i : nat) : N := nth i l 0.
(** first [n] bytes, filled up with null characters *)
Definition pad (n : nat) (l : list N) : list N := firstn n (l ++ repeat 0 n).

(** number of bytes of the character at the start of the input *)
Definition clen (cs : charset) (l : list N) : nat :=
  match cs with
  | UTF8 => Nat.max 1 (N.to_nat (nth (N.to_nat (nb l 0)) utf8LengthTab 0%N))
  | UTF16 be => utf16_size_of (nb l (msb be))
  | UCS2 _ => 2
  | UCS4 _ => 4
  | IsoLatin _ => 1
  end%nat.

(** number of bytes read by control() and ascii() *)
Definition alen (cs : charset) (l : list N) : nat :=
  match cs with
  | UTF8 => 1%nat
  | _ => clen cs l
  end.

(** value of the character *)
Definition cval (cs : charset) (l : list N) : N :=
  match cs with
  | UTF8 => utf8_value_of (pad 8 l) (clen UTF8 l)
  | UTF16 be => utf16_value_of be (pad 8 l) (clen (UTF16 be) l)
  | UCS2 be => ucs2_value_of be (pad 8 l)
  | UCS4 be => ucs4_value_of be (pad 8 l)
  | IsoLatin p => match ucharcode p (nb l 0) with Some v => v | None => 0 end
  end.

(** signed ASCII code of the character, 255 for -1 *)
Definition casc (cs : charset) (l : list N) : N :=
  match cs with
  | UTF8 | IsoLatin _ => if 127 <? nb l 0 then 255 else nb l 0
  | _ => ascii_of (cval cs l)
  end.

Definition ctl_of (a : N) : ctl := nth (N.to_nat a) controlCharMap CUndef.
Definition asc_of (a : N) : N := if a <? 128 then a else 0.

(** bytes of the input, what happens at its end, position *)
Record ird := mkIr { ir_l : list N; ir_m : endmode; ir_p : N }.

(** [n] bytes are needed to deliver [a] *)
Definition need {A} (n : nat) (r : ird) (a : A) : out ird A :=
  if Nat.leb n (length (ir_l r)) then Ret r a
  else match ir_m r with
       | EndZero => Ret r a
       | EndJump => Jump r
       | EndUndef => Undef
       end.

Definition ir_skipto (n : nat) (r : ird) : ird :=
  mkIr (skipn n (ir_l r)) (ir_m r) (ir_p r + N.of_nat n).

Definition ir_ops (cs : charset) : readerops ird :=
  mkReaderops
    (fun r => need (alen cs (ir_l r)) r (ctl_of (casc cs (ir_l r))))
    (fun r => need (alen cs (ir_l r)) r (asc_of (casc cs (ir_l r))))
    (fun r => need (clen cs (ir_l r)) r (cval cs (ir_l r)))
    (fun r => need (clen cs (ir_l r)) r (pad (clen cs (ir_l r)) (ir_l r)))
    (fun r => let! (r1, u) := need (alen cs (ir_l r)) r tt in
              Ret (ir_skipto (clen cs (ir_l r)) r1) tt)
    (fun r => u64 (ir_p r)).

(** *** Reader over decoded characters *)
Record uchr := mkU { u_asc : N; u_val : N; u_raw : list N; u_len : N }.

(** the character at the start of the input *)
Definition dec (cs : charset) (l : list N) : uchr :=
  mkU (casc cs l) (cval cs l) (pad (clen cs l) l) (N.of_nat (clen cs l)).

Fixpoint units_n (n : nat) (cs : charset) (l : list N) : list uchr :=
  match n, l with
  | S n', _ :: _ => dec cs l :: units_n n' cs (skipn (clen cs l) l)
  | _, _ => []
  end.
(** all characters of an input *)
Definition units (cs : charset) (l : list N) : list uchr := units_n (length l) cs l.

Record urd := mkUr { ur_l : list uchr; ur_p : N }.
Definition ucur (e : uchr) (r : urd) : uchr := hd e (ur_l r).

(** [e] is the character delivered at the end of the input *)
Definition ur_ops (e : uchr) : readerops urd :=
  mkReaderops
    (fun r => Ret r (ctl_of (u_asc (ucur e r))))
    (fun r => Ret r (asc_of (u_asc (ucur e r))))
    (fun r => Ret r (u_val (ucur e r)))
    (fun r => Ret r (u_raw (ucur e r)))
    (fun r => Ret (mkUr (tl (ur_l r)) (ur_p r + u_len (ucur e r))) tt)
    (fun r => u64 (ur_p r)).

(** *** Relations between outcomes *)
Inductive orel {S T A : Type} (RR RJ : S -> T -> Prop) : out S A -> out T A -> Prop :=
| orel_ret : forall s t a, RR s t -> orel RR RJ (Ret s a) (Ret t a)
| orel_jump : forall s t, RJ s t -> orel RR RJ (Jump s) (Jump t)
| orel_throw : forall s t, RJ s t -> orel RR RJ (Throw s) (Throw t)
| orel_undef : orel RR RJ Undef Undef
| orel_fuel : orel RR RJ Fuel Fuel.

(** Relation of two readers: [rel] holds between two calls, [relp] holds after a character
    has been looked at with control() or ascii(), as XMLScanner always does before it calls
    skip() or copychar(). [relj] holds after an operation has been interrupted at the end of the
    input. [prel] is the relation of the positions. *)
Record rsim {R T : Type} (prel : N -> N -> Prop) (o1 : readerops R) (o2 : readerops T)
  (rel relp relj : R -> T -> Prop) : Prop := mkRsim {
  rs_weak : forall r t, relp r t -> rel r t;
  rs_control : forall r t, rel r t -> orel relp relj (r_control o1 r) (r_control o2 t);
  rs_ascii : forall r t, rel r t -> orel relp relj (r_ascii o1 r) (r_ascii o2 t);
  rs_chr : forall r t, rel r t -> orel relp relj (r_chr o1 r) (r_chr o2 t);
  rs_raw : forall r t, relp r t -> orel relp relj (r_raw o1 r) (r_raw o2 t);
  rs_skip : forall r t, relp r t -> orel rel relj (r_skip o1 r) (r_skip o2 t);
  rs_pos : forall r t, rel r t -> prel (r_pos o1 r) (r_pos o2 t)
}.

(** the same without the copying of characters *)
Record rsimc {R T : Type} (prel : N -> N -> Prop) (o1 : readerops R) (o2 : readerops T)
  (rel relp relj : R -> T -> Prop) : Prop := mkRsimc {
  rc_weak : forall r t, relp r t -> rel r t;
  rc_control : forall r t, rel r t -> orel relp relj (r_control o1 r) (r_control o2 t);
  rc_ascii : forall r t, rel r t -> orel relp relj (r_ascii o1 r) (r_ascii o2 t);
  rc_skip : forall r t, relp r t -> orel rel relj (r_skip o1 r) (r_skip o2 t);
  rc_pos : forall r t, rel r t -> prel (r_pos o1 r) (r_pos o2 t)
}.
