(** Common definitions of the model: outcomes of operations, machine integers,
    byte lists. *)
From Coq Require Export String Ascii.
From Coq Require Export NArith ZArith List Bool Lia.
From Coq Require Export ZifyBool ZifyNat ZifyN.
Export ListNotations.
Open Scope N_scope.
Open Scope list_scope.

Arguments N.add : simpl never.
Arguments N.sub : simpl never.
Arguments N.mul : simpl never.
Arguments N.div : simpl never.
Arguments N.modulo : simpl never.
Arguments N.pow : simpl never.
Arguments N.eqb : simpl nomatch.
Arguments N.ltb : simpl nomatch.
Arguments N.leb : simpl nomatch.

(** Result of an operation on a state of type [S] delivering an [A].
    - [Ret]: normal return.
    - [Jump]: longjmp from SrcIterator::operator* (sourceiterator.hpp:73), with
      the state as it is at the moment of the jump.
    - [Throw]: C++ exception propagated to the caller.
    - [Undef]: undefined behaviour (access outside of an array or text).
    - [Fuel]: the bound given for a loop without structural bound is exhausted. *)
Inductive out (S A : Type) : Type :=
| Ret (s : S) (a : A)
| Jump (s : S)
| Throw (s : S)
| Undef
| Fuel.
Arguments Ret {S A} s a.
Arguments Jump {S A} s.
Arguments Throw {S A} s.
Arguments Undef {S A}.
Arguments Fuel {S A}.

Definition bind {S A B} (m : out S A) (f : S -> A -> out S B) : out S B :=
  match m with
  | Ret s a => f s a
  | Jump s => Jump s
  | Throw s => Throw s
  | Undef => Undef
  | Fuel => Fuel
  end.

Notation "'let!' ( s , x ) := m 'in' k" := (bind m (fun s x => k))
  (at level 200, s name, x name, m at level 100, k at level 200,
   format "'[v' 'let!'  ( s ,  x )  :=  m  'in' '/' k ']'").

(** Map the state component (used to embed an operation on a member of an object) *)
Definition omap {S T A} (f : S -> T) (m : out S A) : out T A :=
  match m with
  | Ret s a => Ret (f s) a
  | Jump s => Jump (f s)
  | Throw s => Throw (f s)
  | Undef => Undef
  | Fuel => Fuel
  end.

(** Machine integers: values are kept in [N], conversions are explicit *)
Definition u8 (x : N) : N := x mod 2 ^ 8.
Definition u16 (x : N) : N := x mod 2 ^ 16.
Definition u32 (x : N) : N := x mod 2 ^ 32.
Definition u64 (x : N) : N := x mod 2 ^ 64.
(** unsigned 32 bit and 64 bit subtraction *)
Definition sub32 (x y : N) : N := u32 (x + (2 ^ 32 - u32 y)).
Definition sub64 (x y : N) : N := u64 (x + (2 ^ 64 - u64 y)).

(** Assignment of an array element (array given as list) *)
Fixpoint upd {A} (i : nat) (x : A) (l : list A) : list A :=
  match l, i with
  | [], _ => []
  | _ :: l', O => x :: l'
  | y :: l', S i' => y :: upd i' x l'
  end.

(** Bytes of an ASCII string literal *)
Fixpoint str (s : string) : list N :=
  match s with
  | EmptyString => []
  | String a s' => N_of_ascii a :: str s'
  end.

Definition isByte (b : N) : Prop := b < 256.

(** Character literals *)
Definition ch (s : string) : N := hd 0 (str s).
