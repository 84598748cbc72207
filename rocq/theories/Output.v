(** The buffers the printer writes to: StaticBuffer and OstreamOutput (model). *)
From Verif Require Import Base Charset StaticBuffer XmlPrinter PrintSpec.

(** A std::ostream as far as operator<< of a single character needs it: the field width, the fill character, whether the adjustfield is left, the bytes
    written, how many bytes the device still takes ([None]: any number) and the bits badbit or failbit. *)
Record ostream := mkOs { os_width : N; os_fill : N; os_left : bool; os_bytes : list N; os_room : option N; os_bad : bool }.

(** bytes written to the device; badbit is set if it does not take all of them *)
Definition os_write (l : list N) (s : ostream) : ostream :=
  match os_room s with
  | None => mkOs (os_width s) (os_fill s) (os_left s) (os_bytes s ++ l) None (os_bad s)
  | Some r => let n := N.min r (N.of_nat (length l)) in
              mkOs (os_width s) (os_fill s) (os_left s) (os_bytes s ++ firstn (N.to_nat n) l) (Some (r - n)) (os_bad s || (r <? N.of_nat (length l)))
  end.
(** operator<<( std::ostream&, char): formatted output. Nothing is done if the stream is not good; the character is padded to the field width, which is
    set to 0. *)
Definition os_put (c : N) (s : ostream) : ostream :=
  if os_bad s then s
  else let pad := repeat (os_fill s) (N.to_nat (os_width s - 1)) in
       let s1 := os_write (if os_left s then c :: pad else pad ++ [c]) s in
       mkOs 0 (os_fill s1) (os_left s1) (os_bytes s1) (os_room s1) (os_bad s1).
(** OstreamOutput::push_back, ostreamoutput.hpp:36-39 *)
Definition oo_push (c : N) (s : ostream) : out ostream unit := Ret (os_put c s) tt.
(** OstreamOutput::append, ostreamoutput.hpp:44-51 *)
Definition oo_append (cc : list N) (s : ostream) : out ostream unit := Ret (fold_left (fun s c => os_put c s) cc s) tt.

(** All character sets append what they print with push_back, one byte after the other (charset_*.hpp, print). *)
Section Into.
Context {B : Type} (push : N -> B -> out B unit) (ocs acs : charset).
Fixpoint push_all (l : list N) (b : B) : out B unit :=
  match l with
  | [] => Ret b tt
  | c :: l' => let! (b1, u) := push c b in push_all l' b1
  end.
(** a call of the printer with the buffer: the bytes it prints are appended, the result is the one of the printer (xmlprinter.hpp:165-339; the result of
    push_back is not looked at) *)
Definition p_into (c : pcall) (pb : printer * B) : out (printer * B) bool :=
  match p_do ocs acs c (fst pb) with
  | Ret p1 r => omap (fun b => (p1, b)) (let! (b1, u) := push_all (snd r) (snd pb) in Ret b1 (fst r))
  | Jump p1 => Jump (p1, snd pb)
  | Throw p1 => Throw (p1, snd pb)
  | Undef => Undef
  | Fuel => Fuel
  end.
Fixpoint p_run_into (l : list pcall) (pb : printer * B) : out (printer * B) (list bool) :=
  match l with
  | [] => Ret pb []
  | c :: l' => let! (pb1, r) := p_into c pb in let! (pb2, rs) := p_run_into l' pb1 in Ret pb2 (r :: rs)
  end.
End Into.
