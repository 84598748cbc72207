(** TagStack: xmltagstack.hpp (model). *)
From Verif Require Import Base StaticBuffer.

(** class TagStack, members xmltagstack.hpp:115-117. The memory is a list of bytes of the size allocated; malloc and realloc
    are assumed to succeed and deliver aligned memory, the bytes not initialised are modelled as 0. *)
Record tagstack := mkTs { tg_mem : list N; tg_pos : N; tg_size : N }.

(** default constructor, lines 34-38; InitSize, line 114 *)
Definition tg_new : tagstack := mkTs (repeat 0 256) 0 256.
(** copy constructor, lines 40-45 *)
Definition tg_copy (t : tagstack) : out tagstack tagstack :=
  if (tg_pos t <=? N.of_nat (length (tg_mem t))) && (tg_pos t <=? tg_size t)
  then Ret t (mkTs (firstn (N.to_nat (tg_pos t)) (tg_mem t) ++ repeat 0 (N.to_nat (tg_size t - tg_pos t))) (tg_pos t) (tg_size t))
  else Undef.

(** getAlign, lines 119-122 *)
Definition getAlign (n : N) : N := N.land (sub64 8 (N.land n 7)) 7.

(** an object of type size_t in memory: little endian, 8 bytes, aligned *)
Fixpoint le_bytes (k : nat) (n : N) : list N :=
  match k with
  | O => []
  | S k' => n mod 256 :: le_bytes k' (n / 256)
  end.
Fixpoint le_value (l : list N) : N :=
  match l with
  | [] => 0
  | b :: l' => b + 256 * le_value l'
  end.
Definition write_size (mem : list N) (p n : N) : option (list N) :=
  if p mod 8 =? 0 then mem_write mem p (le_bytes 8 n) else None.
Definition read_size (mem : list N) (p : N) : option N :=
  if (p mod 8 =? 0) && (p + 8 <=? N.of_nat (length mem)) then Some (le_value (firstn 8 (skipn (N.to_nat p) mem))) else None.

(** the loop of line 56: m_size *= 2. A size of 0 is never left. *)
Fixpoint tg_grow (fuel : nat) (need size : N) : option N :=
  if need <=? size then Some size
  else match fuel with
       | O => None
       | S f => tg_grow f need (u64 (size * 2))
       end.

(** push, lines 50-68 *)
Definition tg_push (pp : list N) (t : tagstack) : out tagstack unit :=
  let nn := N.of_nat (length pp) in
  let ofs := u64 (nn + getAlign nn + 8) in
  let need := u64 (tg_pos t + ofs) in
  let put t' :=
    match mem_write (tg_mem t') (tg_pos t') pp with
    | None => Undef
    | Some m1 =>
        let pos := u64 (tg_pos t' + ofs) in
        match write_size m1 (sub64 pos 8) nn with
        | None => Undef
        | Some m2 => Ret (mkTs m2 pos (tg_size t')) tt
        end
    end in
  if tg_size t <? need
  then match tg_grow 64 need (tg_size t) with
       | None => Fuel
       | Some size =>
           if ofs <? nn then Throw (mkTs (tg_mem t) (tg_pos t) size)
           else put (mkTs (tg_mem t ++ repeat 0 (N.to_nat size - length (tg_mem t))) (tg_pos t) size)
       end
  else put t.

(** topofs, lines 103-112; [None]: access outside of the memory *)
Definition tg_topofs (t : tagstack) : option (N * N) :=
  if tg_pos t <? 8 then Some (0, 0)
  else match read_size (tg_mem t) (tg_pos t - 8) with
       | None => None
       | Some nn =>
           let ofs := u64 (nn + getAlign nn + 8) in
           Some (if tg_pos t <? ofs then 0 else ofs, nn)
       end.

(** top, lines 73-79: the bytes element points to *)
Definition tg_top (t : tagstack) : out tagstack (option (list N)) :=
  match tg_topofs t with
  | None => Undef
  | Some (ofs, nn) =>
      if ofs =? 0 then Ret t None
      else if tg_pos t - ofs + nn <=? N.of_nat (length (tg_mem t))
           then Ret t (Some (firstn (N.to_nat nn) (skipn (N.to_nat (tg_pos t - ofs)) (tg_mem t))))
           else Undef
  end.

(** pop, lines 82-88 *)
Definition tg_pop (t : tagstack) : out tagstack unit :=
  match tg_topofs t with
  | None => Undef
  | Some (ofs, _) => if tg_pos t <? ofs then Throw t else Ret (mkTs (tg_mem t) (tg_pos t - ofs) (tg_size t)) tt
  end.

(** empty, lines 92-95; clear, lines 97-100 *)
Definition tg_empty (t : tagstack) : bool := tg_pos t =? 0.
Definition tg_clear (t : tagstack) : tagstack := mkTs (tg_mem t) 0 (tg_size t).
