(** What objects are expected to be for their user: values without memory in common (specification). *)
From Verif Require Import Base Iter Memory.

(** A buffer is a list of bytes cut to its capacity, with a flag for something dropped; [own] tells if it has allocated its memory. A stack is a list of strings.
    An iterator on a stream is the block read and the position in it. *)
Inductive val := VBuf (cap : N) (l : list N) (dropped own : bool) | VStack (st : list (list N)) | VIter (bufsize : N) (data : list N) (pos : nat).

Definition buf_spec (o : bufop) (cap : N) (l : list N) (dropped : bool) : option (list N * bool * answer) :=
  match o with
  | MPush c => Some (firstn (N.to_nat cap) (l ++ [c]), dropped || (cap <? N.of_nat (length l + 1)), ADone)
  | MAppend cc => if N.of_nat (length cc) <? 2 ^ 63 then Some (firstn (N.to_nat cap) (l ++ cc), dropped || (cap <? N.of_nat (length l + length cc)), ADone) else None
  | MResize n c => Some (firstn (N.to_nat cap) (firstn (N.to_nat n) (l ++ repeat c (N.to_nat n - length l))), dropped, ADone)
  | MClear => Some ([], false, ADone)
  | MAt i => if i =? N.of_nat (length l) then None                                      (* not checked by the code, see C33_refuted *)
             else Some (l, dropped, match nth_error l (N.to_nat i) with Some c => ABytes (Some [c]) | None => AThrown end)
  | MContent => Some (l, dropped, ABytes (Some l))
  | MOverflow => Some (l, dropped, AFlag dropped)
  end.
(** Bytes needed for the strings of a stack, at most *)
Definition stack_bytes (st : list (list N)) : N := N.of_nat (list_sum (map (fun s => length s + 16)%nat st)).
Definition stack_spec (o : stackop) (st : list (list N)) : option (list (list N) * answer) :=
  match o with
  | KPush s => if stack_bytes (s :: st) <=? 2 ^ 62 then Some (s :: st, ADone) else None
  | KPop => Some (tl st, ADone)
  | KTop => Some (st, ABytes (hd_error st))
  | KEmpty => Some (st, AFlag (match st with [] => true | _ => false end))
  | KClear => Some ([], ADone)
  end.

(** The objects after the call, the answer, and the number of blocks of memory lost by the call. [None] if the call is not allowed: it needs an object of the class,
    buffers and strings below 2^63 bytes, memory lent as big as said, reads of the size of the buffer at most, and it is neither an assignment nor the default
    constructor of IStreamIterator. *)
Definition value (V : list (option val)) (k : nat) : option val := match nth_error V k with Some v => v | None => None end.
Definition call_spec (c : mcall) (V : list (option val)) : option (list (option val) * answer * nat) :=
  match c with
  | MNewBuf n => if n <? 2 ^ 63 then Some (V ++ [Some (VBuf n [] false true)], ADone, 0%nat) else None
  | MNewBufOn mem n i =>
      if (n <? 2 ^ 63) && (i <=? n) && (n <=? N.of_nat (length mem)) then Some (V ++ [Some (VBuf n (firstn (N.to_nat i) mem) false false)], ADone, 0%nat) else None
  | MNewStack => Some (V ++ [Some (VStack [])], ADone, 0%nat)
  | MNewIter bufsize r =>
      if N.of_nat (length (rd_data r)) <=? bufsize
      then if rd_err r then Some (V ++ [None], AThrown, 1%nat) else Some (V ++ [Some (VIter bufsize (rd_data r) 0)], ADone, 0%nat)
      else None
  | MNewWild => None
  | MCopy k => match value V k with Some v => Some (V ++ [Some v], ADone, match v with VBuf _ _ _ false => 1%nat | _ => 0%nat end) | None => None end
  | MAssign _ _ => None
  | MDestroy k => match value V k with Some _ => Some (upd k None V, ADone, 0%nat) | None => None end
  | MBuf k o =>
      match value V k with
      | Some (VBuf cap l dropped own) => match buf_spec o cap l dropped with Some (l, dropped, a) => Some (upd k (Some (VBuf cap l dropped own)) V, a, 0%nat) | None => None end
      | _ => None
      end
  | MStack k o =>
      match value V k with
      | Some (VStack st) => match stack_spec o st with Some (st, a) => Some (upd k (Some (VStack st)) V, a, 0%nat) | None => None end
      | _ => None
      end
  | MGet k => match value V k with Some (VIter _ data pos) => Some (V, ABytes (Some [nth pos data 0]), 0%nat) | _ => None end
  | MNext k r =>
      match value V k with
      | Some (VIter bufsize data pos) =>
          if Nat.ltb (pos + 1) (length data) then Some (upd k (Some (VIter bufsize data (pos + 1))) V, ADone, 0%nat)
          else if N.of_nat (length (rd_data r)) <=? bufsize then Some (upd k (Some (VIter bufsize (rd_data r) 0)) V, if rd_err r then AThrown else ADone, 0%nat) else None
      | _ => None
      end
  end.
Fixpoint calls_spec (cs : list mcall) (V : list (option val)) : option (list (option val) * list answer * nat) :=
  match cs with
  | [] => Some (V, [], 0%nat)
  | c :: cs => match call_spec c V with
               | Some (V, a, n) => match calls_spec cs V with Some (V, l, m) => Some (V, a :: l, (n + m)%nat) | None => None end
               | None => None
               end
  end.

(** Blocks allocated and not freed; objects that have allocated a block; memory of the caller *)
Definition allocated (h : heap) : nat := length (filter (fun b => match b with Heap _ => true | _ => false end) (h_blks h)).
Definition owners (V : list (option val)) : nat := length (filter (fun v => match v with Some (VBuf _ _ _ own) => own | Some _ => true | None => false end) V).
Definition lent (h : heap) : nat := length (filter (fun b => match b with Lent _ => true | _ => false end) (h_blks h)).
Definition lends (c : mcall) : bool := match c with MNewBufOn _ _ _ => true | _ => false end.
