(** The memory StaticBuffer, TagStack and IStreamIterator allocate and free: staticbuffer.hpp, xmltagstack.hpp, istreamiterator.hpp (model).
    Here objects hold pointers to blocks of memory; the models in StaticBuffer.v, TagStack.v and Iter.v give every object a memory of its own. *)
From Verif Require Import Base Iter StaticBuffer TagStack.

(** A block of memory: allocated with malloc, calloc or realloc, or lent by the caller (StaticBuffer( p, n, i)), or freed. Allocation succeeds, and the bytes
    not initialised are modelled as 0. An address is never used again for another block. *)
Inductive blk := Heap (bytes : list N) | Lent (bytes : list N) | Gone.
(** m_ar, m_ptr or m_buf: the start of a block *)
Definition ptr := nat.
(** The members of StaticBuffer (staticbuffer.hpp:144-148), TagStack (xmltagstack.hpp:115-117) and IStreamIterator (istreamiterator.hpp:167-172, without
    m_input); [OWild] is an IStreamIterator with no member initialised. *)
Inductive obj :=
| OBuf (p : ptr) (pos size : N) (allocated over : bool)
| OStack (p : ptr) (pos size : N)
| OIter (p : ptr) (bufsize readsize readpos abspos : N)
| OWild.
(** The blocks in the order of allocation, the objects in the order of construction; [None] is an object destroyed *)
Record heap := mkHp { h_blks : list blk; h_objs : list (option obj) }.
Definition h_new : heap := mkHp [] [].

(** The bytes that can be accessed with a pointer: none, if the block is freed *)
Definition load (h : heap) (p : ptr) : list N := match nth_error (h_blks h) p with Some (Heap m) | Some (Lent m) => m | _ => [] end.
Definition store (p : ptr) (m : list N) (h : heap) : heap :=
  mkHp (match nth_error (h_blks h) p with
        | Some (Heap _) => upd p (Heap m) (h_blks h)
        | Some (Lent _) => upd p (Lent m) (h_blks h)
        | _ => h_blks h
        end) (h_objs h).
(** free is undefined for every pointer not delivered by malloc or freed already *)
Definition free (p : ptr) (h : heap) : out heap unit :=
  match nth_error (h_blks h) p with
  | Some (Heap _) => Ret (mkHp (upd p Gone (h_blks h)) (h_objs h)) tt
  | _ => Undef
  end.
Definition alloc (b : blk) (h : heap) : ptr * heap := (length (h_blks h), mkHp (h_blks h ++ [b]) (h_objs h)).
Definition construct (o : obj) (h : heap) : heap := mkHp (h_blks h) (h_objs h ++ [Some o]).
Definition set_obj (k : nat) (o : option obj) (h : heap) : heap := mkHp (h_blks h) (upd k o (h_objs h)).
Definition get_obj (h : heap) (k : nat) : option obj := match nth_error (h_objs h) k with Some o => o | None => None end.

(** Operations of a StaticBuffer and of a TagStack *)
Inductive bufop := MPush (c : N) | MAppend (l : list N) | MResize (n c : N) | MClear | MAt (i : N) | MContent | MOverflow.
Inductive stackop := KPush (s : list N) | KPop | KTop | KEmpty | KClear.
Inductive answer := ADone | ABytes (l : option (list N)) | AFlag (b : bool) | AThrown.

(** push_back, append, resize, clear, operator[], ptr() with size(), overflow(): staticbuffer.hpp:63-141 *)
Definition buf_op (o : bufop) (b : sbuf) : out sbuf answer :=
  match o with
  | MPush c => let! (b, _) := sb_push c b in Ret b ADone
  | MAppend l => let! (b, _) := sb_append l b in Ret b ADone
  | MResize n c => let! (b, _) := sb_resize n c b in Ret b ADone
  | MClear => Ret (sb_clear b) ADone
  | MAt i => match sb_at i b with Ret b c => Ret b (ABytes (Some [c])) | Throw b => Ret b AThrown | Jump b => Jump b | Undef => Undef | Fuel => Fuel end
  | MContent => if sb_pos b <=? N.of_nat (length (sb_mem b)) then Ret b (ABytes (Some (sb_content b))) else Undef
  | MOverflow => Ret b (AFlag (sb_overflow b))
  end.
(** push, pop, top, empty, clear: xmltagstack.hpp:50-100 *)
Definition stack_op (o : stackop) (t : tagstack) : out tagstack answer :=
  match o with
  | KPush s => match tg_push s t with Ret t _ => Ret t ADone | Throw t => Ret t AThrown | Jump t => Jump t | Undef => Undef | Fuel => Fuel end
  | KPop => match tg_pop t with Ret t _ => Ret t ADone | Throw t => Ret t AThrown | Jump t => Jump t | Undef => Undef | Fuel => Fuel end
  | KTop => let! (t, r) := tg_top t in Ret t (ABytes r)
  | KEmpty => Ret t (AFlag (tg_empty t))
  | KClear => Ret (tg_clear t) ADone
  end.

(** IStreamIterator::fillbuf, istreamiterator.hpp:157-164: [r] is the result of the call of read *)
Definition fill (r : rdres) (k : nat) (p : ptr) (bufsize readsize abspos : N) (h : heap) : out heap answer :=
  if bufsize <? N.of_nat (length (rd_data r)) then Undef
  else match mem_write (load h p) 0 (rd_data r) with
       | None => Undef
       | Some m => Ret (set_obj k (Some (OIter p bufsize (N.of_nat (length (rd_data r))) 0 (u64 (abspos + readsize)))) (store p m h)) (if rd_err r then AThrown else ADone)
       end.

(** A call. [MNew]... construct an object; k and j are the numbers of objects. *)
Inductive mcall :=
| MNewBuf (n : N)                              (* StaticBuffer( n) *)
| MNewBufOn (mem : list N) (n i : N)           (* StaticBuffer( p, n, i), with p the start of a block of the caller with these bytes, used for no other object *)
| MNewStack                                    (* TagStack() *)
| MNewIter (bufsize : N) (r : rdres)           (* IStreamIterator( input, bufsize), with the result of the first read *)
| MNewWild                                     (* IStreamIterator() *)
| MCopy (k : nat)                              (* copy constructor, on object k *)
| MAssign (k j : nat)                          (* object k = object j, with the assignment operator the compiler generates: it copies every member *)
| MDestroy (k : nat)                           (* destructor *)
| MBuf (k : nat) (o : bufop)
| MStack (k : nat) (o : stackop)
| MGet (k : nat)                               (* IStreamIterator::operator* *)
| MNext (k : nat) (r : rdres).                 (* IStreamIterator::operator++, with the result of read, if it is called *)

Definition same_class (x y : obj) : bool :=
  match x, y with
  | OBuf _ _ _ _ _, OBuf _ _ _ _ _ | OStack _ _ _, OStack _ _ _ | OIter _ _ _ _ _, OIter _ _ _ _ _ | OWild, OIter _ _ _ _ _ => true
  | _, _ => false
  end.

Definition mem_call (c : mcall) (h : heap) : out heap answer :=
  match c with
  | MNewBuf n => let (p, h) := alloc (Heap (repeat 0 (N.to_nat n))) h in Ret (construct (OBuf p 0 n true false) h) ADone          (* staticbuffer.hpp:28-33 *)
  | MNewBufOn mem n i => let (p, h) := alloc (Lent mem) h in Ret (construct (OBuf p i n false false) h) ADone                     (* staticbuffer.hpp:36-41 *)
  | MNewStack => let (p, h) := alloc (Heap (repeat 0 256)) h in Ret (construct (OStack p 0 256) h) ADone                          (* xmltagstack.hpp:34-38 *)
  | MNewIter bufsize r =>                                                                                                         (* istreamiterator.hpp:109-114: *)
      if bufsize <? N.of_nat (length (rd_data r)) then Undef                                                                      (* the destructor is not called, *)
      else let (p, h) := alloc (Heap (rd_data r ++ repeat 0 (N.to_nat bufsize - length (rd_data r)))) h in                        (* if the constructor throws *)
           if rd_err r then Ret (mkHp (h_blks h) (h_objs h ++ [None])) AThrown
           else Ret (construct (OIter p bufsize (N.of_nat (length (rd_data r))) 0 0) h) ADone
  | MNewWild => Ret (construct OWild h) ADone                                                                                     (* istreamiterator.hpp:100 *)
  | MCopy k =>
      match get_obj h k with
      | Some (OBuf p pos size allocated over) =>                                                                                  (* staticbuffer.hpp:44-54 *)
          if size <=? N.of_nat (length (load h p))
          then let (q, h) := alloc (Heap (firstn (N.to_nat size) (load h p))) h in Ret (construct (OBuf q pos size allocated over) h) ADone
          else Undef
      | Some (OStack p pos size) =>                                                                                               (* xmltagstack.hpp:40-45 *)
          if (pos <=? N.of_nat (length (load h p))) && (pos <=? size)
          then let (q, h) := alloc (Heap (firstn (N.to_nat pos) (load h p) ++ repeat 0 (N.to_nat (size - pos)))) h in Ret (construct (OStack q pos size) h) ADone
          else Undef
      | Some (OIter p bufsize readsize readpos abspos) =>                                                                         (* istreamiterator.hpp:118-123 *)
          if (readsize <=? N.of_nat (length (load h p))) && (readsize <=? bufsize)
          then let (q, h) := alloc (Heap (firstn (N.to_nat readsize) (load h p) ++ repeat 0 (N.to_nat (bufsize - readsize)))) h in
               Ret (construct (OIter q bufsize readsize readpos abspos) h) ADone
          else Undef
      | _ => Undef
      end
  | MAssign k j =>
      match get_obj h k, get_obj h j with
      | Some x, Some y => if same_class x y then Ret (set_obj k (Some y) h) ADone else Undef
      | _, _ => Undef
      end
  | MDestroy k =>
      match get_obj h k with
      | Some (OBuf p _ _ allocated _) => if allocated then let! (h, _) := free p h in Ret (set_obj k None h) ADone else Ret (set_obj k None h) ADone   (* staticbuffer.hpp:57-60 *)
      | Some (OStack p _ _) => let! (h, _) := free p h in Ret (set_obj k None h) ADone                                                                 (* xmltagstack.hpp:28-31 *)
      | Some (OIter p _ _ _ _) => let! (h, _) := free p h in Ret (set_obj k None h) ADone                                                              (* istreamiterator.hpp:102-105 *)
      | _ => Undef
      end
  | MBuf k o =>
      match get_obj h k with
      | Some (OBuf p pos size allocated over) =>
          match buf_op o (mkSb pos size (load h p) over) with
          | Ret b a => Ret (set_obj k (Some (OBuf p (sb_pos b) (sb_size b) allocated (sb_over b))) (store p (sb_mem b) h)) a
          | Fuel => Fuel
          | _ => Undef
          end
      | _ => Undef
      end
  | MStack k o =>                                                                                                                 (* realloc, xmltagstack.hpp:59: *)
      match get_obj h k with                                                                                                      (* the block is moved always *)
      | Some (OStack p pos size) =>
          match stack_op o (mkTs (load h p) pos size) with
          | Ret t a =>
              if Nat.eqb (length (tg_mem t)) (length (load h p)) then Ret (set_obj k (Some (OStack p (tg_pos t) (tg_size t))) (store p (tg_mem t) h)) a
              else let! (h, _) := free p h in
                   let (q, h) := alloc (Heap (tg_mem t)) h in Ret (set_obj k (Some (OStack q (tg_pos t) (tg_size t))) h) a
          | Fuel => Fuel
          | _ => Undef
          end
      | _ => Undef
      end
  | MGet k =>                                                                                                                     (* istreamiterator.hpp:127-130 *)
      match get_obj h k with
      | Some (OIter p _ readsize readpos _) =>
          if readpos <? readsize
          then match nth_error (load h p) (N.to_nat readpos) with Some c => Ret h (ABytes (Some [c])) | None => Undef end
          else Ret h (ABytes (Some [0]))
      | _ => Undef
      end
  | MNext k r =>                                                                                                                  (* istreamiterator.hpp:133-144 *)
      match get_obj h k with
      | Some (OIter p bufsize readsize readpos abspos) =>
          if readsize <=? readpos + 1 then fill r k p bufsize readsize abspos h
          else Ret (set_obj k (Some (OIter p bufsize readsize (readpos + 1) abspos)) h) ADone
      | _ => Undef
      end
  end.
Fixpoint mem_calls (cs : list mcall) (h : heap) : out heap (list answer) :=
  match cs with
  | [] => Ret h []
  | c :: cs => let! (h, a) := mem_call c h in let! (h, l) := mem_calls cs h in Ret h (a :: l)
  end.
