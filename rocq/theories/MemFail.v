(** StaticBuffer, TagStack and IStreamIterator with malloc, calloc and realloc that may fail: staticbuffer.hpp, xmltagstack.hpp, istreamiterator.hpp (model). *)
From Verif Require Import Base Iter StaticBuffer TagStack TagAlloc Memory.

(** A constructor that throws std::bad_alloc: nothing has been allocated, there is no object, and its number is not used by another. *)
Definition no_obj (h : heap) : out heap answer := Ret (mkHp (h_blks h) (h_objs h ++ [None])) AThrown.
(** A call with the answer of malloc, calloc or realloc, if it is called. An allocation of 0 bytes may deliver a null pointer too, then it is not [granted]. *)
Definition mf_call (granted : bool) (c : mcall) (h : heap) : out heap answer :=
  if granted then mem_call c h
  else match c with
       | MNewBuf _ => no_obj h                                  (* staticbuffer.hpp:31-32 *)
       | MNewStack => no_obj h                                  (* xmltagstack.hpp:37 *)
       | MNewIter _ _ => no_obj h                               (* istreamiterator.hpp:110-112: before the first read *)
       | MCopy k =>                                             (* staticbuffer.hpp:51-52, xmltagstack.hpp:43, istreamiterator.hpp:119-121: before the bytes are copied *)
           match get_obj h k with
           | Some OWild | None => Undef
           | Some _ => no_obj h
           end
       | MStack k (KPush s) =>                                  (* xmltagstack.hpp:50-68 *)
           match get_obj h k with
           | Some (OStack p pos size) =>
               match tg_push_alloc false s (mkTs (load h p) pos size) with
               | Throw t => Ret (set_obj k (Some (OStack p (tg_pos t) (tg_size t))) (store p (tg_mem t) h)) AThrown
               | _ => mem_call c h
               end
           | _ => Undef
           end
       | _ => mem_call c h
       end.
Fixpoint mf_calls (l : list (bool * mcall)) (h : heap) : out heap (list answer) :=
  match l with
  | [] => Ret h []
  | (g, c) :: l => let! (h, a) := mf_call g c h in let! (h, r) := mf_calls l h in Ret h (a :: r)
  end.
