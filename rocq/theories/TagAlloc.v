(** TagStack and the printer with malloc and realloc that may fail: xmltagstack.hpp, xmlprinter.hpp (model). *)
From Verif Require Import Base Charset StaticBuffer TagStack PropsUtil XmlPrinter.

(** push, xmltagstack.hpp:50-68, with the answer of realloc: if it is not [granted], std::bad_alloc is thrown in line 60, behind the loop of line 56 that has
    changed m_size. Without need for more memory realloc is not called. *)
Definition tg_push_alloc (granted : bool) (pp : list N) (t : tagstack) : out tagstack unit :=
  let nn := N.of_nat (length pp) in
  let ofs := u64 (nn + getAlign nn + 8) in
  let need := u64 (tg_pos t + ofs) in
  if granted then tg_push pp t
  else if tg_size t <? need
  then match tg_grow 64 need (tg_size t) with
       | None => Fuel
       | Some size => Throw (mkTs (tg_mem t) (tg_pos t) size)
       end
  else tg_push pp t.
(** A call with the answer of malloc or realloc, if it is called; [None] is std::bad_alloc. If a copy (lines 40-45) cannot be made, the calls go on with the original. *)
Definition tga_do (granted : bool) (op : tgop) (t : tagstack) : out tagstack (option tgres) :=
  match op with
  | TPush s => match tg_push_alloc granted s t with Ret t _ => Ret t (Some RUnit) | Throw t => Ret t None | Jump t => Jump t | Undef => Undef | Fuel => Fuel end
  | TCopy => if granted then let! (t, c) := tg_copy t in Ret c (Some RUnit) else Ret t None
  | _ => let! (t, r) := tg_do op t in Ret t (Some r)
  end.
Fixpoint tga_run (ops : list (bool * tgop)) (t : tagstack) : out tagstack (list (option tgres)) :=
  match ops with
  | [] => Ret t []
  | (g, op) :: ops => let! (t, r) := tga_do g op t in let! (t, rs) := tga_run ops t in Ret t (r :: rs)
  end.

(** printOpenTag, xmlprinter.hpp:255-264, if the push of line 261 throws std::bad_alloc: the printer and what has been printed *)
Definition printOpenTag_alloc (ocs acs : charset) (granted : bool) (src : list N) (p : printer) : out printer (option bool * list N) :=
  let! (p1, r) := exitTagContext ocs p in
  if fst r
  then
    let! (p2, b) := printToBuffer ocs acs src p1 in
    match tg_push_alloc granted src (p_tags p2) with
    | Ret t _ => Ret (p_set (p_withtags p2 t) PTagElement) (Some true, snd r ++ printChar ocs 60 ++ b)
    | Throw t => Ret (p_withtags p2 t) (None, snd r ++ printChar ocs 60 ++ b)
    | Jump t => Jump (p_withtags p2 t)
    | Undef => Undef
    | Fuel => Fuel
    end
  else Ret p1 (Some false, snd r).
