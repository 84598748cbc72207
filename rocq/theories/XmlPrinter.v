(** XMLPrinter: xmlprinter.hpp (model). *)
From Verif Require Import Base Iter Charset TextScanner TagStack.

(** enum State, xmlprinter.hpp:342-348 *)
Inductive pstate := PInit | PContent | PTagAttribute | PTagElement.

(** class XMLPrinter, members xmlprinter.hpp:363-368. m_output is the parameter [ocs] of the functions. *)
Record printer := mkPrinter { p_state : pstate; p_tags : tagstack; p_error : option (list N) }.

Definition p_set (p : printer) (st : pstate) : printer := mkPrinter st (p_tags p) (p_error p).
Definition p_fail (p : printer) (msg : list N) : printer := mkPrinter (p_state p) (p_tags p) (Some msg).
Definition p_withtags (p : printer) (t : tagstack) : printer := mkPrinter (p_state p) t (p_error p).

(** a null terminated string as argument: its bytes up to the first null character *)
Fixpoint c_str (l : list N) : list N :=
  match l with
  | [] => []
  | b :: l' => if b =? 0 then [] else b :: c_str l'
  end.

(** TextScanner creates its own instance of the character set of the application, lines 41 and 82: the default code page is 1
    (charset_isolatin.hpp:33) *)
Definition default_cs (cs : charset) : charset := match cs with IsoLatin _ => IsoLatin 1 | _ => cs end.

(** memchr, line 59: index of the first occurrence *)
Fixpoint memchr (c : N) (l : list N) : option nat :=
  match l with
  | [] => None
  | x :: l' => if x =? c then Some 0%nat else match memchr c l' with Some i => Some (S i) | None => None end
  end.

(** tables of printToBufferAttributeValue, lines 105-107; the entries not initialised are null pointers and null characters *)
Definition attr_echr : list N := Eval vm_compute in str "<>'""&" ++ [0; 8; 9; 10; 13; 0; 0].
Definition attr_estr : list (option (list N)) := Eval vm_compute in
  [Some (str "&lt;"); Some (str "&gt;"); Some (str "&apos;"); Some (str "&quot;"); Some (str "&amp;"); Some (str "&#0;");
   Some (str "&#8;"); Some (str "&#9;"); Some (str "&#10;"); Some (str "&#13;"); None; None].
(** tables of printToBufferContent, lines 119-121 *)
Definition content_echr : list N := Eval vm_compute in str "<>&" ++ [0; 8; 0].
Definition content_estr : list (option (list N)) := Eval vm_compute in
  [Some (str "&lt;"); Some (str "&gt;"); Some (str "&amp;"); Some (str "&#0;"); Some (str "&#8;"); None].

Section WithCharsets.
Context (ocs acs : charset).

(** m_output.print( ch, buf): the bytes appended to the buffer (push_back of the buffer is assumed to succeed) *)
Definition p_print (c : N) : list N := cs_print ocs c.

(** printEsc, lines 57-70; [None]: access through a null pointer *)
Definition printEsc (echr : list N) (estr : list (option (list N))) (c : N) : option (list N) :=
  match memchr c echr with
  | Some i => match nth_error estr i with
              | Some (Some es) => Some (flat_map p_print es)
              | _ => None
              end
  | None => Some (p_print c)
  end.

(** the body of the loop in printToBufferSubstChr, lines 86-96 *)
Definition printSubst (echr : list N) (estr : list (option (list N))) (c : N) : option (list N) :=
  if c <? 128 then printEsc echr estr c else Some (p_print c).

(** the loops of lines 43-48 and 85-96 *)
Fixpoint printLoop (fuel : nat) (f : N -> option (list N)) (t : tscan cstr) : out (tscan cstr) (list N) :=
  match fuel with
  | O => Fuel
  | S n =>
      let! (t1, c) := ts_chr cstr_ops (default_cs acs) t in
      if c =? 0 then Ret t1 []
      else match f c with
           | None => Undef
           | Some b =>
               let! (t2, u) := ts_skip cstr_ops (default_cs acs) t1 in
               let! (t3, r) := printLoop n f t2 in
               Ret t3 (b ++ r)
           end
  end.

(** CStringIterator itr( src, srcsize); TextScanner ts( itr); then the loop. The loop ends after at most one character per byte,
    if the size is below 2^32 - 16. *)
Definition printText (f : N -> option (list N)) (src : list N) (p : printer) : out printer (list N) :=
  omap (fun _ => p) (printLoop (S (length src)) f (ts_make (cstr_make src))).

(** printToBuffer( src, srcsize, buf), lines 38-49 *)
Definition printToBuffer (src : list N) (p : printer) : out printer (list N) := printText (fun c => Some (p_print c)) src p.
(** printToBufferAttributeValue, lines 103-111 *)
Definition printAttributeValue (src : list N) (p : printer) : out printer (list N) :=
  let! (p1, b) := printText (printSubst attr_echr attr_estr) src p in
  Ret p1 (p_print 34 ++ b ++ p_print 34).
(** printToBufferContent, lines 117-123 *)
Definition printContent (src : list N) (p : printer) : out printer (list N) :=
  printText (printSubst content_echr content_estr) src p.
(** printToBuffer( ch, buf), lines 128-131 *)
Definition printChar (c : N) : list N := p_print c.

(** constructors, lines 137-144 *)
Definition pr_new (subDocument : bool) : printer := mkPrinter (if subDocument then PContent else PInit) tg_new None.
(** copy constructor, lines 147-149 *)
Definition pr_copy (p : printer) : out printer printer :=
  match tg_copy (p_tags p) with
  | Ret _ t => Ret p (p_withtags p t)
  | Jump _ => Jump p
  | Throw _ => Throw p
  | Undef => Undef
  | Fuel => Fuel
  end.
(** reset, lines 153-158 *)
Definition pr_reset (subDocument : bool) (p : printer) : printer :=
  mkPrinter (if subDocument then PContent else PInit) (tg_clear (p_tags p)) None.

(** several texts one after the other *)
Fixpoint printAll (l : list (list N)) (p : printer) : out printer (list N) :=
  match l with
  | [] => Ret p []
  | s :: l' =>
      let! (p1, b) := printToBuffer s p in
      let! (p2, r) := printAll l' p1 in
      Ret p2 (b ++ r)
  end.

(** The functions return the result of the call and the bytes appended to the buffer (those appended before an exception are not modelled). *)
Definition presult : Type := bool * list N.

(** printHeader, lines 165-187; null pointers are [None] *)
Definition printHeader (encoding standalone : option (list N)) (p : printer) : out printer presult :=
  match p_state p with
  | PInit =>
      let enc := match encoding with Some e => c_str e | None => str "UTF-8" end in
      let! (p1, b) :=
        match standalone with
        | Some s => printAll [str "<?xml version=""1.0"" encoding="""; enc; str """ standalone="""; c_str s; str """?>" ++ [10]] p
        | None => printAll [str "<?xml version=""1.0"" encoding="""; enc; str """?>" ++ [10]] p
        end in
      Ret (p_set p1 PContent) (true, b)
  | _ => Ret (p_fail p (str "printing xml header not at the beginning of the document")) (false, [])
  end.

(** printDoctype, lines 195-230; the sizes passed in lines 224 and 226 include the terminating null character *)
Definition printDoctype (rootid publicid systemid : option (list N)) (p : printer) : out printer presult :=
  match rootid with
  | None => Ret p (true, [])
  | Some r =>
      match publicid, systemid with
      | Some _, None => Ret (p_fail p (str "defined DOCTYPE with PUBLIC id but no SYSTEM id")) (false, [])
      | Some pu, Some sy =>
          let! (p1, b) := printAll [str "<!DOCTYPE "; c_str r; str " PUBLIC """; c_str pu; str """ """; c_str sy; str """>"] p in Ret p1 (true, b)
      | None, Some sy =>
          let! (p1, b) := printAll [str "<!DOCTYPE "; c_str r; str " SYSTEM """; c_str sy; str """>"] p in Ret p1 (true, b)
      | None, None =>
          let! (p1, b) := printAll [str "<!DOCTYPE " ++ [0]; c_str r; str ">" ++ [0]] p in Ret p1 (true, b)
      end
  end.

(** exitTagContext, lines 235-248 *)
Definition exitTagContext (p : printer) : out printer presult :=
  match p_state p with
  | PContent => Ret p (true, [])
  | PInit => Ret (p_fail p (str "printed xml without root element")) (false, [])
  | _ => Ret (p_set p PContent) (true, printChar 62)
  end.

(** embedding of the operations on the member m_tagstack *)
Definition p_tag {A} (p : printer) (m : out tagstack A) : out printer A := omap (p_withtags p) m.

(** printOpenTag, lines 255-264 *)
Definition printOpenTag (src : list N) (p : printer) : out printer presult :=
  let! (p1, r) := exitTagContext p in
  if fst r
  then
    let! (p2, b) := printToBuffer src p1 in
    let! (p3, u) := p_tag p2 (tg_push src (p_tags p2)) in
    Ret (p_set p3 PTagElement) (true, snd r ++ printChar 60 ++ b)
  else Ret p1 (false, snd r).

(** printAttribute, lines 271-282 *)
Definition printAttribute (src : list N) (p : printer) : out printer presult :=
  match p_state p with
  | PTagElement =>
      let! (p1, b) := printToBuffer src p in
      Ret (p_set p1 PTagAttribute) (true, printChar 32 ++ b ++ printChar 61)
  | _ => Ret p (false, [])
  end.

(** printValue, lines 289-302 *)
Definition printValue (src : list N) (p : printer) : out printer presult :=
  match p_state p with
  | PTagAttribute =>
      let! (p1, b) := printAttributeValue src p in Ret (p_set p1 PTagElement) (true, b)
  | _ =>
      let! (p1, r) := exitTagContext p in
      if fst r
      then let! (p2, b) := printContent src p1 in Ret p2 (true, snd r ++ b)
      else Ret p1 (false, snd r)
  end.

(** printCloseTag, lines 307-339 *)
Definition printCloseTag (p : printer) : out printer presult :=
  let! (p1, top) := p_tag p (tg_top (p_tags p)) in
  let finish p b :=
    let! (p2, u) := p_tag p (tg_pop (p_tags p)) in
    Ret p2 (true, b ++ (if tg_empty (p_tags p2) then printChar 10 else [])) in
  match top with
  | None | Some [] => Ret p1 (false, [])
  | Some cltag =>
      match p_state p1 with
      | PTagElement => finish (p_set p1 PContent) (printChar 47 ++ printChar 62)
      | PContent =>
          let! (p2, b) := printToBuffer cltag p1 in
          finish p2 (printChar 60 ++ printChar 47 ++ b ++ printChar 62)
      | _ => Ret p1 (false, [])
      end
  end.
End WithCharsets.
