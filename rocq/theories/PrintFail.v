(** XMLPrinter printing to a buffer that throws: xmlprinter.hpp (model). In XmlPrinter.v push_back of the buffer succeeds; here each push_back is answered. *)
From Verif Require Import Base Iter Charset TextScanner TagStack XmlPrinter PrintSpec.

(** The printer, the bytes in the buffer, and for each push_back to come whether it succeeds; after the last answer all succeed. One that does not throws and appends nothing (as std::string and
    std::vector do). The tag stack and the local std::string of line 171 get their memory (for the tag stack see TagAlloc.v). *)
Record pwriter := mkW { w_p : printer; w_buf : list N; w_ans : list bool }.
Definition w_set (p : printer) (w : pwriter) : pwriter := mkW p (w_buf w) (w_ans w).
Fixpoint w_put (l : list N) (w : pwriter) : out pwriter unit :=
  match l with
  | [] => Ret w tt
  | b :: l => match w_ans w with
              | [] => w_put l (mkW (w_p w) (w_buf w ++ [b]) [])
              | true :: r => w_put l (mkW (w_p w) (w_buf w ++ [b]) r)
              | false :: r => Throw (mkW (w_p w) (w_buf w) r)
              end
  end.

Section WithCharsets.
Context (ocs acs : charset).
(** m_output.print( ch, buf) *)
Definition w_char (c : N) (w : pwriter) : out pwriter unit := w_put (cs_print ocs c) w.
Fixpoint w_chars (l : list N) (w : pwriter) : out pwriter unit :=
  match l with
  | [] => Ret w tt
  | c :: l => let! (w, _) := w_char c w in w_chars l w
  end.
(** printEsc, lines 57-70 *)
Definition w_esc (echr : list N) (estr : list (option (list N))) (c : N) (w : pwriter) : out pwriter unit :=
  match memchr c echr with
  | Some i => match nth_error estr i with
              | Some (Some es) => w_chars es w
              | _ => Undef
              end
  | None => w_char c w
  end.
(** the body of the loop in printToBufferSubstChr, lines 87-94 *)
Definition w_subst (echr : list N) (estr : list (option (list N))) (c : N) (w : pwriter) : out pwriter unit :=
  if c <? 128 then w_esc echr estr c w else w_char c w.
(** the loops of lines 43-48 and 85-96; the scanner on the string is a local variable, and its iterator does not throw *)
Fixpoint w_loop (fuel : nat) (f : N -> pwriter -> out pwriter unit) (t : tscan cstr) (w : pwriter) : out pwriter unit :=
  match fuel with
  | O => Fuel
  | S n =>
      match ts_chr cstr_ops (default_cs acs) t with
      | Ret t1 c =>
          if c =? 0 then Ret w tt
          else let! (w, _) := f c w in
               match ts_skip cstr_ops (default_cs acs) t1 with
               | Ret t2 _ => w_loop n f t2 w
               | Fuel => Fuel
               | _ => Undef
               end
      | Fuel => Fuel
      | _ => Undef
      end
  end.
Definition w_text (f : N -> pwriter -> out pwriter unit) (src : list N) (w : pwriter) : out pwriter unit := w_loop (S (length src)) f (ts_make (cstr_make src)) w.
(** printToBuffer, lines 38-49; printToBufferAttributeValue, lines 103-111; printToBufferContent, lines 117-123 *)
Definition w_printToBuffer (src : list N) (w : pwriter) : out pwriter unit := w_text w_char src w.
Definition w_attributeValue (src : list N) (w : pwriter) : out pwriter unit :=
  let! (w, _) := w_char 34 w in
  let! (w, _) := w_text (w_subst attr_echr attr_estr) src w in
  w_char 34 w.
Definition w_content (src : list N) (w : pwriter) : out pwriter unit := w_text (w_subst content_echr content_estr) src w.
Fixpoint w_all (l : list (list N)) (w : pwriter) : out pwriter unit :=
  match l with
  | [] => Ret w tt
  | s :: l => let! (w, _) := w_printToBuffer s w in w_all l w
  end.

(** printHeader, lines 165-187 *)
Definition w_header (encoding standalone : option (list N)) (w : pwriter) : out pwriter bool :=
  match p_state (w_p w) with
  | PInit =>
      let enc := match encoding with Some e => c_str e | None => str "UTF-8" end in
      let! (w, _) :=
        match standalone with
        | Some s => w_all [str "<?xml version=""1.0"" encoding="""; enc; str """ standalone="""; c_str s; str """?>" ++ [10]] w
        | None => w_all [str "<?xml version=""1.0"" encoding="""; enc; str """?>" ++ [10]] w
        end in
      Ret (w_set (p_set (w_p w) PContent) w) true
  | _ => Ret (w_set (p_fail (w_p w) (str "printing xml header not at the beginning of the document")) w) false
  end.
(** printDoctype, lines 195-230 *)
Definition w_doctype (rootid publicid systemid : option (list N)) (w : pwriter) : out pwriter bool :=
  match rootid with
  | None => Ret w true
  | Some r =>
      match publicid, systemid with
      | Some _, None => Ret (w_set (p_fail (w_p w) (str "defined DOCTYPE with PUBLIC id but no SYSTEM id")) w) false
      | Some pu, Some sy => let! (w, _) := w_all [str "<!DOCTYPE "; c_str r; str " PUBLIC """; c_str pu; str """ """; c_str sy; str """>"] w in Ret w true
      | None, Some sy => let! (w, _) := w_all [str "<!DOCTYPE "; c_str r; str " SYSTEM """; c_str sy; str """>"] w in Ret w true
      | None, None => let! (w, _) := w_all [str "<!DOCTYPE " ++ [0]; c_str r; str ">" ++ [0]] w in Ret w true
      end
  end.
(** exitTagContext, lines 235-248 *)
Definition w_exit (w : pwriter) : out pwriter bool :=
  match p_state (w_p w) with
  | PContent => Ret w true
  | PInit => Ret (w_set (p_fail (w_p w) (str "printed xml without root element")) w) false
  | _ => let! (w, _) := w_char 62 w in Ret (w_set (p_set (w_p w) PContent) w) true
  end.
(** embedding of the operations on the tag stack *)
Definition w_tag {A} (w : pwriter) (m : out tagstack A) : out pwriter A := omap (fun t => w_set (p_withtags (w_p w) t) w) m.
(** printOpenTag, lines 255-264 *)
Definition w_open (src : list N) (w : pwriter) : out pwriter bool :=
  let! (w, r) := w_exit w in
  if r
  then
    let! (w, _) := w_char 60 w in
    let! (w, _) := w_printToBuffer src w in
    let! (w, _) := w_tag w (tg_push src (p_tags (w_p w))) in
    Ret (w_set (p_set (w_p w) PTagElement) w) true
  else Ret w false.
(** printAttribute, lines 271-282 *)
Definition w_attr (src : list N) (w : pwriter) : out pwriter bool :=
  match p_state (w_p w) with
  | PTagElement =>
      let! (w, _) := w_char 32 w in
      let! (w, _) := w_printToBuffer src w in
      let! (w, _) := w_char 61 w in
      Ret (w_set (p_set (w_p w) PTagAttribute) w) true
  | _ => Ret w false
  end.
(** printValue, lines 289-302 *)
Definition w_value (src : list N) (w : pwriter) : out pwriter bool :=
  match p_state (w_p w) with
  | PTagAttribute =>
      let! (w, _) := w_attributeValue src w in Ret (w_set (p_set (w_p w) PTagElement) w) true
  | _ =>
      let! (w, r) := w_exit w in
      if r then let! (w, _) := w_content src w in Ret w true else Ret w false
  end.
(** printCloseTag, lines 307-339 *)
Definition w_close (w : pwriter) : out pwriter bool :=
  let! (w, top) := w_tag w (tg_top (p_tags (w_p w))) in
  let finish w :=
    let! (w, _) := w_tag w (tg_pop (p_tags (w_p w))) in
    if tg_empty (p_tags (w_p w)) then let! (w, _) := w_char 10 w in Ret w true else Ret w true in
  match top with
  | None | Some [] => Ret w false
  | Some cltag =>
      match p_state (w_p w) with
      | PTagElement =>
          let! (w, _) := w_char 47 w in
          let! (w, _) := w_char 62 w in
          finish (w_set (p_set (w_p w) PContent) w)
      | PContent =>
          let! (w, _) := w_char 60 w in
          let! (w, _) := w_char 47 w in
          let! (w, _) := w_printToBuffer cltag w in
          let! (w, _) := w_char 62 w in
          finish w
      | _ => Ret w false
      end
  end.

(** the calls of PrintSpec.v *)
Definition w_do (c : pcall) (w : pwriter) : out pwriter bool :=
  match c with
  | PHeader e s => w_header e s w
  | PDoctype r pu sy => w_doctype r pu sy w
  | PExit => w_exit w
  | POpen n => w_open n w
  | PAttr n => w_attr n w
  | PValue v => w_value v w
  | PClose => w_close w
  | PReset s => Ret (w_set (pr_reset s (w_p w)) w) true
  | PCopy => match pr_copy (w_p w) with
             | Ret _ p => Ret (w_set p w) true
             | Jump p => Jump (w_set p w) | Throw p => Throw (w_set p w) | Undef => Undef | Fuel => Fuel
             end
  end.
(** a sequence of calls, exceptions are caught after each call ([None]) *)
Fixpoint w_run (l : list pcall) (w : pwriter) : out pwriter (list (option bool)) :=
  match l with
  | [] => Ret w []
  | c :: l =>
      match w_do c w with
      | Ret w r => let! (w, rs) := w_run l w in Ret w (Some r :: rs)
      | Throw w => let! (w, rs) := w_run l w in Ret w (None :: rs)
      | Jump w => Jump w | Undef => Undef | Fuel => Fuel
      end
  end.
End WithCharsets.
