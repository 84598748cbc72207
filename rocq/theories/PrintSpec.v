(** Calls of the printer, and what they should do (specification). *)
From Verif Require Import Base Charset CharsetSpec XmlScanner DocSpec XmlPrinter.

(** ** Sequences of calls *)
Inductive pcall :=
| PHeader (encoding standalone : option (list N))
| PDoctype (rootid publicid systemid : option (list N))
| PExit
| POpen (name : list N)
| PAttr (name : list N)
| PValue (value : list N)
| PClose
| PReset (subDocument : bool)
| PCopy.   (** go on with a copy of the printer *)

Section Calls.
Context (ocs acs : charset).
Definition p_do (c : pcall) (p : printer) : out printer presult :=
  match c with
  | PHeader e s => printHeader ocs acs e s p
  | PDoctype r pu sy => printDoctype ocs acs r pu sy p
  | PExit => exitTagContext ocs p
  | POpen n => printOpenTag ocs acs n p
  | PAttr n => printAttribute ocs acs n p
  | PValue v => printValue ocs acs v p
  | PClose => printCloseTag ocs acs p
  | PReset s => Ret (pr_reset s p) (true, [])
  | PCopy => match pr_copy p with
             | Ret _ p' => Ret p' (true, [])
             | Jump p' => Jump p' | Throw p' => Throw p' | Undef => Undef | Fuel => Fuel
             end
  end.
(** the results of all calls *)
Fixpoint p_run (l : list pcall) (p : printer) : out printer (list presult) :=
  match l with
  | [] => Ret p []
  | c :: l' => let! (p1, r) := p_do c p in let! (p2, rs) := p_run l' p1 in Ret p2 (r :: rs)
  end.
End Calls.

(** Sizes: the argument of a call is a sequence of less than 2^32 - 16 bytes; all names opened together take less than 2^62 bytes *)
Definition small (l : list N) : Prop := Forall isByte l /\ N.of_nat (length l) + 16 < 2 ^ 32.
Definition osmall (l : option (list N)) : Prop := match l with Some l => small l | None => True end.
Definition call_ok (c : pcall) : Prop :=
  match c with
  | PHeader e s => osmall e /\ osmall s
  | PDoctype r pu sy => osmall r /\ osmall pu /\ osmall sy
  | POpen n | PAttr n | PValue n => small n
  | _ => True
  end.
Definition opened (l : list pcall) : nat := list_sum (map (fun c => match c with POpen n => length n + 16 | _ => 0 end)%nat l).
Definition calls_ok (l : list pcall) : Prop := Forall call_ok l /\ N.of_nat (opened l) <= 2 ^ 62.

(** ** The tags open after a sequence of calls, each with its success *)
Fixpoint open_tags (st : list (list N)) (h : list (pcall * bool)) : list (list N) :=
  match h with
  | [] => st
  | (POpen n, true) :: h' => open_tags (n :: st) h'
  | (PClose, true) :: h' => open_tags (tl st) h'
  | (PReset _, _) :: h' => open_tags [] h'
  | _ :: h' => open_tags st h'
  end.
(** the place in the output after a sequence of calls: in content, in a start tag, behind an attribute name *)
Inductive place := InContent | InStartTag | InAttribute.
Definition place_after (pl : place) (c : pcall * bool) : place :=
  match c with
  | (POpen _, true) => InStartTag
  | (PAttr _, true) => InAttribute
  | (PValue _, true) => match pl with InAttribute => InStartTag | _ => InContent end
  | (PClose, true) | (PExit, true) | (PHeader _ _, true) | (PReset _, _) => InContent
  | _ => pl
  end.
Definition place_of (h : list (pcall * bool)) : place := fold_left place_after h InContent.

(** ** Escaped texts: [e] is the text [cl] where some characters are replaced by references, and those in [bad] always *)
Inductive escaped (bad : list N) : list N -> list N -> Prop :=
| esc_nil : escaped bad [] []
| esc_char : forall c e cl, ~ In c bad -> escaped bad e cl -> escaped bad (c :: e) (c :: cl)
| esc_ref : forall r e cl, ref_ok r -> escaped bad e cl -> escaped bad (ref_src r ++ e) (ref_char r :: cl).

(** characters the output can express (C04, C05): not those above 2^31 in UTF-8, and not the wrong part of the page 3 *)
Definition printable (cs : charset) (c : N) : Prop :=
  match cs with
  | UTF8 => c < 2 ^ 31
  | IsoLatin 3 => c < 128 \/ 256 <= c \/ representable cs c
  | _ => True
  end.
(** character sets where ASCII characters are encoded as themselves: required for printHeader and printDoctype, which decode
    their string literals with the character set of the application *)
Definition ascii_based (cs : charset) : Prop := match cs with UTF8 | IsoLatin _ => True | _ => False end.

(** ** Documents: sequences of calls whose arguments are texts (sequences of characters) *)
Definition omap_text (f : list N -> list N) (o : option (list N)) : option (list N) := match o with Some l => Some (f l) | None => None end.
Definition map_call (f : list N -> list N) (c : pcall) : pcall :=
  match c with
  | PHeader e s => PHeader (omap_text f e) (omap_text f s)
  | PDoctype r pu sy => PDoctype (omap_text f r) (omap_text f pu) (omap_text f sy)
  | POpen n => POpen (f n)
  | PAttr n => PAttr (f n)
  | PValue v => PValue (f v)
  | PExit => PExit | PClose => PClose | PReset s => PReset s | PCopy => PCopy
  end.
(** the texts passed as bytes in the character set of the application; the printer decodes them with its default instance *)
Definition app_call (acs : charset) : pcall -> pcall := map_call (flat_map (spec_encode (default_cs acs))).

Definition some_list (o : option (list N)) : list (list N) := match o with Some l => [l] | None => [] end.
Definition call_texts (c : pcall) : list (list N) :=
  match c with
  | PHeader e s => some_list e ++ some_list s
  | PDoctype r pu sy => some_list r ++ some_list pu ++ some_list sy
  | POpen n | PAttr n | PValue n => [n]
  | _ => []
  end.
(** the texts of a call can be passed to the printer and be expressed in the output *)
Definition texts_ok (ocs acs : charset) (c : pcall) : Prop :=
  Forall (Forall (fun c => representable (default_cs acs) c /\ c <> 0 /\ c < 2 ^ 32 /\ printable ocs c)) (call_texts c).

Definition xml_name (n : list N) : Prop := n <> [] /\ Forall name_char n.
(** identifiers printed in double quotes are not escaped *)
Definition quoted_id (v : list N) : Prop := Forall (value_char 34) v.
Definition oquoted (o : option (list N)) : Prop := match o with Some v => quoted_id v | None => True end.
(** calls of a document, with the place in the output before the call. An attribute name is followed by a value. *)
Definition doc_call (acs : charset) (pl : place) (c : pcall) : Prop :=
  match c with
  | PHeader e s => ascii_based acs /\ oquoted e /\ oquoted s
  | PDoctype (Some r) pu sy => ascii_based acs /\ pl = InContent /\ xml_name r /\ oquoted pu /\ oquoted sy
  | PDoctype None _ _ => True
  | POpen n => xml_name n /\ pl <> InAttribute
  | PAttr n => xml_name n
  | PExit => pl <> InAttribute
  | PValue _ | PClose | PCopy => True
  | PReset _ => False
  end.
Fixpoint doc_calls (acs : charset) (pl : place) (l : list pcall) : Prop :=
  match l with
  | [] => pl = InContent
  | c :: l' => doc_call acs pl c /\ doc_calls acs (place_after pl (c, true)) l'
  end.
(** the first call opens a tag or prints the document type, or the header if the document is not part of another *)
Definition doc_first (sub : bool) (l : list pcall) : Prop :=
  match l with
  | PHeader _ _ :: _ => sub = false
  | (POpen _ | PDoctype (Some _) _ _) :: _ => sub = true
  | _ => False
  end.

(** The elements scanned: the texts as passed to the printer, with the ends of lines normalised where they are not printed as references, this is everywhere but in
    attribute values. Consecutive contents are one, with the newline printed after the header and
    after the end of a root tag; the scanner drops blanks at the start of content after the header and the document type. *)
Fixpoint drop_blank (l : list N) : list N :=
  match l with
  | [] => []
  | c :: l' => if blank c && negb (c =? 8) then drop_blank l' else l
  end.
Definition content (drop : bool) (text : list N) : list (etype * list N) :=
  match (if drop then drop_blank text else text) with
  | [] => []
  | t => [(EContent, eol t)]
  end.
Definition header_delivered (e s : option (list N)) : list (etype * list N) :=
  [(EHeaderStart, str "?xml"); (EHeaderAttribName, str "version"); (EHeaderAttribValue, str "1.0");
   (EHeaderAttribName, str "encoding"); (EHeaderAttribValue, match e with Some e => eol e | None => str "UTF-8" end)] ++
  match s with Some s => [(EHeaderAttribName, str "standalone"); (EHeaderAttribValue, eol s)] | None => [] end ++ [(EHeaderEnd, [])].
Definition doctype_delivered (r : list N) (pu sy : option (list N)) : list (etype * list N) :=
  [(EDocAttribValue, str "DOCTYPE"); (EDocAttribValue, r)] ++
  match pu, sy with
  | Some pu, Some sy => [(EDocAttribValue, str "PUBLIC"); (EDocAttribValue, eol pu); (EDocAttribValue, eol sy)]
  | _, Some sy => [(EDocAttribValue, str "SYSTEM"); (EDocAttribValue, eol sy)]
  | _, None => []
  end ++ [(EDocAttribEnd, [])].
Fixpoint delivered (pl : place) (drop : bool) (text : list N) (tags : list (list N)) (l : list pcall) : list (etype * list N) :=
  match l with
  | [] => content drop text
  | c :: l' =>
      let pl' := place_after pl (c, true) in
      match c with
      | PHeader e s => header_delivered e s ++ delivered pl' true [10] tags l'
      | PDoctype (Some r) pu sy => content drop text ++ doctype_delivered r pu sy ++ delivered pl' true [] tags l'
      | POpen n => content drop text ++ (EOpenTag, n) :: delivered pl' false [] (n :: tags) l'
      | PAttr n => (ETagAttribName, n) :: delivered pl' false [] tags l'
      | PValue v => match pl with
                    | InAttribute => (ETagAttribValue, v) :: delivered pl' false [] tags l'
                    | _ => delivered pl' drop (text ++ v) tags l'
                    end
      | PClose => match pl with
                  | InStartTag => [(ECloseTagIm, [])]
                  | _ => content drop text ++ [(ECloseTag, hd [] tags)]
                  end ++ delivered pl' false (match tl tags with [] => [10] | _ => [] end) (tl tags) l'
      | _ => delivered pl' drop text tags l'
      end
  end.
