(** XmlHdrParser: xmlhdrparser.hpp (model). *)
From Verif Require Import Base.

(** enum State, lines 346-357; enum AttributeType, lines 359-364 *)
Inductive hstate := HInit | HXmlOpen | HXmlHdr | HFindName | HName | HFindAssign | HFindValue | HValueSq | HValueDq.
Inductive hattr := HEncoding | HVersion | HStandalone.

(** members, lines 373-381. The sizes and counters are bounded by the size of m_src and do not wrap, m_zeroCount is at most 4. *)
Record hdr := mkHdr {
  h_state : hstate; h_attr : hattr; h_idx : nat; h_consumed : nat; h_zero : nat;
  h_item : list N; h_src : list N; h_enc : list N; h_err : list N }.

(** constructor, lines 29-34 *)
Definition h_new : hdr := mkHdr HInit HEncoding 0 0 0 [] [] [] [].
(** copy constructor, lines 38-45: m_encoding and m_lasterror are default constructed *)
Definition h_copy (h : hdr) : hdr :=
  mkHdr (h_state h) (h_attr h) (h_idx h) (h_consumed h) (h_zero h) (h_item h) (h_src h) [] [].
(** clear, lines 307-318 *)
Definition h_clear (h : hdr) : hdr := mkHdr HInit HEncoding 0 0 0 [] [] [] [].
(** putInput, lines 51-54 *)
Definition h_put (h : hdr) (bytes : list N) : hdr :=
  mkHdr (h_state h) (h_attr h) (h_idx h) (h_consumed h) (h_zero h) (h_item h) (h_src h ++ bytes) (h_enc h) (h_err h).
(** consumedData, lines 58-61; charsConsumed, lines 301-304 *)
Definition h_data (h : hdr) : list N := h_src h.
Definition h_chars (h : hdr) : nat := h_consumed h.
(** lasterror, lines 287-290; encoding, lines 294-297; [None] is the null pointer *)
Definition h_lasterror (h : hdr) : option (list N) := match h_err h with [] => None | e => Some e end.
Definition h_encoding (h : hdr) : option (list N) := match h_enc h with [] => None | e => Some e end.

(** assignments to members *)
Definition h_to (st : hstate) (h : hdr) : hdr :=
  mkHdr st (h_attr h) (h_idx h) (h_consumed h) (h_zero h) (h_item h) (h_src h) (h_enc h) (h_err h).
Definition h_setAttr (a : hattr) (h : hdr) : hdr :=
  mkHdr (h_state h) a (h_idx h) (h_consumed h) (h_zero h) (h_item h) (h_src h) (h_enc h) (h_err h).
Definition h_push (c : N) (h : hdr) : hdr :=
  mkHdr (h_state h) (h_attr h) (h_idx h) (h_consumed h) (h_zero h) (h_item h ++ [c]) (h_src h) (h_enc h) (h_err h).
Definition h_clearItem (h : hdr) : hdr :=
  mkHdr (h_state h) (h_attr h) (h_idx h) (h_consumed h) (h_zero h) [] (h_src h) (h_enc h) (h_err h).
Definition h_setEnc (e : list N) (h : hdr) : hdr :=
  mkHdr (h_state h) (h_attr h) (h_idx h) (h_consumed h) (h_zero h) (h_item h) (h_src h) e (h_err h).
(** setError, lines 321-324 *)
Definition h_setError (e : list N) (h : hdr) : hdr :=
  mkHdr (h_state h) (h_attr h) (h_idx h) (h_consumed h) (h_zero h) (h_item h) (h_src h) (h_enc h) e.
Definition h_setZero (z : nat) (h : hdr) : hdr :=
  mkHdr (h_state h) (h_attr h) (h_idx h) (h_consumed h) z (h_item h) (h_src h) (h_enc h) (h_err h).
(** lines 332 and 335-339 *)
Definition h_skip (h : hdr) : hdr :=
  mkHdr (h_state h) (h_attr h) (S (h_idx h)) (h_consumed h) (h_zero h) (h_item h) (h_src h) (h_enc h) (h_err h).
Definition h_count (c : N) (h : hdr) : hdr :=
  mkHdr (h_state h) (h_attr h) (h_idx h) (if 32 <? c then S (h_consumed h) else h_consumed h) 0 (h_item h) (h_src h) (h_enc h) (h_err h).

(** nextChar, lines 326-344. The loop is left after at most 5 steps. [Throw]: IllegalXmlHeader *)
Fixpoint h_next (fuel : nat) (h : hdr) : out hdr N :=
  match fuel with
  | O => Fuel
  | S fuel' =>
      if Nat.ltb (h_zero h) 4
      then match nth_error (h_src h) (h_idx h) with
           | None => Ret h 0
           | Some c => if c =? 0 then h_next fuel' (h_setZero (S (h_zero (h_skip h))) (h_skip h)) else Ret (h_count c (h_skip h)) c
           end
      else Throw h
  end.
Definition h_nextChar (h : hdr) : out hdr N := h_next 5 h.

(** ((ch|32) >= 'a' && (ch|32) <= 'z') || ch == '_' *)
Definition h_alpha (c : N) : bool := (97 <=? N.lor c 32) && (N.lor c 32 <=? 122) || (c =? 95).

(** m_item == "..": comparison of strings *)
Fixpoint bytes_eqb (a b : list N) : bool :=
  match a, b with
  | [], [] => true
  | x :: a', y :: b' => (x =? y) && bytes_eqb a' b'
  | _, _ => false
  end.

(** the body of the loop, lines 70-280; [None]: continue, [Some b]: return b *)
Definition h_fail (msg : string) (h : hdr) : hdr * option bool := (h_setError (str msg) h, Some false).
Definition h_char (c : N) (h : hdr) : hdr * option bool :=
  match h_state h with
  | HInit =>                                                                        (* lines 72-86 *)
      if c =? 60 then (h_to HXmlOpen h, None)
      else if c <=? 32 then (h, None)
      else h_fail "expected open tag angle bracket '>'" h
  | HXmlOpen =>                                                                     (* lines 88-106 *)
      if c =? 63 then (h_to HXmlHdr h, None)
      else if c <=? 32 then (h, None)
      else if h_alpha c then (h, Some true)
      else h_fail "expected xml header question mark '?' after open tag angle bracket '<'" h
  | HXmlHdr =>                                                                      (* lines 108-136 *)
      if (c <=? 32) || (c =? 63)
      then if negb (bytes_eqb (h_item h) (str "xml")) then h_fail "expected '<?xml' as xml header start" h
           else if c =? 63 then (h_clearItem h, Some true) else (h_to HFindName (h_clearItem h), None)
      else if h_alpha c then (h_push c h, None)
      else if c =? 62 then h_fail "unexpected close angle bracket '>' in xml header after '<?xml'" h
      else h_fail "expected '<?xml' as xml header start (invalid character)" h
  | HFindName =>                                                                    (* lines 138-162 *)
      if c <=? 32 then (h, None)
      else if (c =? 62) || (c =? 63)
      then if c =? 62 then h_fail "unexpected close angle bracket '>' in xml header (missing '?')" h else (h, Some true)
      else if h_alpha c then (h_to HName (h_push c h), None)
      else h_fail "invalid character in xml header attribute name" h
  | HName =>                                                                        (* lines 163-201 *)
      if (c <=? 32) || (c =? 61)
      then let go a := let h' := h_clearItem (h_setAttr a h) in
                       if c =? 61 then (h_to HFindValue h', None) else (h_to HFindAssign h', None) in
           if bytes_eqb (h_item h) (str "encoding") then go HEncoding
           else if bytes_eqb (h_item h) (str "version") then go HVersion
           else if bytes_eqb (h_item h) (str "standalone") then go HStandalone
           else h_fail "unknown xml header attribute name" h
      else if h_alpha c then (h_push c h, None)
      else h_fail "invalid character in xml header attribute name" h
  | HFindAssign =>                                                                  (* lines 202-216 *)
      if c =? 61 then (h_to HFindValue h, None)
      else if c <=? 32 then (h, None)
      else h_fail "expected '=' after xml header attribute name" h
  | HFindValue =>                                                                   (* lines 217-237 *)
      if c =? 34 then (h_to HValueDq h, None)
      else if c =? 39 then (h_to HValueSq h, None)
      else if c <=? 32 then (h, None)
      else h_fail "expected single or double quote string as xml header attribute value" h
  | HValueSq | HValueDq =>                                                          (* lines 238-279 *)
      if c =? (match h_state h with HValueSq => 39 | _ => 34 end)
      then (h_to HFindName (h_clearItem (match h_attr h with HEncoding => h_setEnc (h_item h) h | _ => h end)), None)
      else (h_push c h, None)
  end.

(** parse, lines 65-283; each step reads at least one byte *)
Fixpoint h_loop (fuel : nat) (h : hdr) : out hdr bool :=
  match fuel with
  | O => Fuel
  | S fuel' =>
      let! (h1, c) := h_nextChar h in
      if c =? 0 then Ret h1 false
      else match h_char c h1 with
           | (h2, Some b) => Ret h2 b
           | (h2, None) => h_loop fuel' h2
           end
  end.
Definition h_parse (h : hdr) : out hdr bool := h_loop (S (length (h_src h) - h_idx h)) h.
