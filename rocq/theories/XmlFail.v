(** XMLScanner with an output buffer that throws: xmlscanner.hpp (model). In XmlScanner.v push_back of the buffer succeeds; here each push_back is answered. *)
From Verif Require Import Base Iter CharMap Charset TextScanner XmlScanner ReadSpec ScanSpec.

Section Fail.
Context {R : Type} (rops : readerops R) (cfg : config).
(** The scanner, and for each push_back to come whether it succeeds; after the last answer all succeed. One that does not throws and appends nothing (as std::string and std::vector do). The
    buffer is the member m_outputBuf of the scanner; clear() does not throw. *)
Definition fscn := (scanner R * list bool)%type.
(** what appends nothing *)
Definition f_lift {A} (m : scanner R -> out (scanner R) A) (x : fscn) : out fscn A := omap (fun s => (s, snd x)) (m (fst x)).
Definition f_set (f : scanner R -> scanner R) (x : fscn) : fscn := (f (fst x), snd x).

(** push_back of each of the bytes: the loops of the functions print of the character sets and of copychar, textscanner.hpp:197-208 *)
Fixpoint f_put (l : list N) (x : fscn) : out fscn unit :=
  match l with
  | [] => Ret x tt
  | b :: l =>
      match snd x with
      | [] => f_put l (set_obuf (sc_obuf (fst x) ++ [b]) (fst x), [])
      | true :: a => f_put l (set_obuf (sc_obuf (fst x) ++ [b]) (fst x), a)
      | false :: a => Throw (fst x, a)
      end
  end.
(** push, lines 493-496 *)
Definition f_push (c : N) (x : fscn) : out fscn unit := f_put (cs_print (cf_out cfg) c) x.
Fixpoint f_pushes (l : list N) (x : fscn) : out fscn unit :=
  match l with
  | [] => Ret x tt
  | c :: l => let! (x, _) := f_push c x in f_pushes l x
  end.
(** copychar, lines 498-511 *)
Definition f_copychar (x : fscn) : out fscn unit :=
  if cf_raw cfg
  then let! (x, bs) := f_lift (sc_raw rops) x in f_put bs x
  else let! (x, v) := f_lift (sc_chr rops) x in f_push v x.
(** fallbackEntity, lines 565-591 *)
Definition f_fallback (x : fscn) : out fscn unit :=
  match tk_id (sc_tok (fst x)) with
  | TParsingEntity => f_push 38 x
  | TParsingNumericEntity => f_pushes [38; 35] x
  | TParsingNumericBaseEntity => f_pushes (38 :: 35 :: tokchars (sc_tok (fst x))) x
  | TParsingNamedEntity => f_pushes (38 :: tokchars (sc_tok (fst x))) x
  | _ => Ret x tt
  end.
(** fallbackEntity(); return true; *)
Definition f_fallback_true (x : fscn) : out fscn bool := let! (x, _) := f_fallback x in Ret x true.
(** the while loop of parseNumericBaseEntity, lines 638-668: the member pos is incremented before fallbackEntity, the state is set back after push *)
Fixpoint f_numBaseLoop (k : nat) (x : fscn) : out fscn bool :=
  match k with
  | O => f_fallback_true x
  | S k' =>
      let! (x, c) := f_lift (sc_ascii rops) x in
      if c =? 59
      then
        if 0xFFFFFFFF <? tk_value (sc_tok (fst x))
        then match tok_put c (sc_tok (fst x)) with
             | Some t => f_fallback_true (f_set (set_tok (tok_incpos t)) x)
             | None => Undef
             end
        else
          let! (x, _) := f_push (u32 (tk_value (sc_tok (fst x)))) x in
          let! (x, _) := f_lift (sc_skip rops) (f_set (upd_tok (tok_init TParsingToken)) x) in
          Ret x true
      else
        match HEX c with
        | None => Undef
        | Some chval =>
            if tk_base (sc_tok (fst x)) <=? chval then f_fallback_true x
            else
              match tok_put c (sc_tok (fst x)) with
              | None => Undef
              | Some t =>
                  let v := u64 (tk_value t * tk_base t + chval) in
                  let! (x, _) := f_lift (sc_skip rops) (f_set (set_tok (tok_value v (tok_incpos t))) x) in
                  f_numBaseLoop k' x
              end
        end
  end.
(** parseNumericBaseEntity, lines 633-669 *)
Definition f_numericBase (x : fscn) : out fscn bool :=
  let x := f_set (upd_tok (tok_id TParsingNumericBaseEntity)) x in
  f_numBaseLoop (16 - tk_pos (sc_tok (fst x))) x.
(** parseNumericEntity, lines 613-629 *)
Definition f_numeric (x : fscn) : out fscn bool :=
  let! (x, c) := f_lift (sc_ascii rops) (f_set (upd_tok (tok_id TParsingNumericEntity)) x) in
  if c =? 120
  then let! (x, _) := f_lift (sc_skip rops) (f_set (upd_tok (tok_base 16)) x) in f_numericBase x
  else f_numericBase (f_set (upd_tok (tok_base 10)) x).
(** pushEntity, lines 945-971 *)
Definition f_pushEntity (x : fscn) : out fscn bool :=
  match predefined (tk_buf (sc_tok (fst x))) with
  | Some c => let! (x, _) := f_push c x in Ret x true
  | None =>
      match cf_map cfg with
      | Some m => match map_find m (cf_bufaddr cfg) with
                  | None => Ret (f_set (set_err ErrUndefinedCharacterEntity) x) false
                  | Some c => let! (x, _) := f_push c x in Ret x true
                  end
      | None => Ret (f_set (set_err ErrUndefinedCharacterEntity) x) false
      end
  end.
(** parseNamedEntity, lines 673-698; its loop appends nothing (namedLoop) *)
Definition f_named (x : fscn) : out fscn bool :=
  let! (x, c) := f_lift (sc_ascii rops) (f_set (upd_tok (tok_id TParsingNamedEntity)) x) in
  let! (x, c2) := f_lift (fun s => namedLoop rops (15 - tk_pos (sc_tok s)) s c) x in
  if c2 =? 59
  then match tok_put 0 (sc_tok (fst x)) with
       | None => Undef
       | Some t =>
           let! (x, ok) := f_pushEntity (f_set (set_tok t) x) in
           if ok
           then let! (x, _) := f_lift (sc_skip rops) (f_set (upd_tok (tok_init TParsingToken)) x) in Ret x true
           else Ret x false
       end
  else f_fallback_true x.
(** parseEntity, lines 595-609 *)
Definition f_entity (x : fscn) : out fscn bool :=
  let! (x, c) := f_lift (sc_ascii rops) (f_set (upd_tok (tok_id TParsingEntity)) x) in
  if c =? 35
  then let! (x, _) := f_lift (sc_skip rops) x in f_numeric x
  else f_named x.
(** parseTokenRecover, lines 702-725 *)
Definition f_recover (x : fscn) : out fscn bool :=
  let fin m := let! (x, rt) := m in Ret (f_set (upd_tok (tok_init TParsingToken)) x) rt in
  match tk_id (sc_tok (fst x)) with
  | TParsingEntity => fin (f_entity x)
  | TParsingNumericEntity => fin (f_numeric x)
  | TParsingNumericBaseEntity => fin (f_numericBase x)
  | TParsingNamedEntity => fin (f_named x)
  | _ => Ret (f_set (set_err ErrInternal) x) false
  end.
(** lines 754-781: output of one character of a token *)
Definition f_tokenChar (x : fscn) : out fscn unit :=
  let! (x, aa) := f_lift (sc_ascii rops) x in
  if aa =? 13
  then let! (x, _) := f_push 10 x in Ret (f_set (upd_tok (tok_cr true)) x) tt
  else if aa =? 10
  then let! (x, _) := (if tk_cr (sc_tok (fst x)) then Ret x tt else f_push 10 x) in Ret (f_set (upd_tok (tok_cr false)) x) tt
  else let! (x, _) := f_copychar x in Ret (f_set (upd_tok (tok_cr false)) x) tt.
(** the loops of parseToken, lines 746-798 *)
Fixpoint f_tokenLoop (fuel : nat) (isTok : list bool) (x : fscn) : out fscn bool :=
  match fuel with
  | O => Fuel
  | S f =>
      let! (x, c) := f_lift (sc_control rops) x in
      match isTokAt isTok c with
      | None => Undef
      | Some true =>
          let! (x, _) := f_tokenChar x in
          let! (x, _) := f_lift (sc_skip rops) x in
          f_tokenLoop f isTok x
      | Some false =>
          if ctl_eqb c CAmp
          then
            let! (x, _) := f_lift (sc_skip rops) x in
            let! (x, ok) := f_entity x in
            if ok then f_tokenLoop f isTok (f_set (upd_tok (tok_init TParsingToken)) x)
            else Ret (f_set (upd_tok (tok_init TStart)) x) false
          else Ret (f_set (upd_tok (tok_init TParsingDone)) x) true
      end
  end.
(** parseToken, lines 730-799 *)
Definition f_token (fuel : nat) (isTok : list bool) (x : fscn) : out fscn bool :=
  match tk_id (sc_tok (fst x)) with
  | TStart =>
      f_tokenLoop fuel isTok (f_set (fun s => set_obuf [] (upd_tok (tok_id TParsingToken) (set_tokpos (r_pos rops (sc_src s)) s))) x)
  | TParsingToken => f_tokenLoop fuel isTok x
  | _ =>
      let! (x, ok) := f_recover x in
      if ok then f_tokenLoop fuel isTok x
      else Ret (f_set (upd_tok (tok_init TStart)) x) false
  end.
(** the action of a state, lines 1114-1154; skipToken and expectStr append nothing. push( '?'); push( 'x'); push( 'm'); push( 'l') is behind expectStr *)
Definition f_doAction (fuel : nat) (mask : N) (a : stmaction) (arg : etype) (x : fscn) : out fscn (etype + unit) :=
  match tokenDef a with
  | Some isTok =>
      match tk_id (sc_tok (fst x)) with
      | TParsingDone => Ret x (inl arg)
      | _ =>
          let! (x, ok) := (if N.testbit mask (etype_idx arg)
                           then f_token fuel isTok x
                           else f_lift (skipTokenLoop rops fuel isTok) x) in
          if ok then Ret x (inl arg) else Ret x (inr tt)
      end
  | None =>
      match stringDef a with
      | Some k =>
          match tk_id (sc_tok (fst x)) with
          | TParsingDone => Ret x (inl match a with ExpectIdentifierXML => EHeaderStart | _ => ENone end)
          | _ =>
              let! (x, ok) := f_lift (expectStr rops k) x in
              if ok
              then match a with
                   | ExpectIdentifierXML => let! (x, _) := f_pushes [63; 120; 109; 108] x in Ret x (inl EHeaderStart)
                   | _ => Ret x (inl ENone)
                   end
              else Ret x (inr tt)
          end
      | None => Ret (f_set (fun s => set_obuf [] (set_tokpos (r_pos rops (sc_src s)) s)) x) (inl arg)
      end
  end.
(** nextItem, lines 1097-1194 *)
Fixpoint f_nextItem (fuel : nat) (mask : N) (x : fscn) : out fscn etype :=
  match fuel with
  | O => Fuel
  | S f =>
      match stm_get (sc_state (fst x)) with
      | None => Undef
      | Some e =>
          let! (x, r) :=
            (match el_action e with
             | None => Ret x (ENone, false)
             | Some (a, arg) =>
                 let! (x, res) := f_doAction f mask a arg x in
                 match res with
                 | inr _ => Ret x (EErrorOccurred, true)
                 | inl rt =>
                     if Nat.eqb (el_nofnext e) 0
                     then Ret (match el_fallback e with
                               | Some fs => f_set (set_state fs) x
                               | None => x
                               end) (rt, true)
                     else Ret x (rt, false)
                 end
             end) in
          if snd r then Ret x (fst r)
          else
            let! (x, c) := f_lift (sc_control rops) x in
            let! (x, ok) := f_lift (transition rops e c) (f_set (upd_tok (tok_id TStart)) x) in
            if ok
            then if isNone (fst r) then f_nextItem f mask x else Ret x (fst r)
            else Ret x EErrorOccurred
      end
  end.
(** a call of nextItem that is repeated after each exception of the buffer, up to [n] times *)
Fixpoint f_again (n fuel : nat) (mask : N) (x : fscn) : out fscn etype :=
  match f_nextItem fuel mask x with
  | Throw x => match n with
               | O => Throw x
               | S n => f_again n fuel mask x
               end
  | r => r
  end.
Fixpoint f_scan (fuel : nat) (masks : list N) (x : fscn) : out fscn (list event) :=
  match masks with
  | [] => Ret x []
  | m :: masks =>
      let! (x, t) := f_again (length (snd x)) fuel m x in
      let e := observe rops t (fst x) in
      let! (x, evs) := f_scan fuel masks x in
      Ret x (e :: evs)
  end.
End Fail.
(** XMLScanner<SrcIterator,incs,outcs,Buffer> on a text in memory *)
Definition xml_again (incs outcs : charset) (fuel : nat) (masks : list N) (text : list N) (answers : list bool) : out (fscn (R := tscan srcit)) (list event) :=
  f_scan (ts_ops src_ops incs) (xml_config incs outcs None 0) fuel masks (sc_make (ts_make (src_make text false)), answers).
