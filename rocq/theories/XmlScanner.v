(** XMLScanner: xmlscanner.hpp (model). *)
From Verif Require Import Base Iter CharMap Charset TextScanner.

(** enum ElementType, xmlscanner.hpp:173-190 *)
Inductive etype :=
| ENone | EErrorOccurred | EHeaderStart | EHeaderAttribName | EHeaderAttribValue | EHeaderEnd
| EDocAttribValue | EDocAttribEnd | ETagAttribName | ETagAttribValue | EOpenTag | ECloseTag
| ECloseTagIm | EContent | EExit.

(** numeric values, xmlscanner.hpp:175-189 *)
Definition etype_idx (e : etype) : N :=
  match e with
  | ENone => 0 | EErrorOccurred => 1 | EHeaderStart => 2 | EHeaderAttribName => 3
  | EHeaderAttribValue => 4 | EHeaderEnd => 5 | EDocAttribValue => 6 | EDocAttribEnd => 7
  | ETagAttribName => 8 | ETagAttribValue => 9 | EOpenTag => 10 | ECloseTag => 11
  | ECloseTagIm => 12 | EContent => 13 | EExit => 14
  end.

(** enum Error, xmlscanner.hpp:207-225 *)
Inductive xerror :=
| Ok | ErrIllegalDocumentAttributeDef | ErrExpectedOpenTag | ErrExpectedXMLTag
| ErrUnexpectedEndOfText | ErrSyntaxToken | ErrStringNotTerminated | ErrUndefinedCharacterEntity
| ErrExpectedTagEnd | ErrExpectedEqual | ErrExpectedTagAttribute | ErrExpectedCDATATag
| ErrInternal | ErrUnexpectedEndOfInput | ErrExpectedEndOfLine | ErrExpectedDash2.

(** getErrorString, xmlscanner.hpp:230-251; [None] is the null pointer *)
Definition getErrorString (e : xerror) : option (list N) :=
  match e with
  | Ok => None
  | ErrIllegalDocumentAttributeDef => Some (str "illegal document attribute definition")
  | ErrExpectedOpenTag => Some (str "expected open tag")
  | ErrExpectedXMLTag => Some (str "expected XML tag")
  | ErrUnexpectedEndOfText => Some (str "unexpected end of text")
  | ErrSyntaxToken => Some (str "syntax token")
  | ErrStringNotTerminated => Some (str "string not terminated")
  | ErrUndefinedCharacterEntity => Some (str "undefined character entity")
  | ErrExpectedTagEnd => Some (str "expected tag end")
  | ErrExpectedEqual => Some (str "expected equal")
  | ErrExpectedTagAttribute => Some (str "expected tag attribute")
  | ErrExpectedCDATATag => Some (str "expected CDATA tag")
  | ErrInternal => Some (str "internal (illegal state)")
  | ErrUnexpectedEndOfInput => Some (str "unexpected end of input")
  | ErrExpectedEndOfLine => Some (str "expected end of line")
  | ErrExpectedDash2 =>
      Some (str "expected 2nd '-' to complete marker for start of comment '<!--'")
  end.

(** enum STMState, xmlscanner.hpp:255-261 *)
Inductive stm :=
| START | STARTTAG | XTAG | PITAG | PITAGEND | XTAGEND | XTAGDONE | XTAGAISK | XTAGANAM | XTAGAESK
| XTAGAVSK | XTAGAVID | XTAGAVSQ | XTAGAVDQ | XTAGAVQE
| DOCSTART | CONTENT | TOKEN | SEEKTOK | XMLTAG | OPENTAG | CLOSETAG | TAGCLSK | TAGAISK | TAGANAM
| TAGAESK | TAGAVSK | TAGAVID | TAGAVSQ | TAGAVDQ | TAGAVQE
| TAGCLIM | ENTITYSL | ENTITY | ENTITYE | ENTITYID | ENTITYSQ | ENTITYDQ | ENTITYLC
| COMDASH2 | COMSEEKE | COMENDD2 | COMENDCL | CDATA | CDATA1 | CDATA2 | CDATA3 | EXIT.

Definition all_stm : list stm :=
  [START; STARTTAG; XTAG; PITAG; PITAGEND; XTAGEND; XTAGDONE; XTAGAISK; XTAGANAM; XTAGAESK;
   XTAGAVSK; XTAGAVID; XTAGAVSQ; XTAGAVDQ; XTAGAVQE;
   DOCSTART; CONTENT; TOKEN; SEEKTOK; XMLTAG; OPENTAG; CLOSETAG; TAGCLSK; TAGAISK; TAGANAM;
   TAGAESK; TAGAVSK; TAGAVID; TAGAVSQ; TAGAVDQ; TAGAVQE;
   TAGCLIM; ENTITYSL; ENTITY; ENTITYE; ENTITYID; ENTITYSQ; ENTITYDQ; ENTITYLC;
   COMDASH2; COMSEEKE; COMENDD2; COMENDCL; CDATA; CDATA1; CDATA2; CDATA3; EXIT].

(** the enumeration values *)
Definition stm_idx (s : stm) : nat :=
  match s with
  | START => 0 | STARTTAG => 1 | XTAG => 2 | PITAG => 3 | PITAGEND => 4 | XTAGEND => 5
  | XTAGDONE => 6 | XTAGAISK => 7 | XTAGANAM => 8 | XTAGAESK => 9 | XTAGAVSK => 10
  | XTAGAVID => 11 | XTAGAVSQ => 12 | XTAGAVDQ => 13 | XTAGAVQE => 14 | DOCSTART => 15
  | CONTENT => 16 | TOKEN => 17 | SEEKTOK => 18 | XMLTAG => 19 | OPENTAG => 20 | CLOSETAG => 21
  | TAGCLSK => 22 | TAGAISK => 23 | TAGANAM => 24 | TAGAESK => 25 | TAGAVSK => 26 | TAGAVID => 27
  | TAGAVSQ => 28 | TAGAVDQ => 29 | TAGAVQE => 30 | TAGCLIM => 31 | ENTITYSL => 32 | ENTITY => 33
  | ENTITYE => 34 | ENTITYID => 35 | ENTITYSQ => 36 | ENTITYDQ => 37 | ENTITYLC => 38
  | COMDASH2 => 39 | COMSEEKE => 40 | COMENDD2 => 41 | COMENDCL => 42 | CDATA => 43 | CDATA1 => 44
  | CDATA2 => 45 | CDATA3 => 46 | EXIT => 47
  end.

(** enum STMAction, xmlscanner.hpp:287-291 *)
Inductive stmaction :=
| Return | ReturnWord | ReturnContent | ReturnIdentifier | ReturnSQString | ReturnDQString
| ExpectIdentifierXML | ExpectIdentifierCDATA | ReturnEOF.

(** struct ScannerStatemachine::Element, xmlscanner.hpp:34-57; -1 is [None] *)
Record element := mkEl {
  el_fallback : option stm;
  el_miss : option xerror;
  el_action : option (stmaction * etype);
  el_nofnext : nat;
  el_next : list (option stm)
}.
(** constructor, lines 51-56 *)
Definition el_new : element := mkEl None None None 0 (repeat None NofControlCharacter).

(** The chained calls by which the table is defined, xmlscanner.hpp:147-163 *)
Inductive bop :=
| On (cs : list ctl) (ns : stm)              (* (c1,..,cn,ns) lines 149-153 *)
| Self (c : ctl)                             (* (c) line 155 *)
| Act (a : stmaction) (arg : etype)          (* .action(a,arg) line 157 *)
| Miss (e : xerror)                          (* .miss(e) line 159 *)
| Fallback (s : stm)                         (* .fallback(s) line 161 *)
| Other (s : stm).                           (* .other(s) line 163 *)

(** addTransition, lines 96-104; [None]: exception DuplicateStateTransition *)
Definition addTransition (c : ctl) (ns : stm) (e : element) : option element :=
  match nth_error (el_next e) (ctl_idx c) with
  | Some None =>
      Some (mkEl (el_fallback e) (el_miss e) (el_action e) (S (el_nofnext e))
                 (upd (ctl_idx c) (Some ns) (el_next e)))
  | _ => None
  end.
(** addOtherTransition, lines 82-91 *)
Definition addOther (ns : stm) (e : element) : option element :=
  Some (mkEl (el_fallback e) (el_miss e) (el_action e) NofControlCharacter
             (map (fun o => match o with None => Some ns | Some s => Some s end) (el_next e))).
(** addAction, lines 116-122 *)
Definition addAction (a : stmaction) (arg : etype) (e : element) : option element :=
  match el_action e with
  | None => Some (mkEl (el_fallback e) (el_miss e) (Some (a, arg)) (el_nofnext e) (el_next e))
  | Some _ => None
  end.
(** addMiss, lines 126-131 *)
Definition addMiss (er : xerror) (e : element) : option element :=
  match el_miss e with
  | None => Some (mkEl (el_fallback e) (Some er) (el_action e) (el_nofnext e) (el_next e))
  | Some _ => None
  end.
(** addFallback, lines 135-141 *)
Definition addFallback (s : stm) (e : element) : option element :=
  match el_fallback e with
  | None => Some (mkEl (Some s) (el_miss e) (el_action e) (el_nofnext e) (el_next e))
  | Some _ => None
  end.

Fixpoint addTransitions (cs : list ctl) (ns : stm) (e : element) : option element :=
  match cs with
  | [] => Some e
  | c :: cs' => match addTransition c ns e with
                | Some e' => addTransitions cs' ns e'
                | None => None
                end
  end.

Definition applyBop (self : stm) (b : bop) (e : element) : option element :=
  match b with
  | On cs ns => addTransitions cs ns e
  | Self c => addTransition c self e
  | Act a arg => addAction a arg e
  | Miss er => addMiss er e
  | Fallback s => addFallback s e
  | Other s => addOther s e
  end.

Fixpoint applyBops (self : stm) (bs : list bop) (e : element) : option element :=
  match bs with
  | [] => Some e
  | b :: bs' => match applyBop self b e with
                | Some e' => applyBops self bs' e'
                | None => None
                end
  end.

(** newState, lines 73-78 and the whole chain; [None]: one of the calls throws
    (StateNumbersNotAscending, DimOutOfRange, DuplicateStateTransition, InvalidState) *)
Fixpoint buildTable (defs : list (stm * list bop)) (tab : list element) : option (list element) :=
  match defs with
  | [] => Some tab
  | (s, bs) :: defs' =>
      if Nat.eqb (length tab) (stm_idx s) && Nat.ltb (length tab) 64
      then match applyBops s bs el_new with
           | Some e => buildTable defs' (tab ++ [e])
           | None => None
           end
      else None
  end.

(** struct Statemachine, xmlscanner.hpp:304-359 *)
Definition tableDefs : list (stm * list bop) :=
  let ws := [CEndOfLine; CCntrl; CSpace] in
  let selfws := [Self CEndOfLine; Self CCntrl; Self CSpace] in
  [ (START, [On [CEndOfText] EXIT] ++ selfws ++ [On [CLt] STARTTAG; Miss ErrExpectedOpenTag]);
    (STARTTAG, selfws ++ [On [CQuestm] XTAG; On [CExclam] ENTITYSL; Fallback OPENTAG]);
    (XTAG, [Act ExpectIdentifierXML ENone; On ws XTAGAISK; On [CQuestm] XTAGEND;
            Miss ErrExpectedXMLTag]);
    (PITAG, [On [CQuestm] PITAGEND; Other PITAG]);
    (PITAGEND, [On [CGt] CONTENT; Miss ErrExpectedTagEnd]);
    (XTAGEND, [On [CGt] XTAGDONE] ++ selfws ++ [Miss ErrExpectedTagEnd]);
    (XTAGDONE, [Act Return EHeaderEnd; Fallback DOCSTART]);
    (XTAGAISK, selfws ++ [On [CQuestm] XTAGEND; Fallback XTAGANAM]);
    (XTAGANAM, [Act ReturnIdentifier EHeaderAttribName; On ws XTAGAESK; On [CEqual] XTAGAVSK;
                Miss ErrExpectedEqual]);
    (XTAGAESK, selfws ++ [On [CEqual] XTAGAVSK; Miss ErrExpectedEqual]);
    (XTAGAVSK, selfws ++ [On [CSq] XTAGAVSQ; On [CDq] XTAGAVDQ; Fallback XTAGAVID]);
    (XTAGAVID, [Act ReturnIdentifier EHeaderAttribValue; On ws XTAGAISK; On [CQuestm] XTAGEND;
                Miss ErrExpectedTagAttribute]);
    (XTAGAVSQ, [Act ReturnSQString EHeaderAttribValue; On [CSq] XTAGAVQE;
                Miss ErrStringNotTerminated]);
    (XTAGAVDQ, [Act ReturnDQString EHeaderAttribValue; On [CDq] XTAGAVQE;
                Miss ErrStringNotTerminated]);
    (XTAGAVQE, [On ws XTAGAISK; On [CQuestm] XTAGEND; Miss ErrExpectedTagAttribute]);
    (DOCSTART, [On [CEndOfText] EXIT] ++ selfws ++ [On [CLt] XMLTAG; Fallback TOKEN]);
    (CONTENT, [On [CEndOfText] EXIT; On [CLt] XMLTAG; Fallback TOKEN]);
    (TOKEN, [Act ReturnContent EContent; On [CEndOfText] EXIT; On ws CONTENT; On [CLt] XMLTAG;
             Fallback CONTENT]);
    (SEEKTOK, [On [CEndOfText] EXIT] ++ selfws ++ [On [CLt] XMLTAG; Fallback TOKEN]);
    (XMLTAG, selfws ++ [On [CQuestm] PITAG; On [CExclam] ENTITYSL; On [CSlash] CLOSETAG;
                        Fallback OPENTAG]);
    (OPENTAG, [Act ReturnIdentifier EOpenTag; On ws TAGAISK; On [CSlash] TAGCLIM;
               On [CGt] CONTENT; Miss ErrExpectedTagAttribute]);
    (CLOSETAG, [Act ReturnIdentifier ECloseTag; On ws TAGCLSK; On [CGt] CONTENT;
                Miss ErrExpectedTagEnd]);
    (TAGCLSK, selfws ++ [On [CGt] CONTENT; Miss ErrExpectedTagEnd]);
    (TAGAISK, selfws ++ [On [CGt] CONTENT; On [CSlash] TAGCLIM; Fallback TAGANAM]);
    (TAGANAM, [Act ReturnIdentifier ETagAttribName; On ws TAGAESK; On [CEqual] TAGAVSK;
               Miss ErrExpectedEqual]);
    (TAGAESK, selfws ++ [On [CEqual] TAGAVSK; Miss ErrExpectedEqual]);
    (TAGAVSK, selfws ++ [On [CSq] TAGAVSQ; On [CDq] TAGAVDQ; Fallback TAGAVID]);
    (TAGAVID, [Act ReturnIdentifier ETagAttribValue; On ws TAGAISK; On [CSlash] TAGCLIM;
               On [CGt] CONTENT; Miss ErrExpectedTagAttribute]);
    (TAGAVSQ, [Act ReturnSQString ETagAttribValue; On [CSq] TAGAVQE; Miss ErrStringNotTerminated]);
    (TAGAVDQ, [Act ReturnDQString ETagAttribValue; On [CDq] TAGAVQE; Miss ErrStringNotTerminated]);
    (TAGAVQE, [On ws TAGAISK; On [CSlash] TAGCLIM; On [CGt] CONTENT;
               Miss ErrExpectedTagAttribute]);
    (TAGCLIM, [Act Return ECloseTagIm] ++ selfws ++ [On [CGt] CONTENT; Miss ErrExpectedTagEnd]);
    (ENTITYSL, [On [COsb] CDATA; On [CDash] COMDASH2; Fallback ENTITY]);
    (ENTITY, [On [CGt] ENTITYE] ++ selfws ++
             [On [CDq] ENTITYDQ; On [CSq] ENTITYSQ; On [COsb] ENTITYLC; Fallback ENTITYID]);
    (ENTITYE, [Act Return EDocAttribEnd; Fallback SEEKTOK]);
    (ENTITYID, [Act ReturnIdentifier EDocAttribValue; On ws ENTITY; On [CGt] ENTITYE;
                Miss ErrIllegalDocumentAttributeDef]);
    (ENTITYSQ, [Act ReturnSQString EDocAttribValue; On [CSq] ENTITY; Miss ErrStringNotTerminated]);
    (ENTITYDQ, [Act ReturnDQString EDocAttribValue; On [CDq] ENTITY; Miss ErrStringNotTerminated]);
    (ENTITYLC, [On [CCsb] ENTITY; Other ENTITYLC]);
    (COMDASH2, [On [CDash] COMSEEKE; Miss ErrExpectedDash2]);
    (COMSEEKE, [On [CDash] COMENDD2; Other COMSEEKE]);
    (COMENDD2, [On [CDash] COMENDCL; Other COMSEEKE]);
    (COMENDCL, [On [CGt] SEEKTOK; On [CDash] COMENDD2; Other COMSEEKE]);
    (CDATA, [Act ExpectIdentifierCDATA ENone; On [COsb] CDATA1; Miss ErrExpectedCDATATag]);
    (CDATA1, [On [CCsb] CDATA2; Other CDATA1]);
    (CDATA2, [On [CCsb] CDATA3; Other CDATA1]);
    (CDATA3, [On [CGt] CONTENT; Other CDATA1]);
    (EXIT, [Act Return EExit]) ].

Definition stmTable : list element :=
  Eval vm_compute in match buildTable tableDefs [] with Some t => t | None => [] end.

(** ScannerStatemachine::get, xmlscanner.hpp:61-65. [None] stands for the exception InvalidState and for the
    access behind the states defined (index = size passes the check). *)
Definition stm_get (s : stm) : option element := nth_error stmTable (stm_idx s).

(** static tables of nextItem, xmlscanner.hpp:1099-1105 *)
Definition tokenDef (a : stmaction) : option (list bool) :=
  match a with
  | ReturnWord => Some isWordChar
  | ReturnContent => Some isContentChar
  | ReturnIdentifier => Some isTagChar
  | ReturnSQString => Some isSQStringChar
  | ReturnDQString => Some isDQStringChar
  | _ => None
  end.
Definition stringDef (a : stmaction) : option (list N) :=
  match a with
  | ExpectIdentifierXML => Some (str "xml")
  | ExpectIdentifierCDATA => Some (str "CDATA")
  | _ => None
  end.

(** TokState::Id, xmlscanner.hpp:441-451 *)
Inductive tokid :=
| TStart | TParsingDone | TParsingKey | TParsingEntity | TParsingNumericEntity
| TParsingNumericBaseEntity | TParsingNamedEntity | TParsingToken.

(** struct TokState, xmlscanner.hpp:436-476. [tk_cr] is eolnState == CR. The member curchr_saved is
    never assigned a value different from 0 and is left out. *)
Record tokstate := mkTok {
  tk_id : tokid; tk_cr : bool; tk_pos : nat; tk_base : N; tk_value : N; tk_buf : list N
}.
(** constructor, line 467 (the buffer is not initialised in C++) *)
Definition tok_new : tokstate := mkTok TStart false 0 0 0 (repeat 0 16).
(** init, lines 472-475 *)
Definition tok_init (id : tokid) (t : tokstate) : tokstate := mkTok id false 0 0 0 (tk_buf t).
(** assignments of single members *)
Definition tok_id (id : tokid) (t : tokstate) : tokstate :=
  mkTok id (tk_cr t) (tk_pos t) (tk_base t) (tk_value t) (tk_buf t).
Definition tok_cr (cr : bool) (t : tokstate) : tokstate :=
  mkTok (tk_id t) cr (tk_pos t) (tk_base t) (tk_value t) (tk_buf t).
Definition tok_base (b : N) (t : tokstate) : tokstate :=
  mkTok (tk_id t) (tk_cr t) (tk_pos t) b (tk_value t) (tk_buf t).
(** tokstate.pos++ *)
Definition tok_incpos (t : tokstate) : tokstate :=
  mkTok (tk_id t) (tk_cr t) (S (tk_pos t)) (tk_base t) (tk_value t) (tk_buf t).
(** tokstate.buf[tokstate.pos] = ch; [None]: outside of char buf[16] *)
Definition tok_put (c : N) (t : tokstate) : option tokstate :=
  if Nat.ltb (tk_pos t) 16
  then Some (mkTok (tk_id t) (tk_cr t) (tk_pos t) (tk_base t) (tk_value t)
                   (upd (tk_pos t) c (tk_buf t)))
  else None.
Definition tok_value (v : N) (t : tokstate) : tokstate :=
  mkTok (tk_id t) (tk_cr t) (tk_pos t) (tk_base t) v (tk_buf t).

(** Parameters of an XMLScanner object that do not change: output character set,
    whether copychar copies bytes (is_same of the classes, xmlscanner.hpp:508-511, and is_equal,
    textscanner.hpp:195), the entity map (std::map<const char*,UChar>, line 487: keyed by address),
    and the address of tokstate.buf. *)
Record config := mkCfg {
  cf_out : charset;
  cf_raw : bool;
  cf_map : option (list (N * N));
  cf_bufaddr : N
}.

(** class XMLScanner, members xmlscanner.hpp:477 and 974-980 *)
Record scanner (R : Type) := mkSc {
  sc_state : stm; sc_err : xerror; sc_src : R; sc_obuf : list N; sc_tokpos : N; sc_tok : tokstate
}.
Arguments mkSc {R}. Arguments sc_state {R}. Arguments sc_err {R}. Arguments sc_src {R}.
Arguments sc_obuf {R}. Arguments sc_tokpos {R}. Arguments sc_tok {R}.

Section Scanner.
Context {R : Type} (rops : readerops R) (cfg : config).
Notation scn := (scanner R).

Definition set_state (x : stm) (s : scn) : scn :=
  mkSc x (sc_err s) (sc_src s) (sc_obuf s) (sc_tokpos s) (sc_tok s).
Definition set_err (x : xerror) (s : scn) : scn :=
  mkSc (sc_state s) x (sc_src s) (sc_obuf s) (sc_tokpos s) (sc_tok s).
Definition set_src (s : scn) (x : R) : scn :=
  mkSc (sc_state s) (sc_err s) x (sc_obuf s) (sc_tokpos s) (sc_tok s).
Definition set_obuf (x : list N) (s : scn) : scn :=
  mkSc (sc_state s) (sc_err s) (sc_src s) x (sc_tokpos s) (sc_tok s).
Definition set_tokpos (x : N) (s : scn) : scn :=
  mkSc (sc_state s) (sc_err s) (sc_src s) (sc_obuf s) x (sc_tok s).
Definition set_tok (x : tokstate) (s : scn) : scn :=
  mkSc (sc_state s) (sc_err s) (sc_src s) (sc_obuf s) (sc_tokpos s) x.
Definition upd_tok (f : tokstate -> tokstate) (s : scn) : scn := set_tok (f (sc_tok s)) s.

(** calls of the input reader *)
Definition on_src {A} (m : R -> out R A) (s : scn) : out scn A := omap (set_src s) (m (sc_src s)).
Definition sc_control (s : scn) : out scn ctl := on_src (r_control rops) s.
Definition sc_ascii (s : scn) : out scn N := on_src (r_ascii rops) s.
Definition sc_chr (s : scn) : out scn N := on_src (r_chr rops) s.
Definition sc_raw (s : scn) : out scn (list N) := on_src (r_raw rops) s.
Definition sc_skip (s : scn) : out scn unit := on_src (r_skip rops) s.

(** constructors, xmlscanner.hpp:986-1015 *)
Definition sc_make (r : R) : scn := mkSc START Ok r [] 0 tok_new.

(** setSource, lines 1031-1034 with TextScanner::setSource *)
Definition sc_setSource (s : scn) (setsrc : R -> R) : scn := set_src s (setsrc (sc_src s)).

(** copy constructor, lines 1019-1026: tokstate is not copied but default constructed. The output
    character set is default constructed too, but it is so in all the constructors. *)
Definition sc_copy (s : scn) : scn :=
  mkSc (sc_state s) (sc_err s) (sc_src s) (sc_obuf s) (sc_tokpos s) tok_new.

(** push, lines 493-496 *)
Definition push (c : N) (s : scn) : scn := set_obuf (sc_obuf s ++ cs_print (cf_out cfg) c) s.
Fixpoint pushes (l : list N) (s : scn) : scn :=
  match l with
  | [] => s
  | c :: l' => pushes l' (push c s)
  end.

(** conversion of char to UChar in push( tokstate.buf[ii]) *)
Definition uchar_of_char (b : N) : N := if b <? 128 then b else u32 (b + 0xFFFFFF00).

(** copychar, lines 498-511 *)
Definition copychar (s : scn) : out scn unit :=
  if cf_raw cfg
  then let! (s1, bs) := sc_raw s in Ret (set_obuf (sc_obuf s1 ++ bs) s1) tt
  else let! (s1, v) := sc_chr s in Ret (push v s1) tt.

(** HEX, lines 515-528 *)
Definition HEX (c : N) : option N := cm_get hexCharMap c.

(** fallbackEntity, lines 565-591 *)
Definition tokchars (t : tokstate) : list N := map uchar_of_char (firstn (tk_pos t) (tk_buf t)).
Definition fallbackEntity (s : scn) : scn :=
  match tk_id (sc_tok s) with
  | TParsingEntity => push 38 s
  | TParsingNumericEntity => push 35 (push 38 s)
  | TParsingNumericBaseEntity => pushes (tokchars (sc_tok s)) (push 35 (push 38 s))
  | TParsingNamedEntity => pushes (tokchars (sc_tok s)) (push 38 s)
  | _ => s
  end.

(** the while loop of parseNumericBaseEntity, lines 638-668; k = sizeof(buf) - pos *)
Fixpoint numBaseLoop (k : nat) (s : scn) : out scn bool :=
  match k with
  | O => Ret (fallbackEntity s) true
  | S k' =>
      let! (s1, c) := sc_ascii s in
      if c =? 59
      then
        if 0xFFFFFFFF <? tk_value (sc_tok s1)
        then match tok_put c (sc_tok s1) with
             | Some t => Ret (fallbackEntity (set_tok (tok_incpos t) s1)) true
             | None => Undef
             end
        else
          let s2 := upd_tok (tok_init TParsingToken) (push (u32 (tk_value (sc_tok s1))) s1) in
          let! (s3, u) := sc_skip s2 in
          Ret s3 true
      else
        match HEX c with
        | None => Undef
        | Some chval =>
            if tk_base (sc_tok s1) <=? chval then Ret (fallbackEntity s1) true
            else
              match tok_put c (sc_tok s1) with
              | None => Undef
              | Some t =>
                  let v := u64 (tk_value t * tk_base t + chval) in
                  let! (s2, u) := sc_skip (set_tok (tok_value v (tok_incpos t)) s1) in
                  numBaseLoop k' s2
              end
        end
  end.

(** parseNumericBaseEntity, lines 633-669 *)
Definition parseNumericBaseEntity (s : scn) : out scn bool :=
  let s0 := upd_tok (tok_id TParsingNumericBaseEntity) s in
  numBaseLoop (16 - tk_pos (sc_tok s0)) s0.

(** parseNumericEntity, lines 613-629 *)
Definition parseNumericEntity (s : scn) : out scn bool :=
  let s0 := upd_tok (tok_id TParsingNumericEntity) s in
  let! (s1, c) := sc_ascii s0 in
  if c =? 120
  then let! (s2, u) := sc_skip (upd_tok (tok_base 16) s1) in parseNumericBaseEntity s2
  else parseNumericBaseEntity (upd_tok (tok_base 10) s1).

(** pushPredefinedEntity, lines 884-940: the character pushed *)
Definition predefined (name : list N) : option N :=
  match name with
  | 113 :: 117 :: 111 :: 116 :: 0 :: _ => Some 34      (* quot *)
  | 97 :: 109 :: 112 :: 0 :: _ => Some 38              (* amp *)
  | 97 :: 112 :: 111 :: 115 :: 0 :: _ => Some 39       (* apos *)
  | 108 :: 116 :: 0 :: _ => Some 60                    (* lt *)
  | 103 :: 116 :: 0 :: _ => Some 62                    (* gt *)
  | 110 :: 98 :: 115 :: 112 :: 0 :: _ => Some 32       (* nbsp *)
  | _ => None
  end.

(** std::map<const char*,UChar>::find: the keys are compared as addresses *)
Definition map_find (m : list (N * N)) (addr : N) : option N :=
  match find (fun p => fst p =? addr) m with
  | Some p => Some (snd p)
  | None => None
  end.

(** pushEntity( tokstate.buf), lines 945-971 *)
Definition pushEntity (s : scn) : scn * bool :=
  match predefined (tk_buf (sc_tok s)) with
  | Some c => (push c s, true)
  | None =>
      match cf_map cfg with
      | Some m => match map_find m (cf_bufaddr cfg) with
                  | None => (set_err ErrUndefinedCharacterEntity s, false)
                  | Some c => (push c s, true)
                  end
      | None => (set_err ErrUndefinedCharacterEntity s, false)
      end
  end.

(** the while loop of parseNamedEntity, lines 678-684; k = sizeof(buf)-1 - pos *)
Fixpoint namedLoop (k : nat) (s : scn) (c : N) : out scn N :=
  match k with
  | O => Ret s c
  | S k' =>
      if c =? 59 then Ret s c
      else
        let! (s1, cc) := sc_control s in
        if ctl_eqb cc CAny
        then match tok_put c (sc_tok s1) with
             | None => Undef
             | Some t =>
                 let! (s2, u) := sc_skip (set_tok t s1) in
                 let! (s3, c') := sc_ascii (upd_tok tok_incpos s2) in
                 namedLoop k' s3 c'
             end
        else Ret s1 c
  end.

(** parseNamedEntity, lines 673-698 *)
Definition parseNamedEntity (s : scn) : out scn bool :=
  let s0 := upd_tok (tok_id TParsingNamedEntity) s in
  let! (s1, c) := sc_ascii s0 in
  let! (s2, c2) := namedLoop (15 - tk_pos (sc_tok s1)) s1 c in
  if c2 =? 59
  then match tok_put 0 (sc_tok s2) with
       | None => Undef
       | Some t =>
           let (s3, ok) := pushEntity (set_tok t s2) in
           if ok
           then let! (s4, u) := sc_skip (upd_tok (tok_init TParsingToken) s3) in Ret s4 true
           else Ret s3 false
       end
  else Ret (fallbackEntity s2) true.

(** parseEntity, lines 595-609 *)
Definition parseEntity (s : scn) : out scn bool :=
  let s0 := upd_tok (tok_id TParsingEntity) s in
  let! (s1, c) := sc_ascii s0 in
  if c =? 35
  then let! (s2, u) := sc_skip s1 in parseNumericEntity s2
  else parseNamedEntity s1.

(** parseTokenRecover, lines 702-725 *)
Definition parseTokenRecover (s : scn) : out scn bool :=
  let fin m := let! (s1, rt) := m in Ret (upd_tok (tok_init TParsingToken) s1) rt in
  match tk_id (sc_tok s) with
  | TParsingEntity => fin (parseEntity s)
  | TParsingNumericEntity => fin (parseNumericEntity s)
  | TParsingNumericBaseEntity => fin (parseNumericBaseEntity s)
  | TParsingNamedEntity => fin (parseNamedEntity s)
  | _ => Ret (set_err ErrInternal s) false
  end.

(** isTok[ch] *)
Definition isTokAt (isTok : list bool) (c : ctl) : option bool :=
  cm_get isTok (N.of_nat (ctl_idx c)).

(** lines 754-781: output of one character of a token *)
Definition tokenChar (s : scn) : out scn unit :=
  let! (s1, aa) := sc_ascii s in
  if aa =? 13
  then Ret (upd_tok (tok_cr true) (push 10 s1)) tt
  else if aa =? 10
  then let s2 := if tk_cr (sc_tok s1) then s1 else push 10 s1 in
       Ret (upd_tok (tok_cr false) s2) tt
  else let! (s2, u) := copychar s1 in Ret (upd_tok (tok_cr false) s2) tt.

(** the loops of parseToken, lines 746-798 *)
Fixpoint parseTokenLoop (fuel : nat) (isTok : list bool) (s : scn) : out scn bool :=
  match fuel with
  | O => Fuel
  | S f =>
      let! (s1, c) := sc_control s in
      match isTokAt isTok c with
      | None => Undef
      | Some true =>
          let! (s2, u) := tokenChar s1 in
          let! (s3, u) := sc_skip s2 in
          parseTokenLoop f isTok s3
      | Some false =>
          if ctl_eqb c CAmp
          then
            let! (s2, u) := sc_skip s1 in
            let! (s3, ok) := parseEntity s2 in
            if ok then parseTokenLoop f isTok (upd_tok (tok_init TParsingToken) s3)
            else Ret (upd_tok (tok_init TStart) s3) false
          else Ret (upd_tok (tok_init TParsingDone) s1) true
      end
  end.

(** parseToken, lines 730-799 *)
Definition parseToken (fuel : nat) (isTok : list bool) (s : scn) : out scn bool :=
  match tk_id (sc_tok s) with
  | TStart =>
      parseTokenLoop fuel isTok
        (set_obuf [] (upd_tok (tok_id TParsingToken) (set_tokpos (r_pos rops (sc_src s)) s)))
  | TParsingToken => parseTokenLoop fuel isTok s
  | _ =>
      let! (s1, ok) := parseTokenRecover s in
      if ok then parseTokenLoop fuel isTok s1
      else Ret (upd_tok (tok_init TStart) s1) false
  end.

(** skipToken, lines 841-853: inner loop and the test of the outer loop *)
Fixpoint skipTokenLoop (fuel : nat) (isTok : list bool) (s : scn) : out scn bool :=
  match fuel with
  | O => Fuel
  | S f =>
      let! (s1, c) := sc_control s in
      match isTokAt isTok c with
      | None => Undef
      | Some b =>
          if b || ctl_eqb c CAmp
          then let! (s2, u) := sc_skip s1 in skipTokenLoop f isTok s2
          else
            let! (s2, c2) := sc_control s1 in
            if ctl_eqb c2 CAny then skipTokenLoop f isTok s2 else Ret s2 true
      end
  end.

(** expectStr, lines 858-879; [str'] = str + pos. [pos] can be left behind the end of the string by a reference that was begun
    before an interrupt and is skipped after it because of another mask; str[pos] is then read outside of the string. *)
Fixpoint expectLoop (str' : list N) (s : scn) : out scn bool :=
  match str' with
  | [] => Ret (upd_tok (tok_init TParsingDone) s) true
  | x :: str'' =>
      let! (s1, c) := sc_ascii s in
      if c =? x
      then let! (s2, u) := sc_skip s1 in expectLoop str'' (upd_tok tok_incpos s2)
      else
        let! (s2, cc) := sc_control s1 in
        let e := if ctl_eqb cc CEndOfText then ErrUnexpectedEndOfText else ErrSyntaxToken in
        Ret (upd_tok (tok_init TParsingDone) (set_err e s2)) false
  end.
Definition expectStr (k : list N) (s : scn) : out scn bool :=
  let s0 := upd_tok (tok_id TParsingKey) s in
  if Nat.leb (tk_pos (sc_tok s0)) (length k) then expectLoop (skipn (tk_pos (sc_tok s0)) k) s0 else Undef.

(** Execution of the action of a state, lines 1114-1154. Delivers [inl rt] or [inr tt] for
    "return ErrorOccurred". *)
Definition doAction (fuel : nat) (mask : N) (a : stmaction) (arg : etype) (s : scn)
  : out scn (etype + unit) :=
  match tokenDef a with
  | Some isTok =>
      match tk_id (sc_tok s) with
      | TParsingDone => Ret s (inl arg)
      | _ =>
          let! (s1, ok) := (if N.testbit mask (etype_idx arg)
                            then parseToken fuel isTok s
                            else skipTokenLoop fuel isTok s) in
          if ok then Ret s1 (inl arg) else Ret s1 (inr tt)
      end
  | None =>
      match stringDef a with
      | Some k =>
          match tk_id (sc_tok s) with
          | TParsingDone =>
              Ret s (inl match a with ExpectIdentifierXML => EHeaderStart | _ => ENone end)
          | _ =>
              let! (s1, ok) := expectStr k s in
              if ok
              then match a with
                   | ExpectIdentifierXML =>
                       Ret (push 108 (push 109 (push 120 (push 63 s1)))) (inl EHeaderStart)
                   | _ => Ret s1 (inl ENone)
                   end
              else Ret s1 (inr tt)
          end
      | None => Ret (set_obuf [] (set_tokpos (r_pos rops (sc_src s)) s)) (inl arg)
      end
  end.

(** lines 1167-1190: transition on the control character; delivers false for
    "return ErrorOccurred" *)
Definition transition (e : element) (c : ctl) (s : scn) : out scn bool :=
  match nth_error (el_next e) (ctl_idx c) with
  | None => Undef
  | Some (Some ns) => let! (s1, u) := sc_skip (set_state ns s) in Ret s1 true
  | Some None =>
      match el_fallback e with
      | Some fs => Ret (set_state fs s) true
      | None =>
          match el_miss e with
          | Some er => Ret (set_err er s) false
          | None =>
              Ret (set_err (if ctl_eqb c CEndOfText then ErrUnexpectedEndOfText else ErrInternal) s)
                  false
          end
      end
  end.

Definition isNone (e : etype) : bool := match e with ENone => true | _ => false end.

(** nextItem, lines 1097-1194 *)
Fixpoint nextItem (fuel : nat) (mask : N) (s : scn) : out scn etype :=
  match fuel with
  | O => Fuel
  | S f =>
      match stm_get (sc_state s) with
      | None => Undef
      | Some e =>
          (* lines 1112-1163; the second component is true for "return" *)
          let! (s1, r) :=
            (match el_action e with
             | None => Ret s (ENone, false)
             | Some (a, arg) =>
                 let! (s1, res) := doAction f mask a arg s in
                 match res with
                 | inr _ => Ret s1 (EErrorOccurred, true)
                 | inl rt =>
                     if Nat.eqb (el_nofnext e) 0
                     then Ret (match el_fallback e with
                               | Some fs => set_state fs s1
                               | None => s1
                               end) (rt, true)
                     else Ret s1 (rt, false)
                 end
             end) in
          if snd r then Ret s1 (fst r)
          else
            let! (s2, c) := sc_control s1 in
            let! (s3, ok) := transition e c (upd_tok (tok_id TStart) s2) in
            if ok
            then if isNone (fst r) then nextItem f mask s3 else Ret s3 (fst r)
            else Ret s3 EErrorOccurred
      end
  end.

(** getItem, lines 1058-1061; getTokenPosition, lines 1043-1046; getPosition, lines 1038-1041;
    getError, lines 1074-1080 *)
Definition sc_getItem (s : scn) : list N := sc_obuf s.
Definition sc_getTokenPosition (s : scn) : N := sc_tokpos s.
Definition sc_getPosition (s : scn) : N := r_pos rops (sc_src s).
Definition sc_getError (s : scn) : scn * (xerror * option (list N)) :=
  (set_err Ok s, (sc_err s, getErrorString (sc_err s))).

End Scanner.

(** XMLScanner<InputIterator,InputCharSet,OutputCharSet,std::string> *)
Definition xml_config (incs outcs : charset) (m : option (list (N * N))) (addr : N) : config :=
  mkCfg outcs (cs_same_class incs outcs && cs_is_equal incs outcs) m addr.

(** parseStaticNumericEntityValue, xmlscanner.hpp:533-561, and parseStaticToken, lines 809-835, over any
    reader; the reader is passed by value. *)
Section StaticToken.
Context {R : Type} (rops : readerops R).

Fixpoint staticNumLoop (fuel : nat) (base value : N) (c : N) (r : R) : out R N :=
  match fuel with
  | O => Fuel
  | S f =>
      if c =? 59 then Ret r (u32 value)
      else match HEX c with
           | None => Undef
           | Some chval =>
               if base <=? chval then Ret r 0
               else
                 let v := u64 (value * base + chval) in
                 if 0xFFFFFFFF <=? v then Ret r 0
                 else let! (r1, u) := r_skip rops r in
                      let! (r2, c') := r_ascii rops r1 in
                      staticNumLoop f base v c' r2
           end
  end.

Definition parseStaticNumericEntityValue (fuel : nat) (r : R) : out R N :=
  let! (r1, c) := r_ascii rops r in
  if negb (c =? 35) then Ret r1 0
  else
    let! (r2, u) := r_skip rops r1 in
    let! (r3, c2) := r_ascii rops r2 in
    if c2 =? 120
    then let! (r4, u) := r_skip rops r3 in
         let! (r5, c3) := r_ascii rops r4 in
         staticNumLoop fuel 16 0 c3 r5
    else staticNumLoop fuel 10 0 c2 r3.

Fixpoint parseStaticToken (fuel : nat) (isTok : list bool) (outcs : charset) (buf : list N) (r : R)
  : out R (list N) :=
  match fuel with
  | O => Fuel
  | S f =>
      let! (r1, c) := r_control rops r in
      match isTokAt isTok c with
      | None => Undef
      | Some true =>
          let! (r2, pc) := r_chr rops r1 in
          let! (r3, u) := r_skip rops r2 in
          parseStaticToken f isTok outcs (buf ++ cs_print outcs pc) r3
      | Some false =>
          if ctl_eqb c CAmp
          then
            let! (r2, pc) := parseStaticNumericEntityValue f r1 in
            let! (r3, u) := r_skip rops r2 in
            parseStaticToken f isTok outcs (buf ++ cs_print outcs pc) r3
          else Ret r1 buf
      end
  end.
End StaticToken.
