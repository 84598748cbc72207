(** The names for debug messages (model). *)
From Verif Require Import Base CharMap XmlScanner XmlHdr PathAtm.

(** The tables are arrays of pointers to texts; [None] is an access outside of the array. *)
(** ControlCharacterM::name, char.hpp:107-111 *)
Definition ctl_names : list (list N) :=
  [str "Undef"; str "EndOfText"; str "EndOfLine"; str "Cntrl"; str "Space"; str "Amp"; str "Lt"; str "Equal"; str "Gt"; str "Slash"; str "Dash"; str "Exclam"; str "Questm";
   str "Sq"; str "Dq"; str "Osb"; str "Csb"; str "Any"].
Definition controlName (c : ctl) : option (list N) := nth_error ctl_names (ctl_idx c).
(** getElementTypeName, xmlscanner.hpp:199-203 *)
Definition etype_names : list (list N) :=
  [str "None"; str "ErrorOccurred"; str "HeaderStart"; str "HeaderAttribName"; str "HeaderAttribValue"; str "HeaderEnd"; str "DocAttribValue"; str "DocAttribEnd"; str "TagAttribName";
   str "TagAttribValue"; str "OpenTag"; str "CloseTag"; str "CloseTagIm"; str "Content"; str "Exit"].
Definition getElementTypeName (e : etype) : option (list N) := nth_error etype_names (N.to_nat (etype_idx e)).
(** getStateString, xmlscanner.hpp:266-283 *)
Definition stm_names : list (list N) :=
  [str "START"; str "STARTTAG"; str "XTAG"; str "PITAG"; str "PITAGEND";
   str "XTAGEND"; str "XTAGDONE"; str "XTAGAISK"; str "XTAGANAM";
   str "XTAGAESK"; str "XTAGAVSK"; str "XTAGAVID"; str "XTAGAVSQ"; str "XTAGAVDQ";
   str "XTAGAVQE"; str "DOCSTART"; str "CONTENT"; str "TOKEN"; str "SEEKTOK"; str "XMLTAG";
   str "OPENTAG"; str "CLOSETAG"; str "TAGCLSK"; str "TAGAISK"; str "TAGANAM";
   str "TAGAESK"; str "TAGAVSK"; str "TAGAVID"; str "TAGAVSQ"; str "TAGAVDQ";
   str "TAGAVQE"; str "TAGCLIM"; str "ENTITYSL"; str "ENTITY"; str "ENTITYE";
   str "ENTITYID"; str "ENTITYSQ"; str "ENTITYDQ"; str "ENTITYLC";
   str "COMDASH2"; str "COMSEEKE"; str "COMENDD2"; str "COMENDCL";
   str "CDATA"; str "CDATA1"; str "CDATA2"; str "CDATA3"; str "EXIT"].
Definition getStateString (s : stm) : option (list N) := nth_error stm_names (stm_idx s).
(** enumeration values of STMAction, xmlscanner.hpp:287-291 *)
Definition action_idx (a : stmaction) : nat :=
  match a with
  | Return => 0 | ReturnWord => 1 | ReturnContent => 2 | ReturnIdentifier => 3 | ReturnSQString => 4 | ReturnDQString => 5
  | ExpectIdentifierXML => 6 | ExpectIdentifierCDATA => 7 | ReturnEOF => 8
  end.
(** getActionString, xmlscanner.hpp:296-300 *)
Definition action_names : list (list N) :=
  [str "Return"; str "ReturnWord"; str "ReturnContent"; str "ReturnIdentifier"; str "ReturnSQString"; str "ReturnDQString"; str "ExpectIdentifierXML"; str "ExpectIdentifierCDATA"; str "ReturnEOF"].
Definition getActionString (a : stmaction) : option (list N) := nth_error action_names (action_idx a).
(** enumeration values of XmlHdrParser::State, xmlhdrparser.hpp:346-357 *)
Definition hstate_idx (s : hstate) : nat :=
  match s with
  | HInit => 0 | HXmlOpen => 1 | HXmlHdr => 2 | HFindName => 3 | HName => 4 | HFindAssign => 5 | HFindValue => 6 | HValueSq => 7 | HValueDq => 8
  end.
(** stateName, xmlhdrparser.hpp:366-370 *)
Definition hstate_names : list (list N) :=
  [str "Init"; str "ParseXmlOpen"; str "ParseXmlHdr"; str "FindAttributeName"; str "ParseAttributeName"; str "FindAttributeAssign"; str "FindAttributeValue"; str "ParseAttributeValueSq"; str "ParseAttributeValueDq"].
Definition stateName (s : hstate) : option (list N) := nth_error hstate_names (hstate_idx s).
(** enumeration values of Operation, xmlpathautomaton.hpp:47-56 *)
Definition pop_idx (o : pop) : nat :=
  match o with OpContent => 0 | OpOpenTag => 1 | OpCloseTag => 2 | OpAttribute => 3 | OpThisValue => 4 | OpValue => 5 | OpContentStart => 6 end.
(** operationName, xmlpathautomaton.hpp:61-65 *)
Definition operation_names : list (list N) :=
  [str "Content"; str "OpenTag"; str "CloseTag"; str "Attribute"; str "ThisAttributeValue"; str "AttributeValue"; str "ContentStart"].
Definition operationName (o : pop) : option (list N) := nth_error operation_names (pop_idx o).

(** Mask::seekopName, xmlpathautomaton.hpp:145-187 *)
Definition seekopName (m : mask) : list N :=
  if m_matches m EOpenTag && m_matches m EHeaderStart then str "OpenTag"
  else if m_matches m ECloseTag && m_matches m ECloseTagIm && m_matches m EHeaderEnd then str "CloseTag"
  else if m_matches m ETagAttribName && m_matches m EHeaderAttribName && m_rejects m EContent then str "Attribute"
  else if m_matches m ETagAttribValue && m_matches m EHeaderAttribValue && m_rejects m EContent then str "AttributeValue"
  else if m_matches m ETagAttribValue && m_matches m EHeaderAttribValue && m_rejects m ETagAttribName && m_rejects m EHeaderAttribName && m_rejects m EContent && m_rejects m EOpenTag
  then str "ThisAttributeValue"
  else if m_matches m EContent then str "Content"
  else if m_matches m EHeaderEnd then str "ContentStart"
  else if (m_pos m =? 0) && (m_neg m =? 0) then str "None"
  else [].
