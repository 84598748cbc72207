(** The names for debug messages: C54. *)
From Verif Require Import Base CharMap XmlScanner XmlHdr PathAtm Names.

(** The enumerators as in the source *)
Definition ctl_id (c : ctl) : string :=
  match c with
  | CUndef => "Undef" | CEndOfText => "EndOfText" | CEndOfLine => "EndOfLine" | CCntrl => "Cntrl" | CSpace => "Space" | CAmp => "Amp" | CLt => "Lt" | CEqual => "Equal" | CGt => "Gt"
  | CSlash => "Slash" | CDash => "Dash" | CExclam => "Exclam" | CQuestm => "Questm" | CSq => "Sq" | CDq => "Dq" | COsb => "Osb" | CCsb => "Csb" | CAny => "Any"
  end.
Definition etype_id (e : etype) : string :=
  match e with
  | ENone => "None" | EErrorOccurred => "ErrorOccurred" | EHeaderStart => "HeaderStart" | EHeaderAttribName => "HeaderAttribName" | EHeaderAttribValue => "HeaderAttribValue" | EHeaderEnd => "HeaderEnd"
  | EDocAttribValue => "DocAttribValue" | EDocAttribEnd => "DocAttribEnd" | ETagAttribName => "TagAttribName" | ETagAttribValue => "TagAttribValue" | EOpenTag => "OpenTag" | ECloseTag => "CloseTag"
  | ECloseTagIm => "CloseTagIm" | EContent => "Content" | EExit => "Exit"
  end.
Definition stm_id (s : stm) : string :=
  match s with
  | START => "START" | STARTTAG => "STARTTAG" | XTAG => "XTAG" | PITAG => "PITAG" | PITAGEND => "PITAGEND" | XTAGEND => "XTAGEND" | XTAGDONE => "XTAGDONE" | XTAGAISK => "XTAGAISK"
  | XTAGANAM => "XTAGANAM" | XTAGAESK => "XTAGAESK" | XTAGAVSK => "XTAGAVSK" | XTAGAVID => "XTAGAVID" | XTAGAVSQ => "XTAGAVSQ" | XTAGAVDQ => "XTAGAVDQ" | XTAGAVQE => "XTAGAVQE"
  | DOCSTART => "DOCSTART" | CONTENT => "CONTENT" | TOKEN => "TOKEN" | SEEKTOK => "SEEKTOK" | XMLTAG => "XMLTAG" | OPENTAG => "OPENTAG" | CLOSETAG => "CLOSETAG" | TAGCLSK => "TAGCLSK"
  | TAGAISK => "TAGAISK" | TAGANAM => "TAGANAM" | TAGAESK => "TAGAESK" | TAGAVSK => "TAGAVSK" | TAGAVID => "TAGAVID" | TAGAVSQ => "TAGAVSQ" | TAGAVDQ => "TAGAVDQ" | TAGAVQE => "TAGAVQE"
  | TAGCLIM => "TAGCLIM" | ENTITYSL => "ENTITYSL" | ENTITY => "ENTITY" | ENTITYE => "ENTITYE" | ENTITYID => "ENTITYID" | ENTITYSQ => "ENTITYSQ" | ENTITYDQ => "ENTITYDQ" | ENTITYLC => "ENTITYLC"
  | COMDASH2 => "COMDASH2" | COMSEEKE => "COMSEEKE" | COMENDD2 => "COMENDD2" | COMENDCL => "COMENDCL" | CDATA => "CDATA" | CDATA1 => "CDATA1" | CDATA2 => "CDATA2" | CDATA3 => "CDATA3" | EXIT => "EXIT"
  end.
Definition action_id (a : stmaction) : string :=
  match a with
  | Return => "Return" | ReturnWord => "ReturnWord" | ReturnContent => "ReturnContent" | ReturnIdentifier => "ReturnIdentifier" | ReturnSQString => "ReturnSQString" | ReturnDQString => "ReturnDQString"
  | ExpectIdentifierXML => "ExpectIdentifierXML" | ExpectIdentifierCDATA => "ExpectIdentifierCDATA" | ReturnEOF => "ReturnEOF"
  end.
Definition hstate_id (s : hstate) : string :=
  match s with
  | HInit => "Init" | HXmlOpen => "ParseXmlOpen" | HXmlHdr => "ParseXmlHdr" | HFindName => "FindAttributeName" | HName => "ParseAttributeName" | HFindAssign => "FindAttributeAssign"
  | HFindValue => "FindAttributeValue" | HValueSq => "ParseAttributeValueSq" | HValueDq => "ParseAttributeValueDq"
  end.
Definition pop_id (o : pop) : string :=
  match o with
  | OpContent => "Content" | OpOpenTag => "OpenTag" | OpCloseTag => "CloseTag" | OpAttribute => "Attribute" | OpThisValue => "ThisAttributeValue" | OpValue => "AttributeValue" | OpContentStart => "ContentStart"
  end.

(** ** C54: Every value of an enumeration has its own name. *)
Theorem C54_names :
  (forall c, controlName c = Some (str (ctl_id c))) /\ (forall e, getElementTypeName e = Some (str (etype_id e))) /\ (forall s, getStateString s = Some (str (stm_id s))) /\
  (forall a, getActionString a = Some (str (action_id a))) /\ (forall s, stateName s = Some (str (hstate_id s))) /\ (forall o, operationName o = Some (str (pop_id o))).
Proof.
  split; [intros []; reflexivity|]. split; [intros []; reflexivity|]. split; [intros []; reflexivity|]. split; [intros []; reflexivity|]. split; intros []; reflexivity.
Qed.
Print Assumptions C54_names.
Theorem C54_distinct :
  (forall c c', controlName c = controlName c' -> c = c') /\ (forall e e', getElementTypeName e = getElementTypeName e' -> e = e') /\ (forall s s', getStateString s = getStateString s' -> s = s') /\
  (forall a a', getActionString a = getActionString a' -> a = a') /\ (forall s s', stateName s = stateName s' -> s = s') /\ (forall o o', operationName o = operationName o' -> o = o') /\
  (forall e e', getErrorString e = getErrorString e' -> e = e').
Proof.
  split; [intros [] [] H; try reflexivity; discriminate H|]. split; [intros [] [] H; try reflexivity; discriminate H|]. split; [intros [] [] H; try reflexivity; discriminate H|].
  split; [intros [] [] H; try reflexivity; discriminate H|]. split; [intros [] [] H; try reflexivity; discriminate H|]. split; intros [] [] H; try reflexivity; discriminate H.
Qed.
Print Assumptions C54_distinct.
(** The name of the operation found in a mask is the name of the operation the mask was made with. It is missing: ThisAttributeValue, where it is wrong. *)
Theorem C54_seekop_partial : forall o, o <> OpThisValue -> Some (seekopName (m_op o)) = operationName o.
Proof. intros [] H; try reflexivity. contradiction. Qed.
Print Assumptions C54_seekop_partial.
Example C54_case : OpValue <> OpThisValue /\ seekopName (m_op OpValue) = str "AttributeValue" /\ seekopName (m_op OpContentStart) = str "ContentStart".
Proof. split; [discriminate|]. split; reflexivity. Qed.
Theorem C54_seekop_refuted : exists o, operationName o = Some (str "ThisAttributeValue") /\ seekopName (m_op o) = str "AttributeValue".
Proof. exists OpThisValue. split; reflexivity. Qed.
Print Assumptions C54_seekop_refuted.
