(** The documented sequences of elements (specification for C18, C19). *)
From Verif Require Import Base XmlScanner.

(** position in a document *)
Inductive gstate :=
| GStart         (** nothing delivered *)
| GHeader        (** in the header, an attribute name or the end may follow *)
| GHeaderValue   (** a header attribute value has to follow *)
| GBody          (** after the header *)
| GTag           (** after the name or an attribute of a tag *)
| GValue         (** an attribute value has to follow *)
| GClosed        (** after an immediately closed tag *)
| GDoc           (** in a document attribute definition *)
| GEnd.          (** after Exit *)

(** elements possible everywhere except inside of the header and of a document attribute definition *)
Definition gbody (t : etype) : option gstate :=
  match t with
  | EOpenTag => Some GTag
  | ECloseTag | EContent | EDocAttribEnd => Some GBody
  | EDocAttribValue => Some GDoc
  | EExit => Some GEnd
  | _ => None
  end.

(** [strict]: only one CloseTagIm for an open tag *)
Definition gstep (strict : bool) (g : gstate) (t : etype) : option gstate :=
  match g, t with
  | GStart, EHeaderStart => Some GHeader
  | GHeader, EHeaderAttribName => Some GHeaderValue
  | GHeader, EHeaderEnd => Some GBody
  | GHeaderValue, EHeaderAttribValue => Some GHeader
  | GTag, ETagAttribName => Some GValue
  | GTag, ECloseTagIm => Some GClosed
  | GClosed, ECloseTagIm => if strict then None else Some GClosed
  | GValue, ETagAttribValue => Some GTag
  | GDoc, EDocAttribValue => Some GDoc
  | GDoc, EDocAttribEnd => Some GBody
  | GEnd, EExit => Some GEnd
  | (GStart | GBody | GTag | GClosed), _ => gbody t
  | _, _ => None
  end.

(** the sequence of element types follows the grammar; reported errors are passed over *)
Fixpoint gaccept (strict : bool) (g : gstate) (l : list etype) : bool :=
  match l with
  | [] => true
  | EErrorOccurred :: l' => gaccept strict g l'
  | t :: l' => match gstep strict g t with
               | Some g' => gaccept strict g' l'
               | None => false
               end
  end.
