(** Texts without comments, CDATA sections, processing instructions and entity lists (specification). *)
From Verif Require Import Base.

(** the text behind the characters up to the space *)
Fixpoint behind_blanks (l : list N) : list N :=
  match l with
  | c :: r => if (1 <=? c) && (c <=? 32) then behind_blanks r else l
  | [] => []
  end.
Definition blanks (l : list N) : Prop := Forall (fun c => 1 <= c <= 32) l.

(** The only markup that starts with [<?] is the header at the start of the text. Behind [<!] there is no dash and
    no bracket in the rest of the text: it is a document type without entity list. *)
Definition without_sections (l : list N) : Prop :=
  forall pre r, l = pre ++ ch "<" :: r ->
  match behind_blanks r with
  | c :: t => (c = ch "?" -> blanks pre) /\ (c = ch "!" -> hd 0 t <> ch "-" /\ ~ In (ch "[") t)
  | [] => True
  end.
