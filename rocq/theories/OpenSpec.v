(** Texts that end inside of a section (specification): a comment, a processing instruction, a CDATA section or a list in a document
    attribute definition that is not closed. *)
From Verif Require Import Base Iter CharMap CodePages Charset TextScanner XmlScanner DocSpec.

Inductive unclosed :=
| UComment (c : list N)
| UPI (c : list N)
| UCData (c : list N)
| UList (n : token) (parts : list (list N * dpart)) (ws : list N) (c : list N).

Definition unclosed_src (u : unclosed) : list N :=
  match u with
  | UComment c => str "<!--" ++ c
  | UPI c => str "<?" ++ c
  | UCData c => str "<![CDATA[" ++ c
  | UList n parts ws c => str "<!" ++ tok_src n ++ flat_map (fun p => fst p ++ dpart_src (snd p)) parts ++ ws ++ [91] ++ c
  end.
Definition unclosed_elements (u : unclosed) : list (etype * list N) :=
  match u with
  | UList n parts ws c => (EDocAttribValue, tok_chars n) :: flat_map (fun p => dpart_elements (snd p)) parts
  | _ => []
  end.
Definition unclosed_ok (u : unclosed) : Prop :=
  match u with
  | UComment c => never_closes 45 comment_run c
  | UPI c => ~ In 63 c
  | UCData c => never_closes 93 cdata_run c
  | UList n parts ws c => name_ok n /\ hd 0 (t_raw n) <> 45 /\
      Forall (fun p => fst p <> [] /\ Forall white (fst p) /\ dpart_ok (snd p)) parts /\ ws <> [] /\ Forall white ws /\ ~ In 93 c
  end.
(** a text does not start with a processing instruction: <? starts the header *)
Definition unclosed_place (d : doc) (u : unclosed) : Prop :=
  match u with
  | UPI _ => d_header d <> None \/ d_items d <> []
  | _ => True
  end.
