(** Selecting from documents with expressions given as text (specification). Names are lists of characters here. *)
From Verif Require Import Base Charset CharsetSpec XmlScanner XmlPrinter ParseSpec DocSpec PathSpec PathMatch PathTags.

(** Tags are closed only if they are open and there is no white space between the slash and the bracket of an empty element (see C19). [n]: number of open tags *)
Fixpoint nested (n : nat) (l : list DocSpec.item) : Prop :=
  match l with
  | [] => True
  | DocSpec.IOpen _ _ _ :: l => nested (S n) l
  | DocSpec.IClose _ _ :: l => match n with O => False | S n => nested n l end
  | DocSpec.IEmpty _ _ _ ws :: l => ws = [] /\ nested n l
  | _ :: l => nested n l
  end.

(** The text of a tag path *)
Definition name_text (n : option (list N)) : list N := match n with Some n => n | None => str "*" end.
Definition step_text (s : tstep) : list N := (if fst s then str "//" else str "/") ++ name_text (snd s).
Definition report_text (r : treport) : list N :=
  match r with
  | TOpen => []
  | TContent deep => (if deep then str "//" else []) ++ str "()"
  | TClose _ => str "~"
  | TAttr n => str "@" ++ name_text n
  end.
Definition path_text (p : tagpath) : list N := flat_map step_text (tp_steps p) ++ report_text (tp_rep p).

(** Paths that can be given as text: with names of characters allowed in expressions, up to 1024 bytes in the character set of the automaton *)
Definition text_name (acs : charset) (n : option (list N)) : Prop :=
  match n with
  | Some n => ident n /\ Forall name_char n /\ Forall (representable acs) n /\ (length (encoded acs n) <= 1024)%nat
  | None => True
  end.
Record text_path (acs : charset) (p : tagpath) : Prop := {
  xp_type : tp_type p <> 0%Z;
  xp_steps : Forall (fun s => text_name acs (snd s)) (tp_steps p);
  xp_attr : match tp_rep p with TAttr n => text_name acs n | _ => True end;
  xp_open : tp_rep p = TOpen -> tp_steps p <> [];
  xp_close : tp_rep p <> TClose true }.
