(** The expressions of xmlpathautomatonparse.hpp as text (specification). *)
From Verif Require Import Base Charset PathProg.

(** Characters are Unicode characters. *)
Definition space_char (c : N) : Prop := c = 32 \/ c = 9 \/ c = 13.
(** characters with a meaning in expressions: * ~ / ( ) { } [ ] @ , ; *)
Definition op_char (c : N) : Prop := In c [42; 126; 47; 40; 41; 123; 125; 91; 93; 64; 44; 59].
(** characters with a meaning in XML besides of the slash and the square brackets: ! double quote & ' - < = > ? *)
Definition xml_char (c : N) : Prop := In c [33; 34; 38; 39; 45; 60; 61; 62; 63].
(** characters of a name in an expression: the last byte of the character must not look as an operator or as the null character *)
Definition ident_char (c : N) : Prop := (c = 5 \/ 33 <= c) /\ ~ xml_char c /\ c mod 256 <> 0 /\ ~ op_char (c mod 256).
Definition ident (n : list N) : Prop := n <> [] /\ Forall ident_char n.
Definition spaces (l : list N) : Prop := Forall space_char l.

(** the parts of an expression *)
Inductive item :=
| IAt | ISlash | IDeep                                  (* @ / // *)
| IName (n : list N) | IEvery | IAmong (ns : list (list N))   (* name, *, {name,name} *)
| IIf (n v : list N)                                    (* [@name=value] *)
| IIndex (i : Z) | IFrom (i : Z) | IRange (i j : Z)     (* [1] [1,] [1,2] *)
| IContent | IClose.                                    (* () ~ *)

(** a number of up to 8 digits *)
Definition digit_char (c : N) : Prop := 48 <= c <= 57.
Fixpoint number_of (acc : Z) (ds : list N) : Z := match ds with [] => acc | d :: ds => number_of (10 * acc + (Z.of_N d - 48)) ds end.
Definition writes_number (i : Z) (l : list N) : Prop := Forall digit_char l /\ (1 <= length l <= 8)%nat /\ number_of 0 l = i.

(** a value is quoted or is written like a name *)
Inductive writes_value : list N -> list N -> Prop :=
| wv_name : forall v, ident v -> writes_value v v
| wv_quoted : forall q v, q = 34 \/ q = 39 -> ~ In q v -> writes_value v (q :: v ++ [q]).

(** the names behind a bracket or a comma *)
Inductive writes_names : list (list N) -> list N -> Prop :=
| wn_last : forall s1 n s2, spaces s1 -> ident n -> spaces s2 -> writes_names [n] (s1 ++ n ++ s2 ++ [125])
| wn_more : forall s1 n s2 ns l, spaces s1 -> ident n -> spaces s2 -> writes_names ns l -> writes_names (n :: ns) (s1 ++ n ++ s2 ++ [44] ++ l).

Inductive writes_item : item -> list N -> Prop :=
| wi_at : writes_item IAt [64]
| wi_slash : writes_item ISlash [47]
| wi_deep : writes_item IDeep [47; 47]
| wi_name : forall n, ident n -> writes_item (IName n) n
| wi_every : writes_item IEvery [42]
| wi_among : forall ns l, writes_names ns l -> writes_item (IAmong ns) (123 :: l)
| wi_if : forall s1 s2 n s3 s4 v w s5, spaces s1 -> spaces s2 -> ident n -> spaces s3 -> spaces s4 -> writes_value v w -> spaces s5 ->
    writes_item (IIf n v) (91 :: s1 ++ [64] ++ s2 ++ n ++ s3 ++ [61] ++ s4 ++ w ++ s5 ++ [93])
| wi_index : forall s1 i d s2, spaces s1 -> writes_number i d -> spaces s2 -> writes_item (IIndex i) (91 :: s1 ++ d ++ s2 ++ [93])
| wi_from : forall s1 i d s2 s3, spaces s1 -> writes_number i d -> spaces s2 -> spaces s3 -> writes_item (IFrom i) (91 :: s1 ++ d ++ s2 ++ [44] ++ s3 ++ [93])
| wi_range : forall s1 i d s2 s3 j e s4, spaces s1 -> writes_number i d -> spaces s2 -> spaces s3 -> writes_number j e -> spaces s4 ->
    writes_item (IRange i j) (91 :: s1 ++ d ++ s2 ++ [44] ++ s3 ++ e ++ s4 ++ [93])
| wi_content : forall s1, spaces s1 -> writes_item IContent (40 :: s1 ++ [41])
| wi_close : writes_item IClose [126].

(** what may follow where *)
Inductive stage := AtStart | AfterSlash | AfterAt | AfterTag | AfterAttribute | AfterEnd | AfterCondition.
Definition next_stage (st : stage) (it : item) : option stage :=
  match it, st with
  | IAt, (AtStart | AfterSlash | AfterTag | AfterCondition) => Some AfterAt
  | (ISlash | IDeep), (AtStart | AfterTag | AfterCondition) => Some AfterSlash
  | (IName _ | IEvery | IAmong _), (AtStart | AfterSlash) => Some AfterTag
  | (IName _ | IEvery | IAmong _), AfterAt => Some AfterAttribute
  | (IIf _ _ | IIndex _ | IFrom _ | IRange _ _), (AtStart | AfterSlash | AfterTag | AfterCondition) => Some AfterCondition
  | IContent, (AtStart | AfterSlash | AfterTag | AfterCondition) => Some AfterEnd
  | IClose, (AtStart | AfterTag | AfterCondition) => Some AfterEnd
  | _, _ => None
  end.

(** the text of a list of parts, with spaces behind each of them *)
Inductive writes : stage -> list item -> list N -> Prop :=
| ws_end : forall st, writes st [] []
| ws_item : forall st it st' l s its l', next_stage st it = Some st' -> writes_item it l -> spaces s -> writes st' its l' -> writes st (it :: its) (l ++ s ++ l').

(** the calls for a part, one list of calls for each alternative; names are written in the character set [acs] of the automaton *)
Section Calls.
Context (acs : charset).
Definition encoded (n : list N) : list N := flat_map (cs_print acs) n.
Definition step_call (st : stage) (n : option (list N)) : pathop := match st with AfterAt => BAttr n | _ => BTag n end.
Definition item_calls (st : stage) (it : item) : list (list pathop) :=
  match it with
  | IAt | ISlash => [[]]
  | IDeep => [[BFollow]]
  | IName n => [[step_call st (Some (encoded n))]]
  | IEvery => [[step_call st None]]
  | IAmong ns => map (fun n => [step_call st (Some (encoded n))]) ns
  | IIf n v => [[BCond (Some (encoded n)) (Some (encoded v))]]
  | IIndex i => [[BIndex i]]
  | IFrom i => [[BFrom i]]
  | IRange i j => [[BRange i j]]
  | IContent => [[BContent]]
  | IClose => [[BClose]]
  end.
(** the programs an expression stands for: one for each choice of alternatives *)
Fixpoint programs (st : stage) (its : list item) : list (list pathop) :=
  match its with
  | [] => [[]]
  | it :: its => match next_stage st it with
                 | Some st' => flat_map (fun c => map (app c) (programs st' its)) (item_calls st it)
                 | None => []
                 end
  end.
(** with the type assigned *)
Definition programs_for (t : Z) (its : list item) : list (list pathop) := map (fun p => p ++ [BOut t]) (programs AtStart its).
End Calls.

(** two colons one after the other in the bytes of a text *)
Definition double_colon (l : list N) : Prop := exists p q, l = p ++ [58; 58] ++ q.
