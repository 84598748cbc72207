(** What the test programs print (specification). *)
From Verif Require Import Base XmlScanner ScanSpec ExampleSpec.

(** a number to the base 10 without leading zeros *)
Inductive decimal : list N -> N -> Prop :=
| dc_one : forall v, v < 10 -> decimal [48 + v] v
| dc_more : forall ds n v, decimal ds n -> n <> 0 -> v < 10 -> decimal (ds ++ [48 + v]) (10 * n + v).

(** ** tests/test_XMLScanner.cpp *)
(** control characters are printed as dots *)
Definition shown (c : N) : N := if c <? 32 then 46 else c.
(** the lines for the text from [i] on: ten characters in each, with the null character behind the text as last one of a line with nine *)
Inductive dump_says (text : list N) : nat -> list (list N) -> Prop :=
| du_end : forall i, (length text <= i)%nat -> dump_says text i []
| du_line : forall i ds lines, (i < length text)%nat -> decimal ds (N.of_nat i) -> dump_says text (i + 10) lines ->
    dump_says text i ((ds ++ str ": [" ++ map shown (firstn 10 (skipn i (text ++ [0]))) ++ str "]" ++ [10]) :: lines).

(** the elements a line is printed for; those at which the loop ends are not reached *)
Definition has_line (t : etype) : bool := match t with ENone | EErrorOccurred | EHeaderStart => false | _ => true end.
(** what is said about the type of an element *)
Inductive kind_of : etype -> string -> Prop :=
| ki_name : forall t, In t [EHeaderAttribName; ETagAttribName] -> kind_of t "attribute name"
| ki_value : forall t, In t [EHeaderAttribValue; ETagAttribValue] -> kind_of t "attribute value"
| ki_header : kind_of EHeaderEnd "end of header"
| ki_doc : kind_of EDocAttribValue "document attribute value"
| ki_docend : kind_of EDocAttribEnd "end of entity declaration"
| ki_open : kind_of EOpenTag "open tag"
| ki_close : forall t, In t [ECloseTag; ECloseTagIm] -> kind_of t "close tag"
| ki_content : kind_of EContent "content"
| ki_exit : kind_of EExit "end of document".

(** the bytes before the first null character *)
Definition up_to_null (l c : list N) : Prop := Forall (fun b => b <> 0) c /\ (l = c \/ exists rest, l = c ++ 0 :: rest).
(** place of the token and the bytes read since, name and kind of the element and its content *)
Inductive line_says (e : event) : list N -> Prop :=
| line_i : forall ds1 ds2 d kind c, decimal ds1 (ev_tokpos e) -> decimal ds2 d -> (ev_tokpos e + d) mod 2 ^ 64 = ev_pos e -> kind_of (ev_type e) kind -> up_to_null (ev_item e) c ->
    line_says e (ds1 ++ str ":" ++ ds2 ++ str " element (" ++ name_of (ev_type e) ++ str ")" ++ str kind ++ str ": " ++ c ++ [10]).
