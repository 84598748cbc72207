(** What the example programs print (specification). *)
From Verif Require Import Base XmlScanner.

(** ** examples/XMLScanner.cpp: a line for each element *)
Definition name_of (t : etype) : list N :=
  match t with
  | ENone => str "None" | EErrorOccurred => str "ErrorOccurred" | EHeaderStart => str "HeaderStart" | EHeaderAttribName => str "HeaderAttribName"
  | EHeaderAttribValue => str "HeaderAttribValue" | EHeaderEnd => str "HeaderEnd" | EDocAttribValue => str "DocAttribValue" | EDocAttribEnd => str "DocAttribEnd"
  | ETagAttribName => str "TagAttribName" | ETagAttribValue => str "TagAttribValue" | EOpenTag => str "OpenTag" | ECloseTag => str "CloseTag" | ECloseTagIm => str "CloseTagIm"
  | EContent => str "Content" | EExit => str "Exit"
  end.
Definition element_line (e : etype * list N) : list N := name_of (fst e) ++ 32 :: snd e ++ [10].

(** ** examples/TextScanner.cpp: a line for each character *)
Definition hex_digit (c : N) : option N := if (48 <=? c) && (c <=? 57) then Some (c - 48) else if (97 <=? c) && (c <=? 102) then Some (c - 87) else None.
(** a number to the base 16 without leading zeros *)
Inductive hex_number : list N -> N -> Prop :=
| hx_one : forall c v, hex_digit c = Some v -> hex_number [c] v
| hx_more : forall ds n c v, hex_number ds n -> n <> 0 -> hex_digit c = Some v -> hex_number (ds ++ [c]) (16 * n + v).

(** ** examples/XMLPathSelect.cpp: the numbers printed for each of the elements. [tags]: the open tags, the innermost first; [attr]: the
    name of the attribute if the element before is one. *)
Definition is_name (a : list N) (b : string) : bool := if list_eq_dec N.eq_dec a (str b) then true else false.
Fixpoint addresses (tags : list (list N)) (attr : option (list N)) (els : list (etype * list N)) : list (list Z) :=
  match els with
  | [] => []
  | (t, v) :: l =>
      match t, tags, attr with
      | ETagAttribValue, [tag], Some n => if is_name tag "address" then if is_name n "name" then [1%Z] else if is_name n "street" then [2%Z] else [] else []
      | _, _, _ => []
      end ::
      match t with
      | EOpenTag => addresses (v :: tags) None l
      | ECloseTag | ECloseTagIm => addresses (tl tags) None l
      | ETagAttribName => addresses tags (Some v) l
      | _ => addresses tags None l
      end
  end.
(** the line for each of the numbers *)
Definition address_line (e : etype * list N) (z : Z) : list N := (if (z =? 1)%Z then 49 else 50) :: str ": " ++ name_of (fst e) ++ snd e ++ [10].
Definition address_lines (els : list (etype * list N)) (rs : list (list Z)) : list N := flat_map (fun p => flat_map (address_line (fst p)) (snd p)) (combine els rs).
