(** XML headers and their use (specification). *)
From Verif Require Import Base XmlHdr.

(** ** Parsing with input supplied in chunks until the parser is done: parse() is called after every putInput(..) as long as it returns
    false without an error. *)
Fixpoint h_feed (chunks : list (list N)) (h : hdr) : out hdr bool :=
  match chunks with
  | [] => Ret h false
  | c :: chunks' =>
      let! (h1, done) := h_parse (h_put h c) in
      if done then Ret h1 true
      else match h_lasterror h1 with Some _ => Ret h1 false | None => h_feed chunks' h1 end
  end.

(** What can be seen: is there a result or an exception, result of parse(), encoding(), lasterror(), charsConsumed() *)
Definition h_view (o : out hdr bool) : option (option bool * option (list N) * option (list N) * nat) :=
  match o with
  | Ret h b => Some (Some b, h_encoding h, h_lasterror h, h_chars h)
  | Throw h => Some (None, h_encoding h, h_lasterror h, h_chars h)
  | _ => None
  end.

(** ** Characters with null bytes between *)
Inductive padded : list N -> list N -> Prop :=
| padded_nil : forall k, (k <= 3)%nat -> padded [] (repeat 0 k)
| padded_cons : forall k c l l', (k <= 3)%nat -> c <> 0 -> padded l l' -> padded (c :: l) (repeat 0 k ++ c :: l').

(** ** The header *)
Definition h_ws (c : N) : Prop := 1 <= c <= 32.
Definition h_letter (c : N) : Prop := 65 <= c <= 90 \/ 97 <= c <= 122 \/ c = 95.
Definition attr_name (a : hattr) : list N :=
  match a with HEncoding => str "encoding" | HVersion => str "version" | HStandalone => str "standalone" end.
(** white space, name, white space, =, white space, value in quotes *)
Record hattrsrc := mkHa { ha_pre : list N; ha_kind : hattr; ha_ws1 : list N; ha_ws2 : list N; ha_q : N; ha_val : list N }.
Definition ha_ok (a : hattrsrc) : Prop :=
  Forall h_ws (ha_pre a) /\ Forall h_ws (ha_ws1 a) /\ Forall h_ws (ha_ws2 a) /\ (ha_q a = 34 \/ ha_q a = 39) /\
  Forall (fun c => c <> ha_q a) (ha_val a).
Definition ha_src (a : hattrsrc) : list N :=
  ha_pre a ++ attr_name (ha_kind a) ++ ha_ws1 a ++ 61 :: ha_ws2 a ++ ha_q a :: ha_val a ++ [ha_q a].
(** the value of the last encoding attribute *)
Fixpoint enc_of (e : list N) (l : list hattrsrc) : list N :=
  match l with
  | [] => e
  | a :: l' => enc_of (match ha_kind a with HEncoding => ha_val a | _ => e end) l'
  end.
Definition nonempty (e : list N) : option (list N) := match e with [] => None | _ => Some e end.

(** [xml_start text e]: the beginning of a document: a name behind an open angle bracket, or an XML header up to the
    question mark at its end, that defines the encoding [e] *)
Inductive xml_start : list N -> option (list N) -> Prop :=
| start_tag : forall ws1 ws2 c, Forall h_ws ws1 -> Forall h_ws ws2 -> h_letter c -> xml_start (ws1 ++ 60 :: ws2 ++ [c]) None
| start_empty : forall ws1 ws2, Forall h_ws ws1 -> Forall h_ws ws2 -> xml_start (ws1 ++ 60 :: ws2 ++ str "?xml?") None
| start_hdr : forall ws1 ws2 c attrs ws3, Forall h_ws ws1 -> Forall h_ws ws2 -> h_ws c -> Forall ha_ok attrs -> Forall h_ws ws3 ->
    xml_start (ws1 ++ 60 :: ws2 ++ str "?xml" ++ c :: flat_map ha_src attrs ++ ws3 ++ [63]) (nonempty (enc_of [] attrs)).

(** characters that are not white space *)
Definition visible (text : list N) : nat := length (filter (fun c => 32 <? c) text).
