(** Documents, their text and their elements (specification). *)
From Verif Require Import Base XmlScanner.

(** ** Characters *)
Definition white (c : N) : Prop := c = 32 \/ c = 9 \/ c = 10 \/ c = 13.
Definition markup_chars : list N := str "&<=>/!?'[]" ++ [34].
(** characters of names *)
Definition name_char (c : N) : Prop := 128 <= c \/ (33 <= c < 128 /\ ~ In c markup_chars).
(** characters of content *)
Definition text_char (c : N) : Prop := c <> 0 /\ c <> 38 /\ c <> 60.
(** characters of a value in quotes *)
Definition value_char (quote : N) (c : N) : Prop := text_char c /\ c <> quote.

(** end of line normalisation *)
Fixpoint eol (l : list N) : list N :=
  match l with
  | [] => []
  | c :: r => if c =? 13
              then 10 :: match r with
                         | d :: r' => if d =? 10 then eol r' else eol r
                         | [] => []
                         end
              else c :: eol r
  end.

(** ** Character references *)
Inductive ref :=
| RDec (digits : list N)        (** decimal *)
| RHex (digits : list N)        (** hexadecimal *)
| RLt | RGt | RAmp | RQuot | RApos.

Definition dec_digit (c : N) : Prop := 48 <= c <= 57.
Definition hex_digit (c : N) : Prop := 48 <= c <= 57 \/ 65 <= c <= 70 \/ 97 <= c <= 102.
Definition digit_value (c : N) : N := if c <=? 57 then c - 48 else if c <=? 70 then c - 55 else c - 87.
Definition number (base : N) (digits : list N) : N := fold_left (fun v c => v * base + digit_value c) digits 0.

Definition ref_src (r : ref) : list N :=
  match r with
  | RDec ds => str "&#" ++ ds ++ str ";"
  | RHex ds => str "&#x" ++ ds ++ str ";"
  | RLt => str "&lt;" | RGt => str "&gt;" | RAmp => str "&amp;" | RQuot => str "&quot;" | RApos => str "&apos;"
  end.
(** the character denoted *)
Definition ref_char (r : ref) : N :=
  match r with
  | RDec ds => number 10 ds
  | RHex ds => number 16 ds
  | RLt => 60 | RGt => 62 | RAmp => 38 | RQuot => 34 | RApos => 39
  end.
Definition ref_ok (r : ref) : Prop :=
  match r with
  | RDec ds => Forall dec_digit ds /\ (1 <= length ds <= 15)%nat /\ number 10 ds < 2 ^ 32
  | RHex ds => Forall hex_digit ds /\ (1 <= length ds <= 15)%nat /\ number 16 ds < 2 ^ 32
  | _ => True
  end.

(** ** Ampersands: references and text behind an ampersand that does not form a reference *)
Inductive amp :=
| Ref (r : ref)
| Lit (l : list N).
Coercion Ref : ref >-> amp.
(** ASCII characters that are neither white space nor markup nor a dash *)
Definition plain_char (c : N) : Prop := 33 <= c < 128 /\ ~ In c markup_chars /\ c <> 45.
(** text like that of a named reference that is not ended by a semicolon; [follow] is the text behind *)
Definition open_name (l follow : list N) : Prop :=
  Forall (fun c => plain_char c /\ c <> 59) l /\ hd 0 l <> 35 /\ (length l <= 15)%nat /\
  (length l = 15%nat -> hd 0 follow <> 59) /\ ((length l < 15)%nat -> ~ plain_char (hd 0 follow)).
(** text like that of a decimal reference that is not ended by a semicolon *)
Definition open_number (l follow : list N) : Prop :=
  exists ds, l = 35 :: ds /\ Forall dec_digit ds /\ (length ds <= 16)%nat /\
  ((length ds < 16)%nat -> ~ dec_digit (hd 0 follow) /\ hd 0 follow <> 59 /\ (ds = [] -> hd 0 follow <> 120)).
Definition amp_src (a : amp) : list N := match a with Ref r => ref_src r | Lit l => 38 :: l end.
Definition amp_chars (a : amp) : list N := match a with Ref r => [ref_char r] | Lit l => 38 :: l end.
Definition amp_ok (a : amp) (follow : list N) : Prop :=
  match a with
  | Ref r => ref_ok r
  | Lit l => open_name l follow \/ open_number l follow
  end.

(** ** Tokens: characters with references in between *)
Record token := mkToken { t_raw : list N; t_refs : list (amp * list N) }.
Definition tok_src (t : token) : list N := t_raw t ++ flat_map (fun p => amp_src (fst p) ++ snd p) (t_refs t).
Definition tok_chars (t : token) : list N := eol (t_raw t) ++ flat_map (fun p => amp_chars (fst p) ++ eol (snd p)) (t_refs t).
Definition tok_ok (P : N -> Prop) (t : token) : Prop :=
  Forall P (t_raw t) /\ Forall (fun p => amp_ok (fst p) (snd p) /\ Forall P (snd p)) (t_refs t).

(** names of tags and attributes *)
Definition name_ok (t : token) : Prop := tok_ok name_char t /\ tok_src t <> [].
Definition name (l : list N) : token := mkToken l [].

(** ** Attributes *)
Inductive aval :=
| Quoted (quote : N) (v : token)
| Bare (v : token).
Record attr := mkAttr { a_ws : list N; a_name : token; a_ws1 : list N; a_ws2 : list N; a_val : aval }.
Definition aval_src (v : aval) : list N :=
  match v with
  | Quoted q t => q :: tok_src t ++ [q]
  | Bare t => tok_src t
  end.
Definition aval_chars (v : aval) : list N := match v with Quoted _ t => tok_chars t | Bare t => tok_chars t end.
Definition aval_ok (v : aval) : Prop :=
  match v with
  | Quoted q t => (q = 34 \/ q = 39) /\ tok_ok (value_char q) t
  | Bare t => name_ok t
  end.
Definition attr_src (a : attr) : list N :=
  a_ws a ++ tok_src (a_name a) ++ a_ws1 a ++ [61] ++ a_ws2 a ++ aval_src (a_val a).
Definition attr_ok (a : attr) : Prop :=
  a_ws a <> [] /\ Forall white (a_ws a) /\ name_ok (a_name a) /\ Forall white (a_ws1 a) /\ Forall white (a_ws2 a) /\ aval_ok (a_val a).
Definition attrs_src (l : list attr) : list N := flat_map attr_src l.
Definition attrs_elements (tn tv : etype) (l : list attr) : list (etype * list N) :=
  flat_map (fun a => [(tn, tok_chars (a_name a)); (tv, aval_chars (a_val a))]) l.

(** ** Parts of a document attribute definition <!NAME ...> *)
Inductive dpart :=
| DId (n : token)
| DStr (quote : N) (t : token)
| DList (l : list N).
Definition dpart_src (d : dpart) : list N :=
  match d with
  | DId n => tok_src n
  | DStr q t => q :: tok_src t ++ [q]
  | DList l => 91 :: l ++ [93]
  end.
Definition dpart_elements (d : dpart) : list (etype * list N) :=
  match d with
  | DId n => [(EDocAttribValue, tok_chars n)]
  | DStr q t => [(EDocAttribValue, tok_chars t)]
  | DList _ => []
  end.
Definition dpart_ok (d : dpart) : Prop :=
  match d with
  | DId n => name_ok n
  | DStr q t => (q = 34 \/ q = 39) /\ tok_ok (value_char q) t
  | DList l => ~ In 93 l
  end.

(** ** Items of a document *)
Inductive item :=
| IText (t : token)
| IOpen (n : token) (attrs : list attr) (ws : list N)
| IEmpty (n : token) (attrs : list attr) (ws ws2 : list N)  (** [ws2] is the white space between / and > *)
| IClose (n : token) (ws : list N)
| IComment (l : list N)
| IPI (l : list N)
| ICData (l : list N)
| IDoctype (n : token) (parts : list (list N * dpart)) (ws : list N).

Definition item_src (i : item) : list N :=
  match i with
  | IText t => tok_src t
  | IOpen n attrs ws => [60] ++ tok_src n ++ attrs_src attrs ++ ws ++ [62]
  | IEmpty n attrs ws ws2 => [60] ++ tok_src n ++ attrs_src attrs ++ ws ++ [47] ++ ws2 ++ [62]
  | IClose n ws => str "</" ++ tok_src n ++ ws ++ [62]
  | IComment l => str "<!--" ++ l ++ str "-->"
  | IPI l => str "<?" ++ l ++ str "?>"
  | ICData l => str "<![CDATA[" ++ l ++ str "]]>"
  | IDoctype n parts ws => str "<!" ++ tok_src n ++ flat_map (fun p => fst p ++ dpart_src (snd p)) parts ++ ws ++ [62]
  end.

(** A section ends at the first > that directly follows a good number of the character [d]. Comments: [d] is - and an even number,
    but not none, of dashes is good. CDATA sections: [d] is ] and 2, 5, 8, ... of them are good. *)
Definition not_last (c : N) (l : list N) : Prop := forall l', l <> l' ++ [c].
Definition closes (d : N) (good : nat -> bool) (l : list N) : Prop :=
  exists p n, l = p ++ repeat d n ++ [62] /\ not_last d p /\ good n = true.
Definition closes_first (d : N) (good : nat -> bool) (l : list N) : Prop :=
  closes d good l /\ forall p q, l = p ++ q -> q <> [] -> ~ closes d good p.
Definition never_closes (d : N) (good : nat -> bool) (l : list N) : Prop := forall p q, l = p ++ q -> ~ closes d good p.
Definition comment_run (n : nat) : bool := Nat.even n && negb (n =? 0)%nat.
Definition cdata_run (n : nat) : bool := (n mod 3 =? 2)%nat.

Definition item_ok (i : item) : Prop :=
  match i with
  | IText t => tok_ok text_char t /\ tok_src t <> []
  | IOpen n attrs ws => name_ok n /\ Forall attr_ok attrs /\ Forall white ws
  | IEmpty n attrs ws ws2 => name_ok n /\ Forall attr_ok attrs /\ Forall white ws /\ Forall white ws2
  | IClose n ws => name_ok n /\ Forall white ws
  | IComment l => closes_first 45 comment_run (l ++ str "-->")
  | IPI l => ~ In 63 l
  | ICData l => closes_first 93 cdata_run (l ++ str "]]>")
  | IDoctype n parts ws => name_ok n /\ hd 0 (t_raw n) <> 45 /\
      Forall (fun p => fst p <> [] /\ Forall white (fst p) /\ dpart_ok (snd p)) parts /\ Forall white ws
  end.

(** blank characters are dropped after the header, a comment or a document attribute definition *)
Definition blank (c : N) : bool := (0 <? c) && (c <=? 32) && negb (c =? 5).
Fixpoint strip (l : list N) : list N :=
  match l with
  | [] => []
  | c :: r => if blank c then strip r else l
  end.
Definition tok_strip (t : token) : token := mkToken (strip (t_raw t)) (t_refs t).

(** the elements of an item; [seek]: blank characters are dropped *)
Definition item_elements (seek : bool) (i : item) : list (etype * list N) :=
  match i with
  | IText t =>
      let t' := if seek then tok_strip t else t in
      match tok_src t' with
      | [] => []
      | _ => [(EContent, tok_chars t')]
      end
  | IOpen n attrs ws => (EOpenTag, tok_chars n) :: attrs_elements ETagAttribName ETagAttribValue attrs
  | IEmpty n attrs ws ws2 =>
      (EOpenTag, tok_chars n) :: attrs_elements ETagAttribName ETagAttribValue attrs ++ repeat (ECloseTagIm, []) (S (length ws2))
  | IClose n ws => [(ECloseTag, tok_chars n)]
  | IComment l => []
  | IPI l => []
  | ICData l => []
  | IDoctype n parts ws => (EDocAttribValue, tok_chars n) :: flat_map (fun p => dpart_elements (snd p)) parts ++ [(EDocAttribEnd, [])]
  end.
Definition item_seek (seek : bool) (i : item) : bool :=
  match i with
  | IText t => match tok_src (if seek then tok_strip t else t) with [] => seek | _ => false end
  | IComment _ | IDoctype _ _ _ => true
  | _ => false
  end.

Definition items_src (l : list item) : list N := flat_map item_src l.
Fixpoint items_elements (seek : bool) (l : list item) : list (etype * list N) :=
  match l with
  | [] => []
  | i :: r => item_elements seek i ++ items_elements (item_seek seek i) r
  end.

Definition is_text (i : item) : bool := match i with IText _ => true | _ => false end.
(** content is not split into several items *)
Fixpoint no_split (l : list item) : Prop :=
  match l with
  | i :: (j :: _) as r => ~ (is_text i = true /\ is_text j = true) /\ no_split r
  | _ => True
  end.
Definition items_ok (l : list item) : Prop := Forall item_ok l /\ no_split l.

(** ** Documents: a header <?xml ... ?> or an item that may be the first, then items *)
Record header := mkHeader { h_attrs : list attr; h_ws : list N; h_ws2 : list N }.
Definition header_src (h : header) : list N := str "<?xml" ++ attrs_src (h_attrs h) ++ h_ws h ++ [63] ++ h_ws2 h ++ [62].
Definition header_ok (h : header) : Prop := Forall attr_ok (h_attrs h) /\ Forall white (h_ws h) /\ Forall white (h_ws2 h).
Definition header_elements (h : header) : list (etype * list N) :=
  (EHeaderStart, str "?xml") :: attrs_elements EHeaderAttribName EHeaderAttribValue (h_attrs h) ++ [(EHeaderEnd, [])].

Record doc := mkDoc { d_ws : list N; d_header : option header; d_items : list item }.
Definition doc_src (d : doc) : list N :=
  d_ws d ++ match d_header d with Some h => header_src h | None => [] end ++ items_src (d_items d).
(** items possible at the start of a document without header *)
Definition first_ok (l : list item) : Prop :=
  match l with
  | [] => True
  | (IOpen _ _ _ | IEmpty _ _ _ _ | IComment _ | ICData _ | IDoctype _ _ _) :: _ => True
  | _ => False
  end.
Definition doc_ok (d : doc) : Prop :=
  Forall white (d_ws d) /\ items_ok (d_items d) /\
  match d_header d with Some h => header_ok h | None => first_ok (d_items d) end.
Definition doc_body (d : doc) : list (etype * list N) :=
  match d_header d with
  | Some h => header_elements h ++ items_elements true (d_items d)
  | None => items_elements false (d_items d)
  end.
Definition doc_elements (d : doc) : list (etype * list N) := doc_body d ++ [(EExit, [])].
