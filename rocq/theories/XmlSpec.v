(** The language read by the scanner (specification): what is delivered for every text of characters, right or wrong. The relations are
    rules in the style of a natural semantics: [x_reads l els o] says that the text [l] delivers the elements [els], and [o] says how it
    goes on. The end of the text counts as the character 0, as in the code. *)
From Verif Require Import Base XmlScanner DocSpec.

(** ** Characters *)
Inductive cls := CName | CText | CValue (quote : N).
Definition charb (k : cls) (c : N) : bool :=
  match k with
  | CName => (c =? 5) || (128 <=? c) || ((33 <=? c) && negb (existsb (N.eqb c) markup_chars))
  | CText => negb ((c =? 0) || (c =? 38) || (c =? 60))
  | CValue q => negb ((c =? 0) || (c =? 38) || (c =? 60) || (c =? q))
  end.
Definition all (p : N -> bool) (l : list N) : Prop := Forall (fun c => p c = true) l.
(** [a] is the longest beginning of [a ++ r] with characters in [p] *)
Definition longest (p : N -> bool) (a r : list N) : Prop := all p a /\ p (hd 0 r) = false.

(** ** Ampersands: the characters delivered for the text after an ampersand and the text left; [None]: an entity that is not defined *)
Definition digitb (base c : N) : bool :=
  if base =? 16 then ((48 <=? c) && (c <=? 57)) || ((65 <=? c) && (c <=? 70)) || ((97 <=? c) && (c <=? 102)) else (48 <=? c) && (c <=? 57).
(** the marks of numbers: # for decimal ones, #x for hexadecimal ones *)
Inductive base_mark : N -> list N -> Prop := bm_dec : base_mark 10 [35] | bm_hex : base_mark 16 [35; 120].
(** characters of names of entities *)
Definition plainb (c : N) : bool := (33 <=? c) && (c <? 128) && negb (existsb (N.eqb c) markup_chars) && negb (c =? 45).
Definition entities : list (list N * N) :=
  [(str "lt", 60); (str "gt", 62); (str "amp", 38); (str "quot", 34); (str "apos", 39); (str "nbsp", 32)].

Inductive amp_reads : list N -> option (list N * list N) -> Prop :=
(** a number up to 15 digits *)
| am_number : forall base mark ds r, base_mark base mark -> all (digitb base) ds -> (length ds <= 15)%nat -> number base ds < 2 ^ 32 ->
    amp_reads (mark ++ ds ++ 59 :: r) (Some ([number base ds], r))
(** it is too big: delivered as it is, the semicolon twice *)
| am_big : forall base mark ds r, base_mark base mark -> all (digitb base) ds -> (length ds <= 15)%nat -> 2 ^ 32 <= number base ds ->
    amp_reads (mark ++ ds ++ 59 :: r) (Some (str "&#" ++ ds ++ [59], 59 :: r))
(** a number without semicolon, or with 16 digits: delivered as it is, without the x of a hexadecimal one *)
| am_open_number : forall base mark ds r, base_mark base mark -> all (digitb base) ds -> (length ds <= 16)%nat ->
    (length ds = 16%nat \/ digitb base (hd 0 r) = false /\ hd 0 r <> 59) -> (base = 10 -> ds = [] -> hd 0 r <> 120) ->
    amp_reads (mark ++ ds ++ r) (Some (str "&#" ++ ds, r))
(** a name with a semicolon *)
| am_entity : forall nm c r, In (nm, c) entities -> amp_reads (nm ++ 59 :: r) (Some ([c], r))
| am_undefined : forall nm r, all (fun c => plainb c && negb (c =? 59)) nm -> (length nm <= 15)%nat -> hd 0 nm <> 35 ->
    ~ In nm (map fst entities) -> amp_reads (nm ++ 59 :: r) None
(** a name without semicolon: delivered as it is *)
| am_open_name : forall nm r, all (fun c => plainb c && negb (c =? 59)) nm -> (length nm <= 15)%nat -> hd 0 nm <> 35 ->
    (length nm = 15%nat /\ hd 0 r <> 59 \/ (length nm < 15)%nat /\ plainb (hd 0 r) = false) -> amp_reads (nm ++ r) (Some (38 :: nm, r)).

(** ** Tokens: the value delivered and the text left; [None]: an entity that is not defined *)
Inductive tok_reads (k : cls) : list N -> option (list N * list N) -> Prop :=
| tr_end : forall raw r, longest (charb k) raw r -> hd 0 r <> 38 -> tok_reads k (raw ++ r) (Some (eol raw, r))
| tr_amp : forall raw l v l' w r, all (charb k) raw -> amp_reads l (Some (v, l')) -> tok_reads k l' (Some (w, r)) ->
    tok_reads k (raw ++ 38 :: l) (Some (eol raw ++ v ++ w, r))
| tr_undefined : forall raw l, all (charb k) raw -> amp_reads l None -> tok_reads k (raw ++ 38 :: l) None
| tr_later : forall raw l v l', all (charb k) raw -> amp_reads l (Some (v, l')) -> tok_reads k l' None -> tok_reads k (raw ++ 38 :: l) None.

(** ** How a piece of markup goes on *)
Inductive step :=
| Goes (seek : bool) (rest : list N)  (** with the text left; [seek]: white space before content is skipped *)
| Fails (e : xerror)                  (** error *)
| Hangs.                              (** the text ends in a section: the scanner does not end *)

(** ** Attributes of the header ([h] is true) and of tags, from behind a name or a value up to the end of the tag *)
Definition finb (h : bool) (c : N) : bool := if h then c =? 63 else (c =? 62) || (c =? 47).
Definition followb (h : bool) (c : N) : bool := blank c || finb h c.
Definition an (h : bool) : etype := if h then EHeaderAttribName else ETagAttribName.
Definition av (h : bool) : etype := if h then EHeaderAttribValue else ETagAttribValue.
Definition quoteb (c : N) : bool := (c =? 34) || (c =? 39).

(** the value of an attribute *)
Inductive value_reads (h : bool) : list N -> list (etype * list N) -> step -> Prop :=
| vr_quoted : forall q l v r, quoteb q = true -> tok_reads (CValue q) l (Some (v, q :: r)) -> followb h (hd 0 r) = true ->
    value_reads h (q :: l) [(av h, v)] (Goes false r)
| vr_quoted_follow : forall q l v r, quoteb q = true -> tok_reads (CValue q) l (Some (v, q :: r)) -> followb h (hd 0 r) = false ->
    value_reads h (q :: l) [(av h, v)] (Fails ErrExpectedTagAttribute)
| vr_quoted_open : forall q l v r, quoteb q = true -> tok_reads (CValue q) l (Some (v, r)) -> hd 0 r <> q ->
    value_reads h (q :: l) [] (Fails ErrStringNotTerminated)
| vr_quoted_undefined : forall q l, quoteb q = true -> tok_reads (CValue q) l None -> value_reads h (q :: l) [] (Fails ErrUndefinedCharacterEntity)
| vr_bare : forall l v r, quoteb (hd 0 l) = false -> tok_reads CName l (Some (v, r)) -> followb h (hd 0 r) = true ->
    value_reads h l [(av h, v)] (Goes false r)
| vr_bare_follow : forall l v r, quoteb (hd 0 l) = false -> tok_reads CName l (Some (v, r)) -> followb h (hd 0 r) = false ->
    value_reads h l [] (Fails ErrExpectedTagAttribute)
| vr_bare_undefined : forall l, quoteb (hd 0 l) = false -> tok_reads CName l None -> value_reads h l [] (Fails ErrUndefinedCharacterEntity).

(** one attribute; a text [ws1 ++ ...] after the name has the longest [ws1] *)
Inductive attr_reads (h : bool) : list N -> list (etype * list N) -> step -> Prop :=
| tr_undef : forall l, tok_reads CName l None -> attr_reads h l [] (Fails ErrUndefinedCharacterEntity)
| tr_name : forall l n r, tok_reads CName l (Some (n, r)) -> blank (hd 0 r) = false -> hd 0 r <> 61 -> attr_reads h l [] (Fails ErrExpectedEqual)
| tr_noequal : forall l n ws1 r, tok_reads CName l (Some (n, ws1 ++ r)) -> ws1 <> [] -> longest blank ws1 r -> hd 0 r <> 61 ->
    attr_reads h l [(an h, n)] (Fails ErrExpectedEqual)
| tr_attr : forall l n ws1 ws2 l2 els s, tok_reads CName l (Some (n, ws1 ++ 61 :: ws2 ++ l2)) -> all blank ws1 -> longest blank ws2 l2 ->
    value_reads h l2 els s -> attr_reads h l ((an h, n) :: els) s.

(** the text left starts with the end of the tag *)
Inductive attrs_read (h : bool) : list N -> list (etype * list N) -> step -> Prop :=
| ar_end : forall ws r, all blank ws -> finb h (hd 0 r) = true -> attrs_read h (ws ++ r) [] (Goes false r)
| ar_attr : forall ws l els b r els2 s, ws <> [] -> longest blank ws l -> finb h (hd 0 l) = false ->
    attr_reads h l els (Goes b r) -> attrs_read h r els2 s -> attrs_read h (ws ++ l) (els ++ els2) s
| ar_fails : forall ws l els e, ws <> [] -> longest blank ws l -> finb h (hd 0 l) = false ->
    attr_reads h l els (Fails e) -> attrs_read h (ws ++ l) els (Fails e).

(** ** The end of an open tag *)
Inductive tagend_reads : list N -> list (etype * list N) -> step -> Prop :=
| te_gt : forall r, tagend_reads (62 :: r) [] (Goes false r)
| te_slash : forall ws r, all blank ws -> tagend_reads (47 :: ws ++ 62 :: r) (repeat (ECloseTagIm, []) (S (length ws))) (Goes false r)
| te_bad : forall ws r, longest blank ws r -> hd 0 r <> 62 ->
    tagend_reads (47 :: ws ++ r) (repeat (ECloseTagIm, []) (length ws)) (Fails ErrExpectedTagEnd).

(** a tag, after the < *)
Inductive tag_reads : list N -> list (etype * list N) -> step -> Prop :=
| tg_undefined : forall l, tok_reads CName l None -> tag_reads l [] (Fails ErrUndefinedCharacterEntity)
| tg_follow : forall l n r, tok_reads CName l (Some (n, r)) -> followb false (hd 0 r) = false -> tag_reads l [] (Fails ErrExpectedTagAttribute)
| tg_attrs : forall l n r els e, tok_reads CName l (Some (n, r)) -> followb false (hd 0 r) = true -> attrs_read false r els (Fails e) ->
    tag_reads l ((EOpenTag, n) :: els) (Fails e)
| tg_tag : forall l n r els b r2 els2 s, tok_reads CName l (Some (n, r)) -> followb false (hd 0 r) = true -> attrs_read false r els (Goes b r2) ->
    tagend_reads r2 els2 s -> tag_reads l ((EOpenTag, n) :: els ++ els2) s.

(** a close tag, after the </ *)
Inductive close_reads : list N -> list (etype * list N) -> step -> Prop :=
| cl_undefined : forall l, tok_reads CName l None -> close_reads l [] (Fails ErrUndefinedCharacterEntity)
| cl_name : forall l n r, tok_reads CName l (Some (n, r)) -> blank (hd 0 r) = false -> hd 0 r <> 62 -> close_reads l [] (Fails ErrExpectedTagEnd)
| cl_end : forall l n ws r, tok_reads CName l (Some (n, ws ++ r)) -> ws <> [] -> longest blank ws r -> hd 0 r <> 62 ->
    close_reads l [(ECloseTag, n)] (Fails ErrExpectedTagEnd)
| cl_close : forall l n ws r, tok_reads CName l (Some (n, ws ++ 62 :: r)) -> all blank ws -> close_reads l [(ECloseTag, n)] (Goes false r).

(** ** Key words: the text left or the error *)
Inductive key_reads : list N -> list N -> xerror + list N -> Prop :=
| ky_done : forall r, key_reads [] r (inr r)
| ky_next : forall x k l o, key_reads k l o -> key_reads (x :: k) (x :: l) o
| ky_end : forall x k l, hd 0 l = 0 -> key_reads (x :: k) l (inl ErrUnexpectedEndOfText)
| ky_other : forall x k l, hd 0 l <> 0 -> hd 0 l <> x -> key_reads (x :: k) l (inl ErrSyntaxToken).

(** ** The header, after the <? *)
Inductive header_reads : list N -> list (etype * list N) -> step -> Prop :=
| hd_key : forall l e, key_reads (str "xml") l (inl e) -> header_reads l [] (Fails e)
| hd_follow : forall l r, key_reads (str "xml") l (inr r) -> followb true (hd 0 r) = false -> header_reads l [] (Fails ErrExpectedXMLTag)
| hd_attrs : forall l r els e, key_reads (str "xml") l (inr r) -> followb true (hd 0 r) = true -> attrs_read true r els (Fails e) ->
    header_reads l ((EHeaderStart, str "?xml") :: els) (Fails e)
| hd_bad : forall l r els b ws r2, key_reads (str "xml") l (inr r) -> followb true (hd 0 r) = true -> attrs_read true r els (Goes b (63 :: ws ++ r2)) ->
    longest blank ws r2 -> hd 0 r2 <> 62 -> header_reads l ((EHeaderStart, str "?xml") :: els) (Fails ErrExpectedTagEnd)
| hd_header : forall l r els b ws r2, key_reads (str "xml") l (inr r) -> followb true (hd 0 r) = true -> attrs_read true r els (Goes b (63 :: ws ++ 62 :: r2)) ->
    all blank ws -> header_reads l ((EHeaderStart, str "?xml") :: els ++ [(EHeaderEnd, [])]) (Goes true r2).

(** ** A processing instruction, after the <? *)
Inductive pi_reads : list N -> step -> Prop :=
| pi_pi : forall c r, ~ In 63 c -> pi_reads (c ++ 63 :: 62 :: r) (Goes false r)
| pi_bad : forall c r, ~ In 63 c -> hd 0 r <> 62 -> pi_reads (c ++ 63 :: r) (Fails ErrExpectedTagEnd)
| pi_open : forall c, ~ In 63 c -> pi_reads c Hangs.

(** ** Document attribute definitions, after the <! *)
Definition def_headb (c : N) : bool := blank c || (c =? 62) || quoteb c || (c =? 91).
Inductive def_reads : list N -> list (etype * list N) -> step -> Prop :=
| df_end : forall r, def_reads (62 :: r) [(EDocAttribEnd, [])] (Goes true r)
| df_blank : forall c l els s, blank c = true -> def_reads l els s -> def_reads (c :: l) els s
| df_string : forall q l v r els s, quoteb q = true -> tok_reads (CValue q) l (Some (v, q :: r)) -> def_reads r els s ->
    def_reads (q :: l) ((EDocAttribValue, v) :: els) s
| df_string_open : forall q l v r, quoteb q = true -> tok_reads (CValue q) l (Some (v, r)) -> hd 0 r <> q -> def_reads (q :: l) [] (Fails ErrStringNotTerminated)
| df_string_undefined : forall q l, quoteb q = true -> tok_reads (CValue q) l None -> def_reads (q :: l) [] (Fails ErrUndefinedCharacterEntity)
| df_list : forall c r els s, ~ In 93 c -> def_reads r els s -> def_reads (91 :: c ++ 93 :: r) els s
| df_list_open : forall c, ~ In 93 c -> def_reads (91 :: c) [] Hangs
| df_name : forall l v r els s, def_headb (hd 0 l) = false -> tok_reads CName l (Some (v, r)) -> blank (hd 0 r) || (hd 0 r =? 62) = true -> def_reads r els s ->
    def_reads l ((EDocAttribValue, v) :: els) s
| df_name_bad : forall l v r, def_headb (hd 0 l) = false -> tok_reads CName l (Some (v, r)) -> blank (hd 0 r) || (hd 0 r =? 62) = false ->
    def_reads l [] (Fails ErrIllegalDocumentAttributeDef)
| df_name_undefined : forall l, def_headb (hd 0 l) = false -> tok_reads CName l None -> def_reads l [] (Fails ErrUndefinedCharacterEntity).

(** ** All that follows <! *)
Inductive decl_reads : list N -> list (etype * list N) -> step -> Prop :=
| dc_comment : forall c r, closes_first 45 comment_run c -> decl_reads (45 :: 45 :: c ++ r) [] (Goes true r)
| dc_comment_open : forall c, never_closes 45 comment_run c -> decl_reads (45 :: 45 :: c) [] Hangs
| dc_dash : forall l, hd 0 l <> 45 -> decl_reads (45 :: l) [] (Fails ErrExpectedDash2)
| dc_key : forall l e, key_reads (str "CDATA") l (inl e) -> decl_reads (91 :: l) [] (Fails e)
| dc_follow : forall l r, key_reads (str "CDATA") l (inr r) -> hd 0 r <> 91 -> decl_reads (91 :: l) [] (Fails ErrExpectedCDATATag)
| dc_cdata : forall l c r, key_reads (str "CDATA") l (inr (91 :: c ++ r)) -> closes_first 93 cdata_run c -> decl_reads (91 :: l) [] (Goes false r)
| dc_cdata_open : forall l c, key_reads (str "CDATA") l (inr (91 :: c)) -> never_closes 93 cdata_run c -> decl_reads (91 :: l) [] Hangs
| dc_def : forall l els s, hd 0 l <> 45 -> hd 0 l <> 91 -> def_reads l els s -> decl_reads l els s.

(** ** All that follows < and white space; the first markup of a text may be the header and is no processing instruction and no close tag *)
Inductive markup_reads (first : bool) : list N -> list (etype * list N) -> step -> Prop :=
| mk_header : forall l els s, first = true -> header_reads l els s -> markup_reads first (63 :: l) els s
| mk_pi : forall l s, first = false -> pi_reads l s -> markup_reads first (63 :: l) [] s
| mk_decl : forall l els s, decl_reads l els s -> markup_reads first (33 :: l) els s
| mk_close : forall l els s, first = false -> close_reads l els s -> markup_reads first (47 :: l) els s
| mk_tag : forall l els s, hd 0 l <> 63 -> hd 0 l <> 33 -> (first = false -> hd 0 l <> 47) -> tag_reads l els s -> markup_reads first l els s.

(** ** Contents and whole texts *)
Inductive outcome := Ends | Broken (e : xerror) | Endless.
Inductive content_reads : bool -> list N -> list (etype * list N) -> outcome -> Prop :=
| ct_blank : forall c l els o, blank c = true -> content_reads true l els o -> content_reads true (c :: l) els o
| ct_end : forall seek l, hd 0 l = 0 -> content_reads seek l [(EExit, [])] Ends
| ct_text : forall seek l v r els o, hd 0 l <> 0 -> hd 0 l <> 60 -> (seek = true -> blank (hd 0 l) = false) ->
    tok_reads CText l (Some (v, r)) -> content_reads false r els o -> content_reads seek l ((EContent, v) :: els) o
| ct_undefined : forall seek l, hd 0 l <> 0 -> hd 0 l <> 60 -> (seek = true -> blank (hd 0 l) = false) ->
    tok_reads CText l None -> content_reads seek l [] (Broken ErrUndefinedCharacterEntity)
| ct_markup : forall seek ws l els seek2 r els2 o, longest blank ws l -> markup_reads false l els (Goes seek2 r) -> content_reads seek2 r els2 o ->
    content_reads seek (60 :: ws ++ l) (els ++ els2) o
| ct_fails : forall seek ws l els e, longest blank ws l -> markup_reads false l els (Fails e) -> content_reads seek (60 :: ws ++ l) els (Broken e)
| ct_hangs : forall seek ws l els, longest blank ws l -> markup_reads false l els Hangs -> content_reads seek (60 :: ws ++ l) els Endless.

Inductive text_reads : list N -> list (etype * list N) -> outcome -> Prop :=
| tx_empty : forall ws l, all blank ws -> hd 0 l = 0 -> text_reads (ws ++ l) [(EExit, [])] Ends
| tx_bad : forall ws l, longest blank ws l -> hd 0 l <> 0 -> hd 0 l <> 60 -> text_reads (ws ++ l) [] (Broken ErrExpectedOpenTag)
| tx_text : forall ws ws0 l els seek r els2 o, all blank ws -> longest blank ws0 l -> markup_reads true l els (Goes seek r) -> content_reads seek r els2 o ->
    text_reads (ws ++ 60 :: ws0 ++ l) (els ++ els2) o
| tx_fails : forall ws ws0 l els e, all blank ws -> longest blank ws0 l -> markup_reads true l els (Fails e) -> text_reads (ws ++ 60 :: ws0 ++ l) els (Broken e)
| tx_hangs : forall ws ws0 l els, all blank ws -> longest blank ws0 l -> markup_reads true l els Hangs -> text_reads (ws ++ 60 :: ws0 ++ l) els Endless.
