(** The test programs tests/test_XMLScanner.cpp and tests/readStdinIterator.cpp (model).
    What is written to std::cout is a list of bytes, as in Examples.v. *)
From Verif Require Import Base Iter CharMap Charset TextScanner XmlScanner ScanSpec XmlIter Names Examples.

(** ** tests/test_XMLScanner.cpp *)
(** encodeString, lines 18-34; [xi] is a pointer [i] bytes behind the start of [mem]. Access behind the memory is undefined. The bytes from 128 on are not less than 32. *)
Fixpoint encodeString (mem : list N) (i nn : nat) : option (list N) :=
  match nn with
  | O => Some []
  | S n => match nth_error mem i with
           | None => None
           | Some c => option_map (cons (if c <? 32 then 46 else c)) (encodeString mem (S i) n)
           end
  end.
(** lines 46-51; [len] is strlen, the memory of the string literal is the text with the terminating null character *)
Fixpoint dump_loop (fuel : nat) (mem : list N) (len i : nat) (put : list N) : out (list N) unit :=
  match fuel with
  | O => Fuel
  | S f =>
      if Nat.ltb i len
      then match encodeString mem i 10 with
           | None => Undef
           | Some l => dump_loop f mem len (i + 10) (put ++ show_unsigned 10 (N.of_nat i) ++ str ": [" ++ l ++ str "]" ++ endl)
           end
      else Ret put tt
  end.
Definition dump (fuel : nat) (text : list N) : out (list N) unit :=
  dump_loop fuel (text ++ [0]) (length (before_null text)) 0 [].

(** the names in lines 57-74 *)
Definition type_text (t : etype) : list N :=
  match t with
  | EHeaderAttribName | ETagAttribName => str "attribute name"
  | EHeaderAttribValue | ETagAttribValue => str "attribute value"
  | EHeaderEnd => str "end of header"
  | EDocAttribValue => str "document attribute value"
  | EDocAttribEnd => str "end of entity declaration"
  | EOpenTag => str "open tag"
  | ECloseTag | ECloseTagIm => str "close tag"
  | EContent => str "content"
  | EExit => str "end of document"
  | ENone | EErrorOccurred | EHeaderStart => []
  end.

Section Loop.
Context {R : Type} (rops : readerops R) (cfg : config).
(** line 75 *)
Definition position_line (s : @xsc R) (t : etype) (name content : list N) : list N :=
  show_unsigned 10 (sc_getTokenPosition (fst s)) ++ str ":" ++ show_unsigned 10 (sub64 (sc_getPosition rops (fst s)) (sc_getTokenPosition (fst s))) ++
  str " element (" ++ name ++ str ")" ++ type_text t ++ str ": " ++ content ++ endl.
(** lines 54-76; content is a null terminated string *)
Fixpoint positions_loop (fuel n : nat) (it : xiter) (s : @xsc R) (put : list N) : out (@xsc R * list N) ended :=
  match n with
  | O => Fuel
  | S n' =>
      if x_eq it x_end then Ret (s, put) EndOfLoop
      else match ie_type (xi_elem it) with
           | ENone | EHeaderStart =>
               let! (s, its) := omap (fun s' => (s', put)) (x_postinc rops cfg fuel it s) in
               positions_loop fuel n' (snd its) (fst s) put
           | EErrorOccurred => match c_string s (ie_content (xi_elem it)) with Some m => Ret (s, put) (Thrown m) | None => Undef end
           | t =>
               match c_string s (ie_content (xi_elem it)), x_name it with
               | Some content, Some name =>
                   let put := put ++ position_line s t name content in
                   let! (s, its) := omap (fun s' => (s', put)) (x_postinc rops cfg fuel it s) in
                   positions_loop fuel n' (snd its) (fst s) put
               | _, _ => Undef
               end
           end
  end.
Definition positions_all (fuel n : nat) (s : @xsc R) (put : list N) : out (@xsc R * list N) ended :=
  let! (s, it) := omap (fun s' => (s', put)) (x_begin rops cfg fuel true s) in positions_loop fuel n it (fst s) put.
End Loop.

(** lines 36-83; the exception is caught and written to std::cerr *)
Definition latin_config : config := xml_config (IsoLatin 1) (IsoLatin 1) None 0.
Definition scanner_start (text : list N) : @xsc (tscan Iter.cptr) := (sc_make (ts_make (mkCptr (text ++ [0]) 0)), 0%nat).
Definition scanner_test (fuel n : nat) (text : list N) : out (@xsc (tscan Iter.cptr) * list N) ended :=
  let! (st, u) := omap (fun put => (scanner_start text, put)) (dump fuel text) in
  positions_all (ts_ops cptr_ops (IsoLatin 1)) latin_config fuel n (fst st) (snd st ++ endl).
(** line 38 *)
Definition scanner_text : list N :=
  str "<?xml charset=isolatin-1?>" ++ [13; 10] ++ str "<note id=1 t=2 g=""zu""><stag value='500'/> " ++ [10] ++ str "<to>Frog</to>" ++ [10] ++
  str "<from>Bird</from><body>Hello world!</body>" ++ [10] ++ str "</note>".

(** ** tests/readStdinIterator.cpp *)
(** struct Input, lines 18-77. [in_file]: what fread has not read yet; fread reads as much as is asked for if there is as much. [in_mem]: the bytes of buf that are
    initialised. The message for errno is left out. *)
Record input := mkIn { in_mem : list N; in_size : N; in_pos : N; in_file : list N }.
Definition in_max : N := 8192.
Definition in_new (file : list N) : input := mkIn [] 0 0 file.
(** getchar, lines 45-59. bufpos is unsigned int. *)
Definition in_getchar (i : input) : out input N :=
  let get i := match nth_error (in_mem i) (N.to_nat (in_pos i)) with
               | Some c => Ret (mkIn (in_mem i) (in_size i) (u32 (in_pos i + 1)) (in_file i)) c
               | None => Undef
               end in
  if in_pos i =? in_size i
  then let got := firstn (N.to_nat in_max) (in_file i) in
       let i1 := mkIn (got ++ skipn (length got) (in_mem i)) (N.of_nat (length got)) (in_pos i) (skipn (N.to_nat in_max) (in_file i)) in
       if in_size i1 =? 0 then Ret i1 0
       else get (mkIn (in_mem i1) (in_size i1) 0 (in_file i1))
  else get i.
(** struct iterator, lines 61-74: the input and ch *)
Definition init := (input * N)%type.
Definition init_deref (i : init) : out init N := Ret i (snd i).
Definition init_incr (i : init) : out init unit := let! (i1, u) := match in_getchar (fst i) with Ret i1 c => Ret (i1, c) tt | Jump i1 => Jump (i1, 0) | Throw i1 => Throw (i1, 0) | Undef => Undef | Fuel => Fuel end in Ret i1 tt.
Definition init_ops : iterops init := mkIterops init_deref init_incr (fun _ => 0).
(** begin, line 75 *)
Definition in_begin (file : list N) : out init unit := init_incr (in_new file, 0).
(** the loop in line 104 with the number of increments *)
Fixpoint stdin_loop (fuel : nat) (n : nat) (i : init) : out init nat :=
  match fuel with
  | O => Fuel
  | S f =>
      let! (i, c) := init_deref i in
      if c =? 0 then Ret i n else let! (i, u) := init_incr i in stdin_loop f (S n) i
  end.
Definition stdin_test (fuel : nat) (file : list N) : out init nat := let! (i, u) := in_begin file in stdin_loop fuel 0 i.
