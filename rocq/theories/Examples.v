(** The example programs: examples/TextScanner.cpp, XMLScanner.cpp, XMLScanner_chunkwise.cpp and XMLPathSelect.cpp (model). *)
From Verif Require Import Base Iter CharMap Charset TextScanner XmlScanner ScanSpec XmlIter Names PathAtm PathSelect PathProg.

(** What is written to std::cout is a list of bytes; that writing fails is not in the model. [put] are the bytes before. *)
(** Numbers, std::hex and std::dec: the digits of an unsigned number to the base [b] *)
Fixpoint digits (fuel : nat) (b n : N) : list N :=
  match fuel with
  | O => []
  | S f => (if n <? b then [] else digits f b (n / b)) ++ [nth (N.to_nat (n mod b)) (str "0123456789abcdef") 0]
  end.
Definition show_unsigned (b n : N) : list N := digits 32 b n.
(** int, decimal *)
Definition show_int (z : Z) : list N := if (z <? 0)%Z then 45 :: show_unsigned 10 (Z.abs_N z) else show_unsigned 10 (Z.to_N z).
Definition endl : list N := [10].

(** ** examples/TextScanner.cpp:12-15. operator* of TextScanner is chr, operator++ is skip. *)
Section TextExample.
Context {I : Type} (ops : iterops I) (cs : charset).
Fixpoint text_loop (fuel : nat) (t : tscan I) (put : list N) : out (tscan I * list N) unit :=
  match fuel with
  | O => Fuel
  | S f =>
      let! (s, v) := omap (fun t' => (t', put)) (ts_chr ops cs t) in
      if v =? 0 then Ret s tt
      else
        let! (s, v) := omap (fun t' => (t', put)) (ts_chr ops cs (fst s)) in
        let put := put ++ show_unsigned 16 v ++ endl in
        let! (s, _) := omap (fun t' => (t', put)) (ts_skip ops cs (fst s)) in
        text_loop f (fst s) put
  end.
End TextExample.
(** lines 7-16 *)
Definition text_example (fuel : nat) (text : list N) : out (tscan cstr * list N) unit :=
  text_loop cstr_ops UTF8 fuel (ts_make (cstr_make text)) [].

(** ** The loop of examples/XMLScanner.cpp:17-25 and XMLScanner_chunkwise.cpp:26-34 *)
(** how it ends: at the end of the loop or with an exception and its text *)
Inductive ended := EndOfLoop | Thrown (msg : list N).
(** a null terminated string behind a pointer *)
Fixpoint before_null (l : list N) : list N :=
  match l with [] => [] | c :: l' => if c =? 0 then [] else c :: before_null l' end.

Section Loop.
Context {R : Type} (rops : readerops R) (cfg : config).

Definition c_string (s : @xsc R) (p : XmlIter.cptr) : option (list N) :=
  match p with
  | PNull => None
  | PEmpty => Some []
  | PBuf k => if Nat.eqb k (snd s) then Some (before_null (sc_obuf (fst s))) else None
  end.
(** std::string( itr->content(), itr->size()) and itr->name() *)
Definition x_elem (it : xiter) (s : @xsc R) : option (list N) := x_read s (ie_content (xi_elem it)) (ie_size (xi_elem it)).
Definition x_name (it : xiter) : option (list N) := getElementTypeName (ie_type (xi_elem it)).
(** std::runtime_error( std::string("xml error: ") + itr->error()) *)
Definition x_message (it : xiter) (s : @xsc R) : option (list N) := option_map (app (str "xml error: ")) (c_string s (ie_error (xi_elem it))).

Fixpoint print_loop (fuel n : nat) (it : xiter) (s : @xsc R) (put : list N) : out (@xsc R * list N) ended :=
  match n with
  | O => Fuel
  | S n' =>
      if x_eq it x_end then Ret (s, put) EndOfLoop
      else match ie_error (xi_elem it) with
           | PNull =>
               match x_elem it s, x_name it with
               | Some elem, Some name =>
                   let put := put ++ name ++ str " " ++ elem ++ endl in
                   let! (s, it) := omap (fun s' => (s', put)) (x_preinc rops cfg fuel it s) in
                   print_loop fuel n' it (fst s) put
               | _, _ => Undef
               end
           | _ => match x_message it s with Some m => Ret (s, put) (Thrown m) | None => Undef end
           end
  end.
Definition print_all (fuel n : nat) (s : @xsc R) (put : list N) : out (@xsc R * list N) ended :=
  let! (s, it) := omap (fun s' => (s', put)) (x_begin rops cfg fuel true s) in print_loop fuel n it (fst s) put.
End Loop.

(** examples/XMLScanner.cpp:7-26 *)
Definition utf8_config : config := xml_config UTF8 UTF8 None 0.
Definition scanner_example (fuel n : nat) (text : list N) : out (@xsc (tscan cstr) * list N) ended :=
  print_all (ts_ops cstr_ops UTF8) utf8_config fuel n (sc_make (ts_make (cstr_make text)), 0%nat) [].

(** ** examples/XMLScanner_chunkwise.cpp:15-36. [Some EndOfLoop]: true is returned, [None]: false is returned after the interrupt.
    No object with a destructor is alive when setjmp returns the second time. *)
Definition chunk_call (fuel n : nat) (chunk : list N) (s : @xsc (tscan srcit)) (put : list N) : out (@xsc (tscan srcit) * list N) (option ended) :=
  match print_all (ts_ops src_ops UTF8) utf8_config fuel n (sc_feed feed_new (fst s) chunk true, snd s) put with
  | Ret st e => Ret st (Some e)
  | Jump st => Ret st None
  | Throw st => Throw st
  | Undef => Undef
  | Fuel => Fuel
  end.
(** called with the chunks of a text as long as it returns false; the results of the calls *)
Fixpoint chunk_calls (fuel n : nat) (chunks : list (list N)) (s : @xsc (tscan srcit)) (put : list N) : out (@xsc (tscan srcit) * list N) (list (option ended)) :=
  match chunks with
  | [] => Ret (s, put) []
  | c :: chunks =>
      let! (st, r) := chunk_call fuel n c s put in
      match r with
      | None => let! (st, rs) := chunk_calls fuel n chunks (fst st) (snd st) in Ret st (r :: rs)
      | Some _ => Ret st [r]
      end
  end.
(** with a scanner made without source *)
Definition chunk_example (fuel n : nat) (chunks : list (list N)) : out (@xsc (tscan srcit) * list N) (list (option ended)) :=
  chunk_calls fuel n chunks (sc_make (ts_make (src_make [] false)), 0%nat) [].

(** ** examples/XMLPathSelect.cpp *)
(** lines 16-17 *)
Definition address_paths : list (list pathop) :=
  [[BTag (Some (str "address")); BAttr (Some (str "name")); BOut 1]; [BTag (Some (str "address")); BAttr (Some (str "street")); BOut 2]].
(** lines 23-37; the fuel of the selector is [fs]. The results of push are fetched with postfix increments before the next element is
    pushed, what is printed for them is added then. *)
Section SelectExample.
Context {R : Type} (rops : readerops R) (cfg : config) (a : atm).
Fixpoint select_loop (fuel fs n : nat) (it : xiter) (s : @xsc R) (sl : sel) (put : list N) : out (@xsc R * sel * list N) ended :=
  match n with
  | O => Fuel
  | S n' =>
      if x_eq it x_end then Ret (s, sl, put) EndOfLoop
      else match ie_error (xi_elem it) with
           | PNull =>
               match x_elem it s, x_name it with
               | Some elem, Some name =>
                   let! (st, r) := omap (fun sl' => (s, sl', put)) (sel_element_post fs fs a (ie_type (xi_elem it)) (Some elem) sl) in
                   let sl := snd (fst st) in
                   let put := put ++ flat_map (fun z => show_int z ++ str ": " ++ name ++ elem ++ endl) r in
                   let! (st, its) := omap (fun s' => (s', sl, put)) (x_postinc rops cfg fuel it s) in
                   select_loop fuel fs n' (snd its) (fst (fst st)) sl put
               | _, _ => Undef
               end
           | _ => match x_message it s with Some m => Ret (s, sl, put) (Thrown m) | None => Undef end
           end
  end.
End SelectExample.
(** lines 8-38. Undefined if the automaton or the selector is. *)
Definition select_example (fuel fs n : nat) (text : list N) : out (@xsc (tscan cstr) * sel * list N) ended :=
  match add_paths UTF8 address_paths [] with
  | Ret a _ =>
      match sel_new a with
      | Ret sl _ =>
          let! (st, it) := omap (fun s' => (s', sl, [])) (x_begin (ts_ops cstr_ops UTF8) utf8_config fuel true (sc_make (ts_make (cstr_make text)), 0%nat)) in
          select_loop (ts_ops cstr_ops UTF8) utf8_config a fuel fs n it (fst (fst st)) sl []
      | _ => Undef
      end
  | _ => Undef
  end.
