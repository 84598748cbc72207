(** The test program tests/test_XMLPathSelect.cpp (model). *)
From Verif Require Import Base Iter CharMap Charset TextScanner XmlScanner ScanSpec XmlIter Names PathAtm PathSelect PathProg AtmMemory AtmValue AtmPrint Examples TestProgs.

(** ** Paths with the names kept for printing: PathElement::doSelect, xmlpathautomaton.hpp:582-606, push, lines 656-660, and the methods as in PathProg.v. *)
Definition v_doSelect (cs : charset) (op : pop) (value : option (list N)) (p : pelem) (a : vatm) : out vatm pelem :=
  let! (a, key) := match value with
                   | None => Ret a None
                   | Some v => match static_key cs v with Ret _ k => Ret a (Some k) | Throw _ => Throw a | Jump _ => Jump a | Undef => Undef | Fuel => Fuel end
                   end in
  match v_defineNext (pe_idx p) op key value (pe_follow p) a with Ret _ (i, a) => Ret a (pe_selected i p) | Fuel => Fuel | _ => Undef end.
Definition v_push (t : Z) (p : pelem) (a : vatm) : out vatm pelem :=
  match v_defineOutput (pe_idx p) (pe_print p) t (pe_follow p) (pe_start p) (pe_end p) a with
  | Ret _ (Some i, a) => Ret a (mkPe i (pe_start p) (pe_end p) (pe_follow p) (pe_print p))
  | Ret _ (None, a) => Throw a
  | Fuel => Fuel
  | _ => Undef
  end.
Definition v_opt (o : option pelem) (a : vatm) : out vatm pelem := match o with Some p => Ret a p | None => Undef end.
Definition v_op (cs : charset) (o : pathop) (p : pelem) (a : vatm) : out vatm pelem :=
  match o with
  | BTag n => v_doSelect cs OpOpenTag n p a
  | BClose => v_doSelect cs OpCloseTag None p a
  | BAttr n => let! (a, p) := v_doSelect cs OpAttribute n p a in Ret a (pe_output OpThisValue p)
  | BCond n v => let! (a, p) := v_doSelect cs OpAttribute n p a in v_doSelect cs OpThisValue v p a
  | BContent => Ret a (pe_selectContent p)
  | BFollow => Ret a (pe_doFollow p)
  | BTo i => v_opt (pe_TO i p) a
  | BFrom i => v_opt (pe_FROM i p) a
  | BRange i j => v_opt (pe_RANGE i j p) a
  | BIndex i => v_opt (pe_INDEX i p) a
  | BOut t => v_push t p a
  end.
Fixpoint v_ops (cs : charset) (os : list pathop) (p : pelem) (a : vatm) : out vatm pelem :=
  match os with
  | [] => Ret a p
  | o :: os => let! (a, p) := v_op cs o p a in v_ops cs os p a
  end.
Fixpoint v_paths (cs : charset) (ps : list (list pathop)) (a : vatm) : out vatm unit :=
  match ps with
  | [] => Ret a tt
  | os :: ps => let! (a, _) := v_ops cs os pe_root a in v_paths cs ps a
  end.
(** lines 58-70 *)
Definition test_paths : list (list pathop) :=
  [[BTag (Some (str "TT")); BAttr (Some (str "c")); BOut 6];
   [BTag (Some (str "TT")); BAttr (Some (str "c")); BContent; BOut 7];
   [BTag (Some (str "TT")); BCond (Some (str "i")) (Some (str "56")); BContent; BOut 8];
   [BTag (Some (str "TT")); BCond (Some (str "i")) (Some (str "9")); BFollow; BContent; BOut 9];
   [BTag (Some (str "TT")); BTag (Some (str "AA")); BTag (Some (str "BB")); BOut 10];
   [BTag (Some (str "TT")); BTag (Some (str "AA")); BOut 11];
   [BTag (Some (str "AA")); BContent; BOut 12];
   [BTag (Some (str "BB")); BOut 13];
   [BFollow; BTag (Some (str "CC")); BContent; BOut 14];
   [BTag (Some (str "X")); BFollow; BTag (Some (str "CC")); BOut 15];
   [BTag (Some (str "Y")); BFollow; BAttr (Some (str "u")); BOut 16];
   [BTag (Some (str "Y")); BFollow; BCond (Some (str "q")) (Some (str "1")); BContent; BOut 17];
   [BTag (Some (str "Y")); BFollow; BCond None (Some (str "2")); BContent; BOut 18]].

(** what is written to std::cerr and returned *)
Inductive verdict := SaysOk | SaysFailed.
Section Loop.
Context {R : Type} (rops : readerops R) (cfg : config) (a : atm).
(** lines 82-104. content() is written up to its first null character. *)
Fixpoint try_loop (fuel fs n : nat) (it : xiter) (s : @xsc R) (sl : sel) (put : list N) : out (@xsc R * sel * list N) verdict :=
  match n with
  | O => Fuel
  | S n' =>
      if x_eq it x_end
      then Ret (s, sl, put) (match ie_type (xi_elem it) with EErrorOccurred => SaysFailed | _ => SaysOk end)
      else match c_string s (ie_content (xi_elem it)), x_elem it s, x_name it with
           | Some text, Some elem, Some name =>
               let put := put ++ str "Try " ++ name ++ str " '" ++ text ++ str "'" ++ endl in
               let! (st, r) := omap (fun sl' => (s, sl', put)) (sel_element_post fs fs a (ie_type (xi_elem it)) (Some elem) sl) in
               let sl := snd (fst st) in
               let put := put ++ flat_map (fun z => str "Element " ++ show_int z ++ str ": " ++ text ++ endl) r in
               let! (st, its) := omap (fun s' => (s', sl, put)) (x_postinc rops cfg fuel it s) in
               try_loop fuel fs n' (snd its) (fst (fst st)) sl put
           | _, _, _ => Undef
           end
  end.
End Loop.
(** main, lines 35-105, with any text instead of that of lines 40-53 and any paths; [text] has no null character *)
Definition select_test (adr : nat -> list N) (paths : list (list pathop)) (fuel fs n : nat) (text : list N) : out (@xsc (tscan Iter.cptr) * sel * list N) verdict :=
  match v_paths UTF8 paths [] with
  | Ret v _ =>
      let a := map fst v in
      match sel_new a with
      | Ret sl _ =>
          let put := str "AUTOMATON:" ++ endl ++ atm_print adr v ++ endl in
          let! (st, it) := omap (fun s' => (s', sl, put)) (x_begin (ts_ops cptr_ops (IsoLatin 1)) latin_config fuel true (sc_make (ts_make (mkCptr (text ++ [0]) 0)), 0%nat)) in
          try_loop (ts_ops cptr_ops (IsoLatin 1)) latin_config a fuel fs n it (fst (fst st)) sl put
      | _ => Undef
      end
  | _ => Undef
  end.
