(** Paths defined while a selector is in use: the calls of a path that reach the automaton (specification for C93). *)
From Verif Require Import Base Charset XmlScanner PathAtm PathSelect PathSpec PathProg.

(** A step with what it waits for, whether it looks in all descendants and its name, or an output *)
Inductive lab := LStep (op : pop) (deep : bool) (n : option (list N)) | LOut.
Fixpoint steps_of (deep : bool) (os : list pathop) : list lab :=
  match os with
  | [] => []
  | BTag n :: os => LStep OpOpenTag deep n :: steps_of false os
  | BClose :: os => LStep OpCloseTag deep None :: steps_of false os
  | BAttr n :: os => LStep OpAttribute deep n :: steps_of false os
  | BCond n v :: os => LStep OpAttribute deep n :: LStep OpThisValue false v :: steps_of false os
  | BOut _ :: os => LOut :: steps_of deep os
  | BFollow :: os => steps_of true os
  | _ :: os => steps_of deep os
  end.
(** the first step of a path *)
Fixpoint head_of (ls : list lab) : option lab := match ls with [] => None | LOut :: ls => head_of ls | l :: _ => Some l end.
Definition first_step (os : list pathop) : option lab := head_of (steps_of false os).
(** the path begins with this step: it has no output before *)
Definition begins (os : list pathop) (l : lab) : Prop := exists ls, steps_of false os = l :: ls.
(** one of the paths has this first step *)
Definition heads (ps : list (list pathop)) (l : lab) : Prop := exists os, In os ps /\ first_step os = Some l.

(** A history: paths are defined and elements are given to the selector *)
Inductive gcall := GPath (os : list pathop) | GElement (e : etype) (key : list N).
(** automaton and selector after the calls, and what has been reported for the elements *)
Fixpoint g_run (fuel ff : nat) (cs : charset) (l : list gcall) (a : atm) (s : sel) : out (atm * sel) (list (list Z)) :=
  match l with
  | [] => Ret (a, s) []
  | GPath os :: l => match add_paths cs [os] a with Ret a _ => g_run fuel ff cs l a s | Throw _ => Throw (a, s) | Jump _ => Jump (a, s) | Undef => Undef | Fuel => Fuel end
  | GElement e k :: l =>
      match sel_element fuel ff a e (Some k) s with
      | Ret s r => let! (x, rs) := g_run fuel ff cs l a s in Ret x (r :: rs)
      | Throw s => Throw (a, s) | Jump s => Jump (a, s) | Undef => Undef | Fuel => Fuel
      end
  end.
(** the paths defined, and the elements *)
Definition g_paths (l : list gcall) : list (list pathop) := flat_map (fun c => match c with GPath os => [os] | _ => [] end) l.
Definition g_elements (l : list gcall) : list (etype * list N) := flat_map (fun c => match c with GElement e k => [(e, k)] | _ => [] end) l.
