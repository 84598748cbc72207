(** The copy constructor of XMLPathSelect (model). *)
From Verif Require Import Base XmlScanner PathAtm PathSelect.

(** Copy constructor, xmlpathselect.hpp:335-336: the member context is not in the list of initialisers and gets its default value, line 66.
    scope_iter is not initialised there; it is set (line 79) before it is read. *)
Definition sel_copy (s : sel) : sel := mkSel (s_stk s) (s_follows s) (s_trig s) (s_toks s) EContent None scope_new 0.
