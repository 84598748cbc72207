(** What calls on several automata do when some do not get their memory, without memory (specification for C96): copies are of their own. *)
From Verif Require Import Base XmlScanner PathAtm AtmFail AtmFailMem AtmFailMemSpec AtmFailCopy.

Definition q_call (c : ncall) (m : option place) (V : list (option atm)) : out (list (option atm)) nanswer :=
  match c with
  | NNew => Ret (V ++ [Some []]) NDone
  | NOn k c => match n_get k V with
               | Some a => match p_call c m a with Ret a r => Ret (upd k (Some a) V) (NAns r) | Fuel => Fuel | _ => Undef end
               | None => Undef
               end
  | NCopy k => match n_get k V with
               | Some a => match m with None => Ret (V ++ [Some a]) NDone | Some _ => Ret (V ++ [None]) NThrew end
               | None => Undef
               end
  | NDestroy k => match n_get k V with Some _ => Ret (upd k None V) NDone | None => Undef end
  end.
Fixpoint q_calls (cs : list ncall) (ms : list (option place)) (V : list (option atm)) : out (list (option atm)) (list nanswer) :=
  match cs with
  | [] => Ret V []
  | c :: cs => let! (V, r) := q_call c (hd None ms) V in let! (V, rs) := q_calls cs (tl ms) V in Ret V (r :: rs)
  end.
(** the blocks that may be lost in a call *)
Definition lossy_in (c : ncall) (m : option place) : nat := match c with NOn _ _ => lossy m | _ => one m end.
Fixpoint lost_in (cs : list ncall) (ms : list (option place)) : nat :=
  match cs, ms with c :: cs, m :: ms => (lossy_in c m + lost_in cs ms)%nat | _, _ => 0%nat end.
Definition plain_names (c : ncall) : Prop := match c with NOn _ c => plain_name c | _ => True end.
Definition threw (r : nanswer) : Prop := r = NThrew \/ r = NAns None.
