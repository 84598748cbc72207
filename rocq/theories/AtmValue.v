(** What automata are expected to be for their user: values without memory in common (specification). *)
From Verif Require Import Base XmlScanner PathAtm AtmMemory.

(** A state with the name its key was made from *)
Notation vstate := (pstate * option (list N))%type.
Notation vatm := (list vstate).
Definition v_new : vstate := (st_new, None).
Definition v_upd (i : nat) (f : vstate -> vstate) (a : vatm) : vatm := match nth_error a i with Some s => upd i (f s) a | None => a end.
Definition v_alt (i : nat) (a : vatm) : out unit (nat * vatm) :=
  match nth_error a i with
  | None => Undef
  | Some s =>
      if st_isempty (fst s) then Ret tt (i, a)
      else match atm_last (S (length a)) i (map fst a) with
           | Ret _ j => Ret tt (length a, v_upd j (fun s => (st_setLink (length a) (fst s), snd s)) a ++ [v_new])
           | Fuel => Fuel
           | _ => Undef
           end
  end.
Definition v_defineNext (i : nat) (op : pop) (key src : option (list N)) (follow : bool) (a : vatm) : out unit (nat * vatm) :=
  let (i, a) := match a with [] => (O, [v_new]) | _ => (i, a) end in
  match atm_find (S (length a)) op key follow (Some i) (map fst a) with
  | Ret _ (Some (Some n)) => Ret tt (n, a)
  | Ret _ None =>
      match atm_last (S (length a)) i (map fst a) with
      | Ret _ i =>
          let! (_, ja) := v_alt i a in
          let a := snd ja ++ [v_new] in
          let n := (length a - 1)%nat in
          Ret tt (n, v_upd (fst ja) (fun s => (st_defineNext op key n follow (fst s), src)) a)
      | Fuel => Fuel
      | _ => Undef
      end
  | Fuel => Fuel
  | _ => Undef
  end.
Definition v_defineOutput (i : nat) (m : mask) (t : Z) (follow : bool) (b e : Z) (a : vatm) : out unit (option nat * vatm) :=
  let (i, a) := match a with [] => (O, [v_new]) | _ => (i, a) end in
  if Nat.leb (length a) i then Ret tt (None, a)
  else let! (_, ja) := v_alt i a in Ret tt (Some (fst ja), v_upd (fst ja) (fun s => (st_defineOutput m t follow b e (fst s), snd s)) (snd ja)).

(** Copies and assigned automata are of their own. *)
Definition v_get (V : list (option vatm)) (k : nat) : option vatm := match nth_error V k with Some v => v | None => None end.
Definition v_call (c : acall) (V : list (option vatm)) : out (list (option vatm)) aanswer :=
  match c with
  | ANew => Ret (V ++ [Some []]) ANothing
  | ACopy k => match v_get V k with Some a => Ret (V ++ [Some a]) ANothing | None => Undef end
  | AAssign k j => match v_get V k, v_get V j with Some _, Some a => Ret (upd k (Some a) V) ANothing | _, _ => Undef end
  | ADestroy k => match v_get V k with Some _ => Ret (upd k None V) ANothing | None => Undef end
  | ANext k i op name follow =>
      match v_get V k with
      | Some a => match v_defineNext i op (option_map fst name) (option_map snd name) follow a with Ret _ r => Ret (upd k (Some (snd r)) V) (AState (fst r)) | Fuel => Fuel | _ => Undef end
      | None => Undef
      end
  | AOutput k i m t follow b e =>
      match v_get V k with
      | Some a => match v_defineOutput i m t follow b e a with Ret _ r => Ret (upd k (Some (snd r)) V) (match fst r with Some n => AState n | None => AException end) | Fuel => Fuel | _ => Undef end
      | None => Undef
      end
  end.
Fixpoint v_calls (cs : list acall) (V : list (option vatm)) : out (list (option vatm)) (list aanswer) :=
  match cs with
  | [] => Ret V []
  | c :: cs => let! (V, a) := v_call c V in let! (V, l) := v_calls cs V in Ret V (a :: l)
  end.

(** Blocks a value needs: the key and the name of each state *)
Definition has_block {A} (o : option A) : nat := match o with Some _ => 1 | None => 0 end.
Definition needs (a : vatm) : nat := list_sum (map (fun s : vstate => has_block (st_key (fst s)) + has_block (snd s))%nat a).
Definition all_need (V : list (option vatm)) : nat := list_sum (map (fun v => match v with Some a => needs a | None => 0%nat end) V).
Definition in_use (H : blocks) : nat := length (filter (fun b => match b with Some _ => true | None => false end) H).
(** names are null terminated strings *)
Definition names_ok (c : acall) : Prop := match c with ANext _ _ _ (Some (_, src)) _ => Forall (fun b => b <> 0) src | _ => True end.

(** A history in which no automaton that has states is assigned another one that has states *)
Definition plain_call (c : acall) (V : list (option vatm)) : Prop :=
  match c with AAssign k j => k = j \/ v_get V k = Some [] \/ v_get V j = Some [] | _ => True end.
Fixpoint plain (cs : list acall) (V : list (option vatm)) : Prop :=
  match cs with
  | [] => True
  | c :: cs => plain_call c V /\ names_ok c /\ match v_call c V with Ret V _ => plain cs V | _ => True end
  end.
