(** Automata that are copied and assigned when allocations fail: xmlpathautomaton.hpp (model). The copy constructor, the assignment operator and the destructor of XMLPathSelectAutomaton
    are those the compiler generates, with std::vector<State> (line 349); as in AtmMemory.v, with an answer for each allocation as in AtmFailMem.v. *)
From Verif Require Import Base XmlScanner PathAtm AtmMemory AtmFailMem.

(** copy constructor of the vector: without elements nothing is allocated; [None]: std::bad_alloc, the elements copied before are destroyed *)
Definition fm_vcopy (v : avec) (s : fm) : out fm (option avec) :=
  match av_states v with
  | [] => Ret s (Some av_new)
  | l => let (s, b) := fm_alloc s in
         if b then let! (s, r) := fm_copy_all l [] s in Ret s (option_map (fun l => mkAv l (length l)) r) else Ret s None
  end.
(** Assignment of another vector. Without place the elements are copied to new memory and the old ones destroyed then; otherwise the elements both have are assigned first, member by member,
    and the others are copied or destroyed. The vector left, and false for std::bad_alloc. *)
Definition fm_vassign (v w : avec) (s : fm) : out fm (avec * bool) :=
  let n := length (av_states v) in
  let m := length (av_states w) in
  if Nat.ltb (av_cap v) m
  then let (s, b) := fm_alloc s in
       if b then let! (s, r) := fm_copy_all (av_states w) [] s in
                 match r with
                 | None => Ret s (v, false)
                 | Some l => let! (s, _) := fm_lift (destroy_all (av_states v)) s in Ret s (mkAv l m, true)
                 end
       else Ret s (v, false)
  else if Nat.leb m n
       then let! (s, _) := fm_lift (destroy_all (skipn m (av_states v))) s in Ret s (mkAv (av_states w) (av_cap v), true)
       else let! (s, r) := fm_copy_all (skipn n (av_states w)) [] s in
            match r with
            | None => Ret s (mkAv (firstn n (av_states w)) (av_cap v), false)
            | Some l => Ret s (mkAv (firstn n (av_states w) ++ l) (av_cap v), true)
            end.

(** ** Calls on several automata; exceptions are caught after each call. An automaton whose copy constructor throws does not exist. *)
Inductive ncall :=
| NNew                             (* XMLPathSelectAutomaton() *)
| NOn (k : nat) (c : mcall)        (* a path element call on automaton k *)
| NCopy (k : nat)                  (* copy constructor, on automaton k *)
| NDestroy (k : nat).
Inductive nanswer := NDone | NThrew | NAns (r : option (option nat)).
Definition n_get {A} (k : nat) (g : list (option A)) : option A := match nth_error g k with Some o => o | None => None end.
Definition nheap := (list (option avec) * fm)%type.
Definition n_with {A} (x : out fm A) (f : A -> list (option avec) * nanswer) : out nheap nanswer :=
  match x with Ret s a => Ret (fst (f a), s) (snd (f a)) | Fuel => Fuel | _ => Undef end.
Definition n_call (grow : nat -> nat) (c : ncall) (h : nheap) : out nheap nanswer :=
  let (g, s) := h in
  match c with
  | NNew => Ret (g ++ [Some av_new], s) NDone
  | NOn k c => match n_get k g with
               | Some v => n_with (m_call grow c v s) (fun r => (upd k (Some (fst r)) g, NAns (snd r)))
               | None => Undef
               end
  | NCopy k => match n_get k g with
               | Some v => n_with (fm_vcopy v s) (fun r => (g ++ [r], match r with Some _ => NDone | None => NThrew end))
               | None => Undef
               end
  | NDestroy k => match n_get k g with
                  | Some v => n_with (fm_lift (destroy_all (av_states v)) s) (fun _ => (upd k None g, NDone))
                  | None => Undef
                  end
  end.
Fixpoint n_calls (grow : nat -> nat) (cs : list ncall) (h : nheap) : out nheap (list nanswer) :=
  match cs with
  | [] => Ret h []
  | c :: cs => let! (h, r) := n_call grow c h in let! (h, rs) := n_calls grow cs h in Ret h (r :: rs)
  end.
(** automaton k = automaton j *)
Definition n_assign (k j : nat) (h : nheap) : out nheap nanswer :=
  let (g, s) := h in
  match n_get k g, n_get j g with
  | Some v, Some w => if Nat.eqb k j then Ret h NDone else n_with (fm_vassign v w s) (fun r => (upd k (Some (fst r)) g, if snd r then NDone else NThrew))
  | _, _ => Undef
  end.
