(** XMLPathSelect when an allocation of its stacks fails: xmlpathselect.hpp (model).
    The stacks are vectors (DefaultStackType, lines 20-36); [push_back] may throw std::bad_alloc and then leaves the vector as it was. Which of the calls of push_back throw
    is given by a list: each call takes the first element, [true] is success; when the list is used up all calls succeed. A call that does not allocate is one that succeeds.
    An exception is [Throw] with the state in which the object is left; the functions of the selector have no handlers, so what was done before remains done. *)
From Verif Require Import Base XmlScanner PathAtm PathSelect PathExtra PathInspect.

Definition fsel := (sel * list bool)%type.
Definition alloc (o : list bool) : bool * list bool := match o with [] => (true, []) | b :: o => (b, o) end.

(** the loop body of expand, lines 92-110: the masks are joined before the elements are pushed, the index of the token is pushed before the token *)
Definition fx_expand1 (i : nat) (st : pstate) (x : fsel) : out fsel unit :=
  let (s, o) := x in
  let c := st_core st in
  let sc := s_scope s in
  let mk := m_join (sc_mask sc) (c_mask c) in
  if m_empty (c_mask c) && negb (c_type c =? 0)%Z
  then let scj := mkScope mk (sc_fmask sc) (sc_from sc) (sc_to sc) (sc_fidx sc) in
       let (ok, o) := alloc o in
       if ok then Ret (mkSel (s_stk s) (s_follows s) (c_type c :: s_trig s) (s_toks s) (s_type s) (s_key s) scj (s_iter s), o) tt
       else Throw (mkSel (s_stk s) (s_follows s) (s_trig s) (s_toks s) (s_type s) (s_key s) scj (s_iter s), o)
  else let scj := mkScope mk (if c_follow c then m_join (sc_fmask sc) (c_mask c) else sc_fmask sc) (sc_from sc) (sc_to sc) (sc_fidx sc) in
       let! (x, _) :=
         if c_follow c
         then let (ok, o) := alloc o in
              if ok then Ret (mkSel (s_stk s) (s_follows s ++ [length (s_toks s)]) (s_trig s) (s_toks s) (s_type s) (s_key s) scj (s_iter s), o) tt
              else Throw (mkSel (s_stk s) (s_follows s) (s_trig s) (s_toks s) (s_type s) (s_key s) scj (s_iter s), o)
         else Ret (mkSel (s_stk s) (s_follows s) (s_trig s) (s_toks s) (s_type s) (s_key s) scj (s_iter s), o) tt in
       let (s, o) := x in
       let (ok, o) := alloc o in
       if ok then Ret (sel_set_toks (s_toks s ++ [mkTok c i]) s, o) tt else Throw (s, o).
(** expand, lines 90-111 *)
Fixpoint fx_expand (fuel : nat) (a : atm) (i : option nat) (x : fsel) : out fsel unit :=
  match fuel with
  | O => Fuel
  | S f =>
      match i with
      | None => Ret x tt
      | Some i => match nth_error a i with
                  | None => Undef
                  | Some st => let! (x, _) := fx_expand1 i st x in fx_expand f a (st_link st) x
                  end
      end
  end.
(** initProcessElement, lines 117-136: when the scope cannot be pushed (line 131) the ranges, the type, the key and the position are those of the new element *)
Definition fx_init (e : etype) (key : option (list N)) (x : fsel) : out fsel unit :=
  let (s, o) := x in
  match e with
  | EOpenTag =>
      let (ok, o) := alloc o in
      if ok then Ret (sel_init e key s, o) tt
      else let sc := s_scope s in
           let from := match s_type s with EOpenTag => sc_to sc | _ => sc_from sc end in
           Throw (mkSel (s_stk s) (s_follows s) (s_trig s) (s_toks s) e key (mkScope (sc_mask sc) (sc_fmask sc) from (length (s_toks s)) (length (s_follows s))) from, o)
  | _ => Ret (sel_init e key s, o) tt
  end.
(** produce, lines 155-180: the counters are changed before the states are expanded *)
Definition fx_produce (a : atm) (i : nat) (st : pstate) (x : fsel) : out fsel unit :=
  let (s, o) := x in
  match nth_error (s_toks s) i with
  | None => Undef
  | Some tk =>
      let (c, go) := count_down (t_core tk) in
      let s := sel_set_tok i c s in
      if go then fx_expand (S (length a)) a (st_next st) (s, o) else Ret (s, o) tt
  end.
(** match, lines 185-243 *)
Definition fx_match (a : atm) (i : nat) (x : fsel) : out fsel Z :=
  let (s, o) := x in
  match s_key s with
  | None => Ret (s, o) 0%Z
  | Some key =>
      if Nat.leb (sc_to (s_scope s)) i then Ret (s, o) 0%Z
      else
        match nth_error (s_toks s) i with
        | None => Undef
        | Some tk =>
            let! (x, rt) :=
              if m_matches (c_mask (t_core tk)) (s_type s)
              then match nth_error a (t_state tk) with
                   | None => Undef
                   | Some st =>
                       let! (x, _) := if match st_key st with Some k => key_eqb k key | None => true end
                                      then fx_produce a i st (s, o) else Ret (s, o) tt in
                       let (s, o) := x in
                       match nth_error (s_toks s) i with
                       | None => Undef
                       | Some tk =>
                           if (c_type (t_core tk) =? 0)%Z then Ret (s, o) 0%Z
                           else let (c, go) := count_down (t_core tk) in
                                Ret (sel_set_tok i c s, o) (if go then c_type (t_core tk) else 0%Z)
                       end
                   end
              else Ret (s, o) 0%Z in
            let (s, o) := x in
            match nth_error (s_toks s) i with
            | None => Undef
            | Some tk =>
                let c := t_core tk in
                Ret (if m_rejects (c_mask c) (s_type s)
                     then sel_set_tok i (mkCore m_zero (c_follow c) (c_type c) (c_start c) (c_end c)) s else s, o) rt
            end
        end
  end.
(** fetch, lines 248-290: when match throws the position has not been moved (lines 258-259 and 267-268) *)
Fixpoint fx_fetch_loop (fuel : nat) (a : atm) (x : fsel) : out fsel Z :=
  match fuel with
  | O => Fuel
  | S f =>
      let (s, o) := x in
      let sc := s_scope s in
      let again := fun (s : sel) (o : list bool) (t : Z) => if (t =? 0)%Z then fx_fetch_loop f a (s, o) else Ret (s, o) t in
      if Nat.ltb (s_iter s) (sc_to sc)
      then let! (x, t) := fx_match a (s_iter s) (s, o) in again (sel_set_iter (S (s_iter (fst x))) (fst x)) (snd x) t
      else
        let ii := (s_iter s - sc_to sc)%nat in
        let triggered := match s_trig s with
                         | t :: l => again (sel_set_trig l s) o t
                         | [] => Ret (sel_no_key s, o) 0%Z
                         end in
        if Nat.ltb ii (sc_fidx sc)
        then match nth_error (s_follows s) ii with
             | None => Undef
             | Some j => if Nat.ltb j (sc_from sc)
                         then let! (x, t) := fx_match a j (s, o) in again (sel_set_iter (S (s_iter (fst x))) (fst x)) (snd x) t
                         else triggered
             end
        else triggered
  end.
Definition fx_fetch (fuel : nat) (a : atm) (x : fsel) : out fsel Z :=
  if m_matches (sc_mask (s_scope (fst x))) (s_type (fst x)) then fx_fetch_loop fuel a x else Ret (sel_no_key (fst x), snd x) 0%Z.
(** constructor, lines 327-331; when it throws there is no selector *)
Definition fx_new (a : atm) (o : list bool) : out fsel unit :=
  let s := mkSel [] [] [] [] EContent None scope_new 0 in
  match a with [] => Ret (s, o) tt | _ => fx_expand (S (length a)) a (Some O) (s, o) end.
(** A call on the selector. closeProcessElement only makes the stacks smaller (lines 138-150). The copy constructor, lines 333-336, copies the stacks one after the other, here with
    one allocation each; when it throws the calls are continued on the original. getTokenTypeMatchingStates, lines 300-322, changes only the buffer of the caller; that pushing to the
    buffer may fail is not modelled. *)
Definition fx_copy (x : fsel) : out fsel unit :=
  let (s, o) := x in
  let (ok1, o) := alloc o in
  if ok1 then let (ok2, o) := alloc o in
    if ok2 then let (ok3, o) := alloc o in
      if ok3 then let (ok4, o) := alloc o in if ok4 then Ret (sel_copy s, o) tt else Throw (s, o)
      else Throw (s, o)
    else Throw (s, o)
  else Throw (s, o).
Definition fx_op (fuel : nat) (a : atm) (op : selop) (x : fsel) : out fsel (list Z) :=
  match op with
  | PInit e key => let! (x, _) := fx_init e key x in Ret x []
  | PFetch => let! (x, t) := fx_fetch fuel a x in Ret x [t]
  | PClose => omap (fun s => (s, snd x)) (let! (s, _) := sel_close (fst x) in Ret s [])
  | PCopy => let! (x, _) := fx_copy x in Ret x []
  | PStates e b => omap (fun s => (s, snd x)) (let! (s, l) := sel_states e b (fst x) in Ret s (map Z.of_nat l))
  end.
(** The calls one after the other, also after one that has thrown: the results of each, [None] is a call that has thrown. *)
Fixpoint fx_ops (fuel : nat) (a : atm) (os : list selop) (x : fsel) : out fsel (list (option (list Z))) :=
  match os with
  | [] => Ret x []
  | op :: os =>
      match fx_op fuel a op x with
      | Ret x r => let! (x, rs) := fx_ops fuel a os x in Ret x (Some r :: rs)
      | Throw x => let! (x, rs) := fx_ops fuel a os x in Ret x (None :: rs)
      | Jump x => Jump x
      | Undef => Undef
      | Fuel => Fuel
      end
  end.
