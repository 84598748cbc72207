(** XMLPathSelect: xmlpathselect.hpp (model). *)
From Verif Require Import Base XmlScanner PathAtm.

(** Token, xmlpathautomaton.hpp:385-398 *)
Record tok := mkTok { t_core : core; t_state : nat }.
(** Scope with Range, xmlpathautomaton.hpp:402-430. The indices (unsigned int) are not bounded in the model. *)
Record scope := mkScope { sc_mask : mask; sc_fmask : mask; sc_from : nat; sc_to : nat; sc_fidx : nat }.
Definition scope_new : scope := mkScope m_zero m_zero 0 0 0.
(** The members of XMLPathSelect, lines 83-87, with Context, lines 57-81. The stacks scopestk and triggers have their last element as head
    of the list. [s_key]: key and keysize, [None] is the null pointer. *)
Record sel := mkSel { s_stk : list scope; s_follows : list nat; s_trig : list Z; s_toks : list tok;
                      s_type : etype; s_key : option (list N); s_scope : scope; s_iter : nat }.
Definition sel_set_toks (t : list tok) (s : sel) : sel :=
  mkSel (s_stk s) (s_follows s) (s_trig s) t (s_type s) (s_key s) (s_scope s) (s_iter s).
Definition sel_set_iter (i : nat) (s : sel) : sel :=
  mkSel (s_stk s) (s_follows s) (s_trig s) (s_toks s) (s_type s) (s_key s) (s_scope s) i.
Definition sel_set_trig (t : list Z) (s : sel) : sel :=
  mkSel (s_stk s) (s_follows s) t (s_toks s) (s_type s) (s_key s) (s_scope s) (s_iter s).
Definition sel_no_key (s : sel) : sel :=
  mkSel (s_stk s) (s_follows s) (s_trig s) (s_toks s) (s_type s) None (s_scope s) (s_iter s).
Definition sel_set_tok (i : nat) (c : core) (s : sel) : sel :=
  match nth_error (s_toks s) i with
  | Some t => sel_set_toks (upd i (mkTok c (t_state t)) (s_toks s)) s
  | None => s
  end.

(** the loop body of expand, lines 92-110 *)
Definition expand1 (i : nat) (st : pstate) (s : sel) : sel :=
  let c := st_core st in
  let sc := s_scope s in
  let mk := m_join (sc_mask sc) (c_mask c) in
  if m_empty (c_mask c) && negb (c_type c =? 0)%Z
  then mkSel (s_stk s) (s_follows s) (c_type c :: s_trig s) (s_toks s) (s_type s) (s_key s)
             (mkScope mk (sc_fmask sc) (sc_from sc) (sc_to sc) (sc_fidx sc)) (s_iter s)
  else mkSel (s_stk s) (if c_follow c then s_follows s ++ [length (s_toks s)] else s_follows s) (s_trig s) (s_toks s ++ [mkTok c i])
             (s_type s) (s_key s)
             (mkScope mk (if c_follow c then m_join (sc_fmask sc) (c_mask c) else sc_fmask sc) (sc_from sc) (sc_to sc) (sc_fidx sc)) (s_iter s).
(** expand, lines 90-111; [Fuel]: endless loop *)
Fixpoint expand (fuel : nat) (a : atm) (i : option nat) (s : sel) : out sel unit :=
  match fuel with
  | O => Fuel
  | S f =>
      match i with
      | None => Ret s tt
      | Some i => match nth_error a i with
                  | None => Undef
                  | Some st => expand f a (st_link st) (expand1 i st s)
                  end
      end
  end.
Definition sel_expand (a : atm) (i : option nat) (s : sel) : out sel unit := expand (S (length a)) a i s.

(** initProcessElement, lines 117-136 *)
Definition sel_init (e : etype) (key : option (list N)) (s : sel) : sel :=
  let sc := s_scope s in
  let from := match s_type s with EOpenTag => sc_to sc | _ => sc_from sc end in
  let sc1 := mkScope (sc_mask sc) (sc_fmask sc) from (length (s_toks s)) (length (s_follows s)) in
  match e with
  | EOpenTag => mkSel (sc1 :: s_stk s) (s_follows s) (s_trig s) (s_toks s) e key
                      (mkScope (m_match EOpenTag (sc_fmask sc)) (sc_fmask sc) (sc_from sc1) (sc_to sc1) (sc_fidx sc1)) from
  | _ => mkSel (s_stk s) (s_follows s) (s_trig s) (s_toks s) e key sc1 from
  end.

(** closeProcessElement, lines 138-150. A resize to a larger size than the actual one is [Undef]. *)
Definition sel_close (s : sel) : out sel unit :=
  match s_type s with
  | ECloseTag | ECloseTagIm =>
      match s_stk s with
      | [] => Ret s tt
      | sc :: stk =>
          if Nat.leb (sc_fidx sc) (length (s_follows s)) && Nat.leb (sc_to sc) (length (s_toks s))
          then Ret (mkSel stk (firstn (sc_fidx sc) (s_follows s)) (s_trig s) (firstn (sc_to sc) (s_toks s)) (s_type s) (s_key s) sc (s_iter s)) tt
          else Undef
      end
  | _ => Ret s tt
  end.

(** the counters of a token, lines 164-178 and 219-234: the changed token and whether the element is in the range *)
Definition count_down (c : core) : core * bool :=
  if (c_end c =? -1)%Z then (c, true)
  else if (0 <? c_end c)%Z
  then let e := (c_end c - 1)%Z in
       let m := if (e =? 0)%Z then m_zero else c_mask c in
       if (c_start c <=? 0)%Z then (mkCore m (c_follow c) (c_type c) (c_start c) e, true)
       else (mkCore m (c_follow c) (c_type c) (c_start c - 1) e, false)
  else (c, false).

(** produce, lines 155-180 *)
Definition sel_produce (a : atm) (i : nat) (st : pstate) (s : sel) : out sel unit :=
  match nth_error (s_toks s) i with
  | None => Undef
  | Some tk =>
      let (c, go) := count_down (t_core tk) in
      let s := sel_set_tok i c s in
      if go then sel_expand a (st_next st) s else Ret s tt
  end.

(** match, lines 185-243 *)
Definition sel_match (a : atm) (i : nat) (s : sel) : out sel Z :=
  match s_key s with
  | None => Ret s 0%Z
  | Some key =>
      if Nat.leb (sc_to (s_scope s)) i then Ret s 0%Z
      else
        match nth_error (s_toks s) i with
        | None => Undef
        | Some tk =>
            let! (s, rt) :=
              if m_matches (c_mask (t_core tk)) (s_type s)
              then match nth_error a (t_state tk) with
                   | None => Undef
                   | Some st =>
                       let! (s, _) := if match st_key st with Some k => key_eqb k key | None => true end
                                      then sel_produce a i st s else Ret s tt in
                       match nth_error (s_toks s) i with
                       | None => Undef
                       | Some tk =>
                           if (c_type (t_core tk) =? 0)%Z then Ret s 0%Z
                           else let (c, go) := count_down (t_core tk) in
                                Ret (sel_set_tok i c s) (if go then c_type (t_core tk) else 0%Z)
                       end
                   end
              else Ret s 0%Z in
            match nth_error (s_toks s) i with
            | None => Undef
            | Some tk =>
                let c := t_core tk in
                Ret (if m_rejects (c_mask c) (s_type s)
                     then sel_set_tok i (mkCore m_zero (c_follow c) (c_type c) (c_start c) (c_end c)) s else s) rt
            end
        end
  end.

(** fetch, lines 248-288 *)
Fixpoint fetch_loop (fuel : nat) (a : atm) (s : sel) : out sel Z :=
  match fuel with
  | O => Fuel
  | S f =>
      let sc := s_scope s in
      let again := fun (s : sel) (t : Z) => if (t =? 0)%Z then fetch_loop f a s else Ret s t in
      if Nat.ltb (s_iter s) (sc_to sc)
      then let! (s, t) := sel_match a (s_iter s) s in again (sel_set_iter (S (s_iter s)) s) t
      else
        let ii := (s_iter s - sc_to sc)%nat in
        let triggered := match s_trig s with
                         | t :: l => again (sel_set_trig l s) t
                         | [] => Ret (sel_no_key s) 0%Z
                         end in
        if Nat.ltb ii (sc_fidx sc)
        then match nth_error (s_follows s) ii with
             | None => Undef
             | Some j => if Nat.ltb j (sc_from sc)
                         then let! (s, t) := sel_match a j s in again (sel_set_iter (S (s_iter s)) s) t
                         else triggered
             end
        else triggered
  end.
Definition sel_fetch (fuel : nat) (a : atm) (s : sel) : out sel Z :=
  if m_matches (sc_mask (s_scope s)) (s_type s) then fetch_loop fuel a s else Ret (sel_no_key s) 0%Z.

(** constructor, lines 327-331 *)
Definition sel_new (a : atm) : out sel unit :=
  let s := mkSel [] [] [] [] EContent None scope_new 0 in
  match a with [] => Ret s tt | _ => sel_expand a (Some O) s end.

(** All results for one element, as fetched by the iterator from push with prefix increments until the end iterator: the constructor of
    iterator, lines 396-402, skip, lines 357-368, operator++, line 438, with fetch called until it returns 0; the destructor,
    lines 404-407, is called once. *)
Fixpoint fetch_all (fuel ff : nat) (a : atm) (s : sel) : out sel (list Z) :=
  match fuel with
  | O => Fuel
  | S f => let! (s, t) := sel_fetch ff a s in
           if (t =? 0)%Z then Ret s []
           else let! (s, l) := fetch_all f ff a s in Ret s (t :: l)
  end.
Definition sel_element (fuel ff : nat) (a : atm) (e : etype) (key : option (list N)) (s : sel) : out sel (list Z) :=
  let! (s, l) := fetch_all fuel ff a (sel_init e key s) in
  let! (s, _) := sel_close s in
  Ret s l.
(** The same with postfix increments, line 442: a copy of the iterator is destroyed with every increment after the fetch. *)
Fixpoint fetch_post (fuel ff : nat) (a : atm) (s : sel) : out sel (list Z) :=
  match fuel with
  | O => Fuel
  | S f => let! (s, t) := sel_fetch ff a s in
           let! (s, _) := sel_close s in
           if (t =? 0)%Z then Ret s []
           else let! (s, l) := fetch_post f ff a s in Ret s (t :: l)
  end.
Definition fetch_all_post (fuel ff : nat) (a : atm) (s : sel) : out sel (list Z) :=
  let! (s, t) := sel_fetch ff a s in
  if (t =? 0)%Z then Ret s [] else let! (s, l) := fetch_post fuel ff a s in Ret s (t :: l).
Definition sel_element_post (fuel ff : nat) (a : atm) (e : etype) (key : option (list N)) (s : sel) : out sel (list Z) :=
  let! (s, l) := fetch_all_post fuel ff a (sel_init e key s) in
  let! (s, _) := sel_close s in
  Ret s l.

(** The results for the elements of a document *)
Fixpoint sel_run (fuel ff : nat) (a : atm) (evs : list (etype * list N)) (s : sel) : out sel (list (list Z)) :=
  match evs with
  | [] => Ret s []
  | (e, k) :: l =>
      let! (s, r) := sel_element fuel ff a e (Some k) s in
      let! (s, rs) := sel_run fuel ff a l s in
      Ret s (r :: rs)
  end.
Fixpoint sel_run_post (fuel ff : nat) (a : atm) (evs : list (etype * list N)) (s : sel) : out sel (list (list Z)) :=
  match evs with
  | [] => Ret s []
  | (e, k) :: l =>
      let! (s, r) := sel_element_post fuel ff a e (Some k) s in
      let! (s, rs) := sel_run_post fuel ff a l s in
      Ret s (r :: rs)
  end.
