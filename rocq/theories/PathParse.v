(** XMLPathSelectAutomatonParser: xmlpathautomatonparse.hpp (model). *)
From Verif Require Import Base Iter CharMap Charset TextScanner XmlScanner XmlPrinter PathAtm PathSpec PathProg.

(** enum ParseState, line 64 *)
Inductive place := SelectStart | SelectTag | SelectAttribute | SelectTagId | SelectAttributeId | SelectContent | SelectCondition.

(** lines 48-57: the first "::" in the bytes of the text, the value returned; the int returned is not bounded in the model *)
Fixpoint find_colons (pos : Z) (l : list N) : option Z :=
  match l with
  | x :: l' => match l' with
               | y :: _ => if (x =? 58) && (y =? 58) then Some (pos + 1)%Z else find_colons (pos + 1) l'
               | [] => None
               end
  | [] => None
  end.

(** ExprState, lines 217-265: the list of path elements; ExprState_FOREACH, line 216 *)
Fixpoint for_each (acs : charset) (o : pathop) (ps : list pelem) (a : atm) : out atm (list pelem) :=
  match ps with
  | [] => Ret a []
  | p :: ps =>
      let! (a, p) := pe_op acs o p a in
      let! (a, ps) := for_each acs o ps a in
      Ret a (p :: ps)
  end.
(** selectTagAlt and selectAttributeAlt, lines 227-250: the call is made for each alternative on a copy of the list *)
Fixpoint for_alts (acs : charset) (os : list pathop) (ps : list pelem) (a : atm) : out atm (list pelem) :=
  match os with
  | [] => Ret a []
  | o :: os =>
      let! (a, qs) := for_each acs o ps a in
      let! (a, rs) := for_alts acs os ps a in
      Ret a (qs ++ rs)
  end.

(** The text is read with a TextScanner. Where the code evaluates *src several times on the same character the model does it once. *)
Section Parse.
Context {R : Type} (rops : readerops R) (acs : charset).

(** skipSpaces, lines 267-270; [fuel] is more than the number of characters left *)
Fixpoint skipSpaces (fuel : nat) (r : R) : out R unit :=
  match fuel with
  | O => Fuel
  | S f => let! (r, c) := r_control rops r in
           if ctl_eqb c CSpace then let! (r, _) := r_skip rops r in skipSpaces f r else Ret r tt
  end.

(** strchr( opchr, c), lines 284-285: the argument is converted to char; the terminating null character is found too *)
Definition opchr : list N := Eval vm_compute in str "*~/(){}[]@,;".
Definition strchr_op (c : N) : bool := (u8 c =? 0) || existsb (N.eqb (u8 c)) opchr.

(** isIdentifierChar, lines 280-288 *)
Definition isIdentifierChar (r : R) : out R bool :=
  let! (r, c) := r_control rops r in
  if ctl_eqb c CUndef || ctl_eqb c CAny then let! (r, v) := r_chr rops r in Ret r (negb (strchr_op v)) else Ret r false.

(** parseIdentifier, lines 297-305: the bytes at the pointer returned, with a null character behind *)
Fixpoint parseIdentifier (fuel : nat) (buf : list N) (r : R) : out R (list N) :=
  match fuel with
  | O => Fuel
  | S f => let! (r, b) := isIdentifierChar r in
           if b then let! (r, v) := r_chr rops r in
                     let! (r, _) := r_skip rops r in
                     parseIdentifier f (buf ++ cs_print acs v) r
           else Ret r buf
  end.

(** lines 312-316 *)
Fixpoint parseQuoted (fuel : nat) (eb : N) (buf : list N) (r : R) : out R (list N) :=
  match fuel with
  | O => Fuel
  | S f => let! (r, c) := r_chr rops r in
           if c =? 0 then Ret r buf
           else let! (r, _) := r_skip rops r in
                if c =? eb then Ret r buf else parseQuoted f eb (buf ++ cs_print acs c) r
  end.
(** parseValue, lines 306-327; [None] is NULL *)
Definition parseValue (fuel : nat) (r : R) : out R (option (list N)) :=
  let! (r, c) := r_chr rops r in
  if (c =? 34) || (c =? 39)
  then let! (r, _) := r_skip rops r in let! (r, v) := parseQuoted fuel c [] r in Ret r (Some v)
  else let! (r, b) := isIdentifierChar r in
       if b then let! (r, v) := parseIdentifier fuel [] r in Ret r (Some v) else Ret r None.

(** parseIdentifierList, lines 332-341, at the start bracket or at a comma; the empty list is the failure *)
Fixpoint parseNames (fuel : nat) (ns : list (list N)) (r : R) : out R (list (list N)) :=
  match fuel with
  | O => Fuel
  | S f =>
      let! (r, _) := r_skip rops r in
      let! (r, _) := skipSpaces f r in
      let! (r, b) := isIdentifierChar r in
      if b
      then let! (r, n) := parseIdentifier f [] r in
           let! (r, _) := skipSpaces f r in
           let! (r, c) := r_chr rops r in
           if c =? 44 then parseNames f (ns ++ [n]) r
           else if c =? 125 then let! (r, _) := r_skip rops r in Ret r (ns ++ [n]) else Ret r []
      else Ret r []
  end.

(** parseNum, lines 272-278 *)
Fixpoint parseDigits (fuel : nat) (num : list N) (r : R) : out R (list N) :=
  match fuel with
  | O => Fuel
  | S f => let! (r, c) := r_chr rops r in
           if (48 <=? c) && (c <=? 57) then let! (r, _) := r_skip rops r in parseDigits f (num ++ [c]) r else Ret r num
  end.
Definition atoi (num : list N) : Z := fold_left (fun v c => (v * 10 + (Z.of_N c - 48))%Z) num 0%Z.
Definition parseNum (fuel : nat) (r : R) : out R Z :=
  let! (r, num) := parseDigits fuel [] r in
  Ret r (if Nat.eqb (length num) 0 || Nat.ltb 8 (length num) then (-1)%Z else atoi num).

(** the text scanner and the automaton; return src.getPosition()+1 *)
Definition both : Type := (R * atm)%type.
Definition on_r {A} (f : R -> out R A) (s : both) : out both A := omap (fun r => (r, snd s)) (f (fst s)).
Definition on_a {A} (f : atm -> out atm A) (s : both) : out both A := omap (fun a => (fst s, a)) (f (snd s)).
Inductive pnext := PError (pos : Z) | PNext (pl : place) (ps : list pelem).
Definition perror (s : both) : out both pnext := Ret s (PError (Z.of_N (u64 (r_pos rops (fst s) + 1)))).
Definition pcall (o : pathop) (pl : place) (ps : list pelem) (s : both) : out both pnext :=
  let! (s, ps) := on_a (for_each acs o ps) s in Ret s (PNext pl ps).
Definition pcalls (os : list pathop) (pl : place) (ps : list pelem) (s : both) : out both pnext :=
  let! (s, ps) := on_a (for_alts acs os ps) s in Ret s (PNext pl ps).

Definition place_in (l : list place) (p : place) : bool :=
  let idx q := match q with SelectStart => 0 | SelectTag => 1 | SelectAttribute => 2 | SelectTagId => 3 | SelectAttributeId => 4 | SelectContent => 5 | SelectCondition => 6 end%nat in
  existsb (fun q => Nat.eqb (idx q) (idx p)) l.

(** lines 94-148, behind the bracket *)
Definition parse_bracket (fuel : nat) (ps : list pelem) (s : both) : out both pnext :=
  let! (s, _) := on_r (skipSpaces fuel) s in
  let! (s, c) := on_r (r_chr rops) s in
  if c =? 64
  then
    let! (s, _) := on_r (r_skip rops) s in
    let! (s, _) := on_r (skipSpaces fuel) s in
    let! (s, b) := on_r isIdentifierChar s in
    if negb b then perror s else
    let! (s, name) := on_r (parseIdentifier fuel []) s in
    let! (s, _) := on_r (skipSpaces fuel) s in
    let! (s, c) := on_r (r_chr rops) s in
    if negb (c =? 61) then perror s else
    let! (s, _) := on_r (r_skip rops) s in
    let! (s, _) := on_r (skipSpaces fuel) s in
    let! (s, val) := on_r (parseValue fuel) s in
    let! (s, _) := on_r (skipSpaces fuel) s in
    match val with
    | None => perror s
    | Some v =>
        let! (s, c) := on_r (r_chr rops) s in
        if negb (c =? 93) then perror s else
        let! (s, n) := pcall (BCond (Some name) (Some v)) SelectCondition ps s in
        let! (s, _) := on_r (r_skip rops) s in Ret s n
    end
  else
    let close o s := let! (s, n) := pcall o SelectCondition ps s in let! (s, _) := on_r (r_skip rops) s in Ret s n in
    let! (s, _) := on_r (skipSpaces fuel) s in
    let! (s, b) := on_r isIdentifierChar s in
    if negb b then perror s else
    let! (s, n) := on_r (parseNum fuel) s in
    if (n <? 0)%Z then perror s else
    let! (s, _) := on_r (skipSpaces fuel) s in
    let! (s, c) := on_r (r_chr rops) s in
    if c =? 44
    then
      let! (s, _) := on_r (r_skip rops) s in
      let! (s, _) := on_r (skipSpaces fuel) s in
      let! (s, c) := on_r (r_chr rops) s in
      if c =? 93 then close (BFrom n) s else
      let! (s, b) := on_r isIdentifierChar s in
      if negb b then perror s else
      let! (s, m) := on_r (parseNum fuel) s in
      if (m <? 0)%Z then perror s else
      let! (s, _) := on_r (skipSpaces fuel) s in
      let! (s, c) := on_r (r_chr rops) s in
      if c =? 93 then close (BRange n m) s else perror s
    else if c =? 93 then close (BIndex n) s
    else perror s.

(** the body of the switch, lines 70-209, [c] is the character *)
Definition parse_switch (fuel : nat) (c : N) (pl : place) (ps : list pelem) (s : both) : out both pnext :=
  if c =? 64                                                                                    (* '@', lines 72-78 *)
  then if place_in [SelectStart; SelectTag; SelectTagId; SelectCondition] pl
       then let! (s, _) := on_r (r_skip rops) s in Ret s (PNext SelectAttribute ps) else perror s
  else if c =? 47                                                                               (* '/', lines 79-90 *)
  then if place_in [SelectStart; SelectCondition; SelectTagId] pl
       then let! (s, _) := on_r (r_skip rops) s in
            let! (s, c) := on_r (r_chr rops) s in
            if c =? 47
            then let! (s, n) := pcall BFollow SelectTag ps s in let! (s, _) := on_r (r_skip rops) s in Ret s n
            else Ret s (PNext SelectTag ps)
       else perror s
  else if c =? 91                                                                               (* '[', lines 91-149 *)
  then if place_in [SelectStart; SelectTag; SelectTagId; SelectCondition] pl
       then let! (s, _) := on_r (r_skip rops) s in parse_bracket fuel ps s else perror s
  else if c =? 40                                                                               (* '(', lines 150-158 *)
  then if place_in [SelectStart; SelectTag; SelectTagId; SelectCondition] pl
       then let! (s, _) := on_r (r_skip rops) s in
            let! (s, _) := on_r (skipSpaces fuel) s in
            let! (s, c) := on_r (r_chr rops) s in
            if negb (c =? 41) then perror s else
            let! (s, _) := on_r (r_skip rops) s in pcall BContent SelectContent ps s
       else perror s
  else if c =? 42                                                                               (* '*', lines 159-172 *)
  then if place_in [SelectStart; SelectTag; SelectAttribute] pl
       then let! (s, _) := on_r (r_skip rops) s in
            if place_in [SelectAttribute] pl then pcall (BAttr None) SelectAttributeId ps s else pcall (BTag None) SelectTagId ps s
       else perror s
  else if c =? 123                                                                              (* '{', lines 173-187 *)
  then if place_in [SelectStart; SelectTag; SelectAttribute] pl
       then let! (s, alt) := on_r (parseNames fuel []) s in
            match alt with
            | [] => perror s
            | _ => if place_in [SelectAttribute] pl then pcalls (map (fun n => BAttr (Some n)) alt) SelectAttributeId ps s
                   else pcalls (map (fun n => BTag (Some n)) alt) SelectTagId ps s
            end
       else perror s
  else if c =? 126                                                                              (* '~', lines 188-193 *)
  then if place_in [SelectTagId; SelectStart; SelectCondition] pl
       then let! (s, _) := on_r (r_skip rops) s in pcall BClose SelectContent ps s else perror s
  else                                                                                          (* lines 194-208 *)
    if place_in [SelectStart; SelectTag; SelectAttribute] pl
    then let! (s, b) := on_r isIdentifierChar s in
         if negb b then perror s else
         let! (s, n) := on_r (parseIdentifier fuel []) s in
         if place_in [SelectAttribute] pl then pcall (BAttr (Some n)) SelectAttributeId ps s else pcall (BTag (Some n)) SelectTagId ps s
    else perror s.

(** the loop, lines 68-212 *)
Fixpoint parse_loop (fuel : nat) (t : Z) (pl : place) (ps : list pelem) (s : both) : out both Z :=
  match fuel with
  | O => Fuel
  | S f =>
      let! (s, c) := on_r (r_chr rops) s in
      if c =? 0
      then let! (s, _) := on_a (for_each acs (BOut t) ps) s in Ret s 0%Z
      else let! (s, n) := parse_switch f c pl ps s in
           match n with
           | PError z => Ret s z
           | PNext pl ps => let! (s, _) := on_r (skipSpaces f) s in parse_loop f t pl ps s
           end
  end.
End Parse.

(** addExpression, lines 45-213. The character sets are default constructed, the automaton uses its own default constructed one too. The loops end after
    one character each, if the size is below 2^32 - 16. *)
Definition addExpression (scs acs : charset) (t : Z) (esrc : list N) (a : atm) : out atm Z :=
  match find_colons 0 esrc with
  | Some z => Ret a z
  | None => omap snd (parse_loop (ts_ops cstr_ops (default_cs scs)) (default_cs acs) (length esrc + 2) t SelectStart [pe_root] (ts_make (cstr_make esrc), a))
  end.
