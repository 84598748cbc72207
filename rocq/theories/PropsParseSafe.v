(** Path expressions of arbitrary bytes: C68. *)
From Coq Require Import Lia.
From Verif Require Import Base Charset CharsetSpec XmlScanner XmlPrinter PathAtm PathSelect PathSpec PathProg PathNames PathParse PathInspect InspectSpec InspectSafe ParseSafe.

(** Adding one text after the other, with the values returned. *)
Fixpoint add_all (scs acs : charset) (xs : list (Z * list N)) (a : atm) : out atm (list Z) :=
  match xs with
  | [] => Ret a []
  | (t, x) :: xs => let! (a, z) := addExpression scs acs t x a in let! (a, zs) := add_all scs acs xs a in Ret a (z :: zs)
  end.
(** any bytes, not too many *)
Definition any_text (x : list N) : Prop := Forall (fun b => b < 256) x /\ N.of_nat (length x) + 16 < 2 ^ 32.

(** ** C68: whatever bytes the expressions consist of, the parser ends with a result for each of them, it reads and writes nothing outside of its buffers and of
    the automaton, and the automaton can be used afterwards, the errors included: no call on a selector leaves the states or the stacks of tokens. The names are
    encoded in a character set of single bytes or UTF-8. *)
Theorem C68_any_text : forall scs acs xs, cs_constructible (default_cs scs) = true -> bytewise (default_cs acs) = true -> Forall (fun x => any_text (snd x)) xs ->
  exists a zs, add_all scs acs xs [] = Ret a zs /\ Forall2 (fun x z => (0 <= z <= Z.of_nat (length (snd x)) + 8)%Z) xs zs /\
  forall calls, exists n s rs, (forall fuel, (n <= fuel)%nat -> sel_session fuel a calls = Ret s rs) /\ length rs = length calls.
Proof.
  intros scs acs xs Hs Ha Hx.
  assert (G : forall a, atm_up (nrm a) -> exists a' zs, add_all scs acs xs a = Ret a' zs /\ Forall2 (fun x z => (0 <= z <= Z.of_nat (length (snd x)) + 8)%Z) xs zs /\ atm_up (nrm a')).
  { induction Hx as [|[t x] xs [H1 H2] Hx IH]; intros a W; cbn [add_all]; [eauto|].
    destruct (addExpression_safe scs acs t x a Hs Ha H1 H2 W) as (a1 & z & -> & W1 & Z1). cbn [bind]. destruct (IH a1 W1) as (a2 & zs & -> & F & W2). cbn [bind].
    eexists. eexists. split; [reflexivity|]. split; [constructor; assumption|exact W2]. }
  destruct (G [] up_new) as (a & zs & E & F & W). exists a, zs. split; [exact E|]. split; [exact F|]. intros calls.
  destruct (sel_session_safe a (up_nrm a W) calls) as (n & s & rs & H1 & _ & H2). eauto.
Qed.
Print Assumptions C68_any_text.
(** Broken sequences of bytes, an expression cut off in the middle, a condition with an ampersand and null characters. *)
Definition C68_texts : list (Z * list N) :=
  [(1%Z, [255; 47; 128; 240]); (2%Z, str "/a[@b='&#" ++ [252]); (3%Z, str "//a[@b='&']()"); (4%Z, [47; 97; 0; 64]); (5%Z, str "a[0000000000001]"); (6%Z, str "{a,b,")].
Example C68_case : Forall (fun x => any_text (snd x)) C68_texts /\
  exists a, add_all UTF8 UTF8 C68_texts [] = Ret a [0; 16; 0; 0; 16; 6]%Z /\
  exists s, sel_session 100 a [PInit EOpenTag (Some (str "a")); PFetch; PFetch; PClose; PInit ETagAttribName (Some (str "b")); PFetch; PInit EContent (Some [255]); PFetch]
    = Ret s [[]; [4%Z]; [0%Z]; []; []; [0%Z]; []; [0%Z]].
Proof.
  split; [unfold any_text; repeat constructor; cbn; reflexivity|]. eexists. split; [vm_compute; reflexivity|]. eexists. vm_compute. reflexivity.
Qed.
(** *** The value returned for an error is not always a position of the text: a character that is cut off at the end counts with its full length. *)
Theorem C68_position_refuted : exists x a z, any_text x /\ addExpression UTF8 UTF8 1 x [] = Ret a z /\ (Z.of_nat (length x) + 1 < z)%Z.
Proof.
  exists (str "a[@b='" ++ [252]). eexists. eexists. split; [unfold any_text; split; [repeat constructor|reflexivity]|]. split; [vm_compute; reflexivity|reflexivity].
Qed.
Print Assumptions C68_position_refuted.
(** *** The names are not encoded in a character set of several bytes without undefined behaviour: only one null byte terminates them. *)
Theorem C68_wide_refuted : forall acs, In acs [UTF16 true; UTF16 false; UCS2 true; UCS2 false; UCS4 true; UCS4 false] -> exists x, any_text x /\ addExpression UTF8 acs 1 x [] = Undef.
Proof.
  intros acs H. exists (str "/a"). split; [unfold any_text; split; [repeat constructor|reflexivity]|].
  repeat (destruct H as [<-|H]; [vm_compute; reflexivity|]). contradiction.
Qed.
Print Assumptions C68_wide_refuted.
(** *** A condition on a value with an ampersand does not hold for that value: the ampersand is replaced with a null character, as the entity it could start is
    never decoded. The elements of a document with an attribute of the value given are passed to the selector and the results fetched; 1 is the result wanted. *)
Definition C68_elements (v : list N) : list selop :=
  flat_map (fun x => [PInit (fst x) (Some (snd x)); PFetch; PFetch]) [(EOpenTag, str "a"); (ETagAttribName, str "b"); (ETagAttribValue, v); (EOpenTag, str "c"); (EContent, str "y")].
Definition C68_condition (v : list N) : list N := str "/a[@b='" ++ v ++ str "']//c()".
Definition selects (x v : list N) : Prop := exists a s rs, addExpression UTF8 UTF8 1 x [] = Ret a 0%Z /\ sel_session 100 a (C68_elements v) = Ret s rs /\ In [1%Z] rs.
Definition selects_not (x v : list N) : Prop := exists a s rs, addExpression UTF8 UTF8 1 x [] = Ret a 0%Z /\ sel_session 100 a (C68_elements v) = Ret s rs /\ ~ In [1%Z] rs.
Theorem C68_ampersand_refuted : exists v, any_text (C68_condition v) /\ selects_not (C68_condition v) v /\ selects (C68_condition v) [0].
Proof.
  exists (str "&"). split; [unfold any_text; split; [repeat constructor|reflexivity]|]. split.
  - eexists. eexists. eexists. split; [vm_compute; reflexivity|]. split; [vm_compute; reflexivity|]. cbn [In]. intuition discriminate.
  - eexists. eexists. eexists. split; [vm_compute; reflexivity|]. split; [vm_compute; reflexivity|]. cbn [In]. intuition reflexivity.
Qed.
Print Assumptions C68_ampersand_refuted.
Example C68_ampersand_case : selects (C68_condition (str "x")) (str "x").
Proof. eexists. eexists. eexists. split; [vm_compute; reflexivity|]. split; [vm_compute; reflexivity|]. cbn [In]. intuition reflexivity. Qed.
