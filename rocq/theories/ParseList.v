(** Parsing the list of characters of an expression (proofs). *)
From Coq Require Import Lia ZifyBool ZifyNat.
From Verif Require Import Base Iter CharMap Charset TextScanner XmlScanner Ideal CharReader PathAtm PathSpec PathProg PathParse ParseSpec ParseRead.

Definition kctl (c : N) : ctl := ctl_of (kasc c).
Definition spaceb (c : N) : bool := ctl_eqb (kctl c) CSpace.
Definition identb (c : N) : bool := (ctl_eqb (kctl c) CUndef || ctl_eqb (kctl c) CAny) && negb (strchr_op c).
Definition digitb (c : N) : bool := (48 <=? c) && (c <=? 57).

Fixpoint span (f : N -> bool) (l : list N) : list N * list N :=
  match l with
  | [] => ([], [])
  | c :: l' => if f c then (c :: fst (span f l'), snd (span f l')) else ([], l)
  end.
Definition dropsp (l : list N) : list N := snd (span spaceb l).
Definition eat (c : N) (l : list N) : option (list N) := match l with x :: l' => if x =? c then Some l' else None | [] => None end.

Definition lp_ident (l : list N) : option (list N * list N) := if identb (hd 0 l) then Some (span identb l) else None.
Definition lp_value (l : list N) : option (list N * list N) :=
  match eat 34 l, eat 39 l with
  | Some l, _ => let (v, l) := span (fun c => negb (c =? 34)) l in match l with [] => None | _ :: l => Some (v, l) end
  | _, Some l => let (v, l) := span (fun c => negb (c =? 39)) l in match l with [] => None | _ :: l => Some (v, l) end
  | _, _ => lp_ident l
  end.
Definition lp_num (l : list N) : option (Z * list N) :=
  let (d, l) := span digitb l in if Nat.eqb (length d) 0 || Nat.ltb 8 (length d) then None else Some (atoi d, l).
Fixpoint lp_names (fuel : nat) (l : list N) : option (list (list N) * list N) :=
  match fuel with
  | O => None
  | S f => match lp_ident (dropsp l) with
           | None => None
           | Some (n, l) =>
               match eat 44 (dropsp l), eat 125 (dropsp l) with
               | Some l, _ => match lp_names f l with Some (ns, l) => Some (n :: ns, l) | None => None end
               | _, Some l => Some ([n], l)
               | _, _ => None
               end
           end
  end.
Definition lp_bracket (l : list N) : option (item * list N) :=
  match eat 64 (dropsp l) with
  | Some l =>
      match lp_ident (dropsp l) with
      | None => None
      | Some (n, l) =>
          match eat 61 (dropsp l) with
          | None => None
          | Some l => match lp_value (dropsp l) with
                      | None => None
                      | Some (v, l) => match eat 93 (dropsp l) with None => None | Some l => Some (IIf n v, l) end
                      end
          end
      end
  | None =>
      match lp_num (dropsp l) with
      | None => None
      | Some (n, l) =>
          match eat 44 (dropsp l), eat 93 (dropsp l) with
          | Some l, _ =>
              match eat 93 (dropsp l) with
              | Some l => Some (IFrom n, l)
              | None => match lp_num (dropsp l) with
                        | None => None
                        | Some (m, l) => match eat 93 (dropsp l) with Some l => Some (IRange n m, l) | None => None end
                        end
              end
          | _, Some l => Some (IIndex n, l)
          | _, _ => None
          end
      end
  end.
(** one part; whether it may stand where it is, is looked at behind *)
Definition lp_item (l : list N) : option (item * list N) :=
  match l with
  | [] => None
  | c :: l' =>
      if c =? 64 then Some (IAt, l')
      else if c =? 47 then match eat 47 l' with Some l => Some (IDeep, l) | None => Some (ISlash, l') end
      else if c =? 91 then lp_bracket l'
      else if c =? 40 then match eat 41 (dropsp l') with Some l => Some (IContent, l) | None => None end
      else if c =? 42 then Some (IEvery, l')
      else if c =? 123 then match lp_names (S (length l')) l' with Some (ns, l) => Some (IAmong ns, l) | None => None end
      else if c =? 126 then Some (IClose, l')
      else match lp_ident l with Some (n, l) => Some (IName n, l) | None => None end
  end.
Definition lp_next (st : stage) (l : list N) : option (item * stage * list N) :=
  match lp_item l with
  | Some (it, l') => match next_stage st it with Some st' => Some (it, st', l') | None => None end
  | None => None
  end.

Definition place_of (st : stage) : place :=
  match st with
  | AtStart => SelectStart | AfterSlash => SelectTag | AfterAt => SelectAttribute | AfterTag => SelectTagId | AfterAttribute => SelectAttributeId
  | AfterEnd => SelectContent | AfterCondition => SelectCondition
  end.

(** *** lists *)
Lemma span_app f l : fst (span f l) ++ snd (span f l) = l.
Proof. induction l as [|c l IH]; [reflexivity|]. cbn [span]. destruct (f c); cbn [fst snd app]; [f_equal; exact IH|reflexivity]. Qed.
Lemma span_all f l : Forall (fun c => f c = true) (fst (span f l)).
Proof. induction l as [|c l IH]; [constructor|]. cbn [span]. destruct (f c) eqn:E; cbn [fst]; [constructor; assumption|constructor]. Qed.
Lemma span_stop f l : match snd (span f l) with [] => True | c :: _ => f c = false end.
Proof. induction l as [|c l IH]; [exact I|]. cbn [span]. destruct (f c) eqn:E; cbn [snd]; [exact IH|exact E]. Qed.
Lemma span_len f l : (length (snd (span f l)) <= length l)%nat.
Proof. rewrite <- (span_app f l) at 2. rewrite app_length. lia. Qed.
Lemma dropsp_len l : (length (dropsp l) <= length l)%nat.
Proof. apply span_len. Qed.
Lemma dropsp_twice l : dropsp (dropsp l) = dropsp l.
Proof. unfold dropsp at 1. pose proof (span_stop spaceb l) as H. fold (dropsp l) in H. destruct (dropsp l) as [|c l']; [reflexivity|]. cbn [span]. rewrite H. reflexivity. Qed.
Lemma eat_Some c l l' : eat c l = Some l' -> l = c :: l'.
Proof. destruct l as [|x l]; cbn [eat]; [discriminate|]. destruct (N.eqb_spec x c) as [->|]; [congruence|discriminate]. Qed.
Lemma eat_hd c l : c <> 0 -> (hd 0 l =? c) = match eat c l with Some _ => true | None => false end.
Proof. intro Hc. destruct l as [|x l]; cbn [hd eat]; [|destruct (x =? c); reflexivity]. destruct (N.eqb_spec 0 c); congruence. Qed.
Lemma span_skip (f : N -> bool) l : ~ In 0 l -> ~ In 0 (snd (span f l)).
Proof. intros H H'. apply H. rewrite <- (span_app f l). apply in_or_app. right. exact H'. Qed.
Lemma identb_0 : identb 0 = false. Proof. reflexivity. Qed.
Lemma lp_ident_len l n l' : lp_ident l = Some (n, l') -> (length l' < length l)%nat /\ n <> [].
Proof.
  unfold lp_ident. destruct l as [|c l]; cbn [hd]; [rewrite identb_0; discriminate|]. cbn [span]. destruct (identb c) eqn:E; [|discriminate]. intro H. injection H as <- <-.
  split; [cbn [length]; pose proof (span_len identb l); lia|discriminate].
Qed.

Lemma lp_num_ident l : identb (hd 0 l) = false -> lp_num l = None.
Proof.
  intro Hi. unfold lp_num. destruct l as [|c l1]; [reflexivity|]. cbn [span]. cbn [hd] in Hi. destruct (digitb c) eqn:Hd; [|reflexivity]. exfalso. unfold digitb in Hd.
  assert (Hc : In c [48; 49; 50; 51; 52; 53; 54; 55; 56; 57]) by (cbn; lia). clear -Hc Hi. cbn in Hc. repeat (destruct Hc as [<-|Hc]; [discriminate Hi|]). destruct Hc.
Qed.

Lemma bracket_stage l it l' st : lp_bracket l = Some (it, l') -> next_stage st it = next_stage st (IIndex 0).
Proof.
  unfold lp_bracket. intro H. repeat match type of H with context [match ?x with _ => _ end] => destruct x as [[? ?]|] || destruct x; try discriminate H end; injection H as <- <-; reflexivity.
Qed.

(** the parts of a text: all, or those before the error *)
Fixpoint lp_items (fuel : nat) (st : stage) (l : list N) : list item * bool :=
  match fuel with
  | O => ([], false)
  | S f => match l with
           | [] => ([], true)
           | _ => match lp_next st l with
                  | None => ([], false)
                  | Some (it, st', l') => (it :: fst (lp_items f st' (dropsp l')), snd (lp_items f st' (dropsp l')))
                  end
           end
  end.
