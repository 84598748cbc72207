(** The automaton printed for debugging: C84. *)
From Coq Require Import Lia ZifyBool ZifyNat ZifyN.
From Verif Require Import Base XmlScanner PathAtm AtmMemory AtmValue Names Examples AtmPrint.

(** ** Specification: what can be told of a state from its line, and the values that can be printed *)
Record told := mkTold { t_next : option nat; t_link : option nat; t_follow : bool; t_op : list N; t_name : option (list N); t_type : Z }.
Definition tells (v : vstate) : told :=
  mkTold (st_next (fst v)) (st_link (fst v)) (c_follow (st_core (fst v))) (seekopName (c_mask (st_core (fst v)))) (snd v) (c_type (st_core (fst v))).
Definition int_index (o : option nat) : Prop := match o with Some n => (Z.of_nat n < 2 ^ 31)%Z | None => True end.
Record printable (v : vstate) : Prop := mkPr {
  pr_next : int_index (st_next (fst v)); pr_link : int_index (st_link (fst v)); pr_type : (- 2 ^ 31 <= c_type (st_core (fst v)) < 2 ^ 31)%Z;
  pr_range : (c_end (st_core (fst v)) <= 0)%Z; pr_name : match snd v with Some n => ~ In 39 n | None => True end }.

(** ** Numbers *)
Definition dec_digit (c : N) : Prop := 48 <= c <= 57.
Definition dec_value (l : list N) : N := fold_left (fun v c => v * 10 + (c - 48)) l 0.
Lemma digit10 : forall m, m < 10 -> nth (N.to_nat m) (str "0123456789abcdef") 0 = m + 48.
Proof. intros m H. assert (E : m = 0 \/ m = 1 \/ m = 2 \/ m = 3 \/ m = 4 \/ m = 5 \/ m = 6 \/ m = 7 \/ m = 8 \/ m = 9) by lia. destruct E as [-> | [-> | [-> | [-> | [-> | [-> | [-> | [-> | [-> | ->]]]]]]]]]; reflexivity. Qed.
Lemma digits_dec : forall f n, Forall dec_digit (digits f 10 n).
Proof.
  induction f as [|f IH]; intros n; cbn [digits]; [constructor|]. apply Forall_app. split; [destruct (n <? 10); [constructor|apply IH]|]. pose proof (N.mod_lt n 10 ltac:(lia)).
  rewrite digit10 by assumption. repeat constructor; lia.
Qed.
Lemma dec_snoc : forall l c, dec_value (l ++ [c]) = dec_value l * 10 + (c - 48).
Proof. intros l c. unfold dec_value. rewrite fold_left_app. reflexivity. Qed.
Lemma digits_value : forall f n, n < 10 ^ N.of_nat f -> dec_value (digits f 10 n) = n.
Proof.
  induction f as [|f IH]; intros n H; cbn [digits]; [cbn in *; lia|]. rewrite dec_snoc. pose proof (N.mod_lt n 10 ltac:(lia)). pose proof (N.div_mod n 10 ltac:(lia)). rewrite digit10 by assumption.
  destruct (N.ltb_spec n 10) as [L|L]; [cbn; rewrite N.mod_small by exact L; lia|].
  rewrite IH; [lia|]. rewrite Nat2N.inj_succ, N.pow_succ_r' in H. apply N.div_lt_upper_bound; lia.
Qed.
Definition no_digit (l : list N) : Prop := match l with [] => True | c :: _ => ~ dec_digit c end.
Lemma nd : forall c l, c < 48 -> no_digit (c :: l).
Proof. intros c l H. unfold no_digit, dec_digit. lia. Qed.
Lemma dec_split : forall l m r s, Forall dec_digit l -> Forall dec_digit m -> no_digit r -> no_digit s -> l ++ r = m ++ s -> l = m /\ r = s.
Proof.
  induction l as [|x l IH]; intros [|y m] r s Hl Hm Hr Hs E; cbn [app] in E.
  - auto.
  - subst r. inversion Hm; subst. contradiction.
  - subst s. inversion Hl; subst. contradiction.
  - injection E as -> E. inversion Hl; subst. inversion Hm; subst. destruct (IH m r s) as [-> ->]; auto.
Qed.
Lemma unsigned_split : forall n m r s, n < 2 ^ 32 -> m < 2 ^ 32 -> no_digit r -> no_digit s -> show_unsigned 10 n ++ r = show_unsigned 10 m ++ s -> n = m /\ r = s.
Proof.
  intros n m r s Hn Hm Hr Hs E. unfold show_unsigned in E. destruct (dec_split _ _ _ _ (digits_dec 32 n) (digits_dec 32 m) Hr Hs E) as [D ->]. split; [|reflexivity].
  assert (B : 2 ^ 32 < 10 ^ N.of_nat 32) by (vm_compute; reflexivity). rewrite <- (digits_value 32 n), <- (digits_value 32 m), D by lia. reflexivity.
Qed.
Lemma digits_head : forall f n, (1 <= f)%nat -> exists c l, digits f 10 n = c :: l /\ dec_digit c.
Proof.
  intros [|f] n H; [lia|]. pose proof (digits_dec (S f) n) as D. destruct (digits (S f) 10 n) as [|c l] eqn:E; [cbn [digits] in E; destruct (if n <? 10 then [] else digits f 10 (n / 10)); discriminate|].
  inversion D; subst. eauto.
Qed.
Lemma int_split : forall x y r s, (- 2 ^ 31 <= x < 2 ^ 31)%Z -> (- 2 ^ 31 <= y < 2 ^ 31)%Z -> no_digit r -> no_digit s -> show_int x ++ r = show_int y ++ s -> x = y /\ r = s.
Proof.
  intros x y r s Hx Hy Hr Hs E. unfold show_int in E. change (2 ^ 31)%Z with 2147483648%Z in *.
  destruct (Z.ltb_spec x 0), (Z.ltb_spec y 0); cbn [app] in E.
  - injection E as E. destruct (unsigned_split (Z.abs_N x) (Z.abs_N y) r s) as [D ->]; auto; try (change (2 ^ 32) with 4294967296; lia). split; [lia|reflexivity].
  - exfalso. unfold show_unsigned in E. destruct (digits_head 32 (Z.to_N y) ltac:(lia)) as [c [l [D B]]]. rewrite D in E. apply (f_equal (hd 0)) in E. cbn [hd app] in E. unfold dec_digit in B. lia.
  - exfalso. unfold show_unsigned in E. destruct (digits_head 32 (Z.to_N x) ltac:(lia)) as [c [l [D B]]]. rewrite D in E. apply (f_equal (hd 0)) in E. cbn [hd app] in E. unfold dec_digit in B. lia.
  - destruct (unsigned_split (Z.to_N x) (Z.to_N y) r s) as [D ->]; auto; try (change (2 ^ 32) with 4294967296; lia). split; [lia|reflexivity].
Qed.

(** ** Lines *)
Lemma name_split : forall n m r s, ~ In 39 n -> ~ In 39 m -> n ++ 39 :: r = m ++ 39 :: s -> n = m /\ r = s.
Proof.
  induction n as [|x n IH]; intros [|y m] r s Hn Hm E; cbn [app] in E.
  - injection E as ->. auto.
  - injection E as <- _. exfalso. apply Hm. left. reflexivity.
  - injection E as -> _. exfalso. apply Hn. left. reflexivity.
  - injection E as -> E. destruct (IH m r s) as [-> ->]; auto; intros I; [apply Hn|apply Hm]; right; exact I.
Qed.
Lemma seekop_cases : forall m, In (seekopName m) [str "OpenTag"; str "CloseTag"; str "Attribute"; str "AttributeValue"; str "ThisAttributeValue"; str "Content"; str "ContentStart"; str "None"; []].
Proof. intros m. unfold seekopName. repeat match goal with |- context [if ?b then _ else _] => destruct b end; cbn; tauto. Qed.
Lemma space_split : forall n m r s, ~ In 32 n -> ~ In 32 m -> n ++ 32 :: r = m ++ 32 :: s -> n = m /\ r = s.
Proof.
  induction n as [|x n IH]; intros [|y m] r s Hn Hm E; cbn [app] in E.
  - injection E as ->. auto.
  - injection E as <- _. exfalso. apply Hm. left. reflexivity.
  - injection E as -> _. exfalso. apply Hn. left. reflexivity.
  - injection E as -> E. destruct (IH m r s) as [-> ->]; auto; intros I; [apply Hn|apply Hm]; right; exact I.
Qed.
Lemma seekop_space : forall m, ~ In 32 (seekopName m).
Proof. intros m. pose proof (seekop_cases m) as H. cbn [In] in H. repeat (destruct H as [H|H]; [rewrite <- H; vm_compute; intuition discriminate|]). destruct H. Qed.

Definition p_next (o : option nat) (r : list N) : list N := match o with Some n => str " ->" ++ show_int (Z.of_nat n) ++ r | None => r end.
Definition p_link (o : option nat) (r : list N) : list N := match o with Some n => str " ~" ++ show_int (Z.of_nat n) ++ r | None => r end.
Definition p_name (o : option (list N)) (r : list N) : list N := match o with Some n => 32 :: 39 :: n ++ 39 :: r | None => str " (null)" ++ r end.
Definition p_type (t : Z) (r : list N) : list N := if (t =? 0)%Z then r else str " =>" ++ show_int t ++ r.
Definition p_kind (f : bool) (r : list N) : list N := 32 :: (if f then [47] else []) ++ 47 :: r.
Lemma print_parts : forall adr v r, (c_end (st_core (fst v)) <= 0)%Z -> st_print adr v ++ r =
  p_next (st_next (fst v)) (p_link (st_link (fst v)) (p_kind (c_follow (st_core (fst v))) (seekopName (c_mask (st_core (fst v))) ++ p_name (snd v) (p_type (c_type (st_core (fst v))) r)))).
Proof.
  intros adr v r H. unfold st_print, p_next, p_link, p_kind, p_name, p_type. destruct (Z.ltb_spec 0 (c_end (st_core (fst v)))); [lia|].
  destruct (st_next (fst v)), (st_link (fst v)), (c_follow (st_core (fst v))), (snd v), (c_type (st_core (fst v)) =? 0)%Z;
    change (str " ") with [32]; change (str "/") with [47]; change (str "'") with [39]; change (str " '") with [32; 39]; cbn [app]; repeat (rewrite <- app_assoc; cbn [app]); reflexivity.
Qed.
Lemma kind_starts : forall f r, exists l, p_kind f r = 32 :: 47 :: l.
Proof. intros [|] r; eexists; reflexivity. Qed.
Lemma link_starts : forall o f r, exists c l, p_link o (p_kind f r) = 32 :: c :: l /\ (c = 126 \/ c = 47).
Proof. intros [n|] f r; [|destruct (kind_starts f r) as [l E]; exists 47, l; split; [exact E|right; reflexivity]]. exists 126. eexists. split; [reflexivity|left; reflexivity]. Qed.
Lemma index_range : forall n, int_index (Some n) -> (- 2 ^ 31 <= Z.of_nat n < 2 ^ 31)%Z.
Proof. intros n H. cbn [int_index] in H. lia. Qed.
Lemma next_split : forall o o' l l' f f' r r', int_index o -> int_index o' -> p_next o (p_link l (p_kind f r)) = p_next o' (p_link l' (p_kind f' r')) ->
  o = o' /\ p_link l (p_kind f r) = p_link l' (p_kind f' r').
Proof.
  intros o o' l l' f f' r r' Ho Ho' E. destruct (link_starts l f r) as [c [x [E1 C1]]]. destruct (link_starts l' f' r') as [c' [x' [E2 C2]]]. rewrite E1, E2 in *.
  destruct o as [n|], o' as [n'|]; cbn [p_next] in E.
  - apply app_inv_head in E. destruct (int_split _ _ _ _ (index_range _ Ho) (index_range _ Ho') (nd 32 _ eq_refl) (nd 32 _ eq_refl) E) as [D D2]. split; [f_equal; lia|exact D2].
  - exfalso. apply (f_equal (fun l => nth 1 l 0)) in E. change (45 = c') in E. lia.
  - exfalso. apply (f_equal (fun l => nth 1 l 0)) in E. change (c = 45) in E. lia.
  - auto.
Qed.
Lemma link_split : forall o o' f f' r r', int_index o -> int_index o' -> p_link o (p_kind f r) = p_link o' (p_kind f' r') -> o = o' /\ p_kind f r = p_kind f' r'.
Proof.
  intros o o' f f' r r' Ho Ho' E. destruct (kind_starts f r) as [x E1]. destruct (kind_starts f' r') as [x' E2]. rewrite E1, E2 in *.
  destruct o as [n|], o' as [n'|]; cbn [p_link] in E.
  - apply app_inv_head in E. destruct (int_split _ _ _ _ (index_range _ Ho) (index_range _ Ho') (nd 32 _ eq_refl) (nd 32 _ eq_refl) E) as [D D2]. split; [f_equal; lia|exact D2].
  - exfalso. apply (f_equal (fun l => nth 1 l 0)) in E. change (126 = 47) in E. lia.
  - exfalso. apply (f_equal (fun l => nth 1 l 0)) in E. change (47 = 126) in E. lia.
  - auto.
Qed.
Lemma kind_split : forall f f' m m' n n' r r', p_kind f (seekopName m ++ p_name n r) = p_kind f' (seekopName m' ++ p_name n' r') -> f = f' /\ seekopName m = seekopName m' /\ p_name n r = p_name n' r'.
Proof.
  intros f f' m m' n n' r r' E.
  assert (S : forall n0 r0, exists l, p_name n0 r0 = 32 :: l) by (intros [n0|] r0; eexists; reflexivity).
  assert (H : forall m0, ~ In 47 (seekopName m0)).
  { intros m0. pose proof (seekop_cases m0) as H. cbn [In] in H. repeat (destruct H as [H|H]; [rewrite <- H; vm_compute; intuition discriminate|]). destruct H. }
  assert (N : forall m0 n0 r0 l, seekopName m0 ++ p_name n0 r0 <> 47 :: l).
  { intros m0 n0 r0 l X. destruct (seekopName m0) as [|c k] eqn:K; [destruct (S n0 r0) as [l0 L]; rewrite L in X; discriminate|]. apply (H m0). rewrite K. injection X as -> _. left. reflexivity. }
  assert (B : seekopName m ++ p_name n r = seekopName m' ++ p_name n' r' -> seekopName m = seekopName m' /\ p_name n r = p_name n' r').
  { intros X. destruct (S n r) as [l L]. destruct (S n' r') as [l' L']. rewrite L, L' in *. destruct (space_split _ _ _ _ (seekop_space m) (seekop_space m') X) as [-> ->]. auto. }
  unfold p_kind in E. destruct f, f'; cbn [app] in E; injection E as E; try (split; [reflexivity|apply B; exact E]); exfalso; [symmetry in E|]; eapply N; exact E.
Qed.
Lemma name_part : forall n n' r r', match n with Some n => ~ In 39 n | None => True end -> match n' with Some n => ~ In 39 n | None => True end -> p_name n r = p_name n' r' -> n = n' /\ r = r'.
Proof.
  intros [n|] [n'|] r r' H H' E; cbn in E; try discriminate.
  - injection E as E. destruct (name_split _ _ _ _ H H' E) as [-> ->]. auto.
  - injection E as ->. auto.
Qed.
Lemma type_part : forall t t' r r', (- 2 ^ 31 <= t < 2 ^ 31)%Z -> (- 2 ^ 31 <= t' < 2 ^ 31)%Z -> p_type t (10 :: r) = p_type t' (10 :: r') -> t = t' /\ r = r'.
Proof.
  intros t t' r r' H H' E. unfold p_type in E. destruct (Z.eqb_spec t 0) as [->|Z1], (Z.eqb_spec t' 0) as [->|Z2]; try discriminate E.
  - injection E as ->. auto.
  - apply app_inv_head in E. destruct (int_split _ _ _ _ H H' (nd 10 _ eq_refl) (nd 10 _ eq_refl) E) as [-> D]. injection D as ->. auto.
Qed.
Lemma line_split : forall adr adr' v v' r r', printable v -> printable v' -> st_print adr v ++ 10 :: r = st_print adr' v' ++ 10 :: r' -> tells v = tells v' /\ r = r'.
Proof.
  intros adr adr' v v' r r' [A B C D F] [A' B' C' D' F'] E. rewrite !print_parts in E by assumption. unfold tells.
  destruct (next_split _ _ _ _ _ _ _ _ A A' E) as [-> E1]. destruct (link_split _ _ _ _ _ _ B B' E1) as [-> E2]. destruct (kind_split _ _ _ _ _ _ _ _ E2) as [-> [-> E3]].
  destruct (name_part _ _ _ _ F F' E3) as [-> E4]. destruct (type_part _ _ _ _ C C' E4) as [-> ->]. auto.
Qed.
Lemma print_from_inj : forall a b i adr adr', Forall printable a -> Forall printable b -> atm_print_from i adr a = atm_print_from i adr' b -> map tells a = map tells b.
Proof.
  induction a as [|s a IH]; intros [|t b] i adr adr' Ha Hb E; cbn [atm_print_from map] in *; try reflexivity.
  - exfalso. unfold show_int in E. destruct (Z.ltb_spec (Z.of_nat i) 0); [lia|]. unfold show_unsigned in E. destruct (digits_head 32 (Z.to_N (Z.of_nat i)) ltac:(lia)) as [c [l [D _]]]. rewrite D in E. discriminate E.
  - exfalso. unfold show_int in E. destruct (Z.ltb_spec (Z.of_nat i) 0); [lia|]. unfold show_unsigned in E. destruct (digits_head 32 (Z.to_N (Z.of_nat i)) ltac:(lia)) as [c [l [D _]]]. rewrite D in E. discriminate E.
  - inversion Ha as [|? ? P1 P2]; subst. inversion Hb as [|? ? Q1 Q2]; subst. apply app_inv_head, app_inv_head in E. change endl with [10] in E. cbn [app] in E.
    destruct (line_split _ _ _ _ _ _ P1 Q1 E) as [T E2]. rewrite T. f_equal. exact (IH b (S i) adr adr' P2 Q2 E2).
Qed.

(** ** C84: the text printed for an automaton tells next state, linked state, the search in all descendants, operation, name and type of each state, if there are no
    ranges and no apostrophes in names: two automata printed as the same text are the same in these. *)
Theorem C84_told : forall adr adr' a b, Forall printable a -> Forall printable b -> atm_print adr a = atm_print adr' b -> map tells a = map tells b.
Proof. intros adr adr' a b Ha Hb E. exact (print_from_inj a b 0 adr adr' Ha Hb E). Qed.
Print Assumptions C84_told.
(** the automaton of the path  //aa  with an attribute of any name below *)
Definition c84_calls : list acall := [ANew; ANext 0 0 OpOpenTag (Some (str "aa", str "aa")) true; ANext 0 2 OpAttribute None false; AOutput 0 4 (m_op OpThisValue) 7 true 0 (-1)].
Definition c84_atm : vatm := match v_calls c84_calls [] with Ret [Some a] _ => a | _ => [] end.
Example C84_told_case : Forall printable c84_atm /\ atm_print (fun _ => []) c84_atm =
  str "0:  ~1 /None (null)" ++ endl ++ str "1:  ->2 //OpenTag 'aa'" ++ endl ++ str "2:  ~3 /None (null)" ++ endl ++ str "3:  ->4 /Attribute (null)" ++ endl ++
  str "4:  ~5 /None (null)" ++ endl ++ str "5:  //AttributeValue (null) =>7" ++ endl.
Proof. split; [|vm_compute; reflexivity]. unfold c84_atm. repeat (constructor; [constructor; cbn; try lia; try exact I; intuition discriminate|]). constructor. Qed.

(** *** With an apostrophe in a name the text does not tell how many states there are. *)
Theorem C84_apostrophe_refuted : exists a b, atm_print (fun _ => []) a = atm_print (fun _ => []) b /\ length a <> length b /\ Forall (fun v => (c_end (st_core (fst v)) <= 0)%Z) (a ++ b).
Proof.
  exists [(st_new, Some (str "x'" ++ endl ++ str "1:  /None 'y"))], [(st_new, Some (str "x")); (st_new, Some (str "y"))]. split; [vm_compute; reflexivity|]. split; [discriminate|]. repeat constructor; discriminate.
Qed.
Print Assumptions C84_apostrophe_refuted.

(** *** The text does not depend on addresses exactly if no state has a range. *)
Lemma print_length : forall a i, length (atm_print_from i (fun _ => [48]) a) = (length (atm_print_from i (fun _ => []) a) + length (filter (fun v : vstate => (0 <? c_end (st_core (fst v)))%Z) a))%nat.
Proof.
  induction a as [|v a IH]; intros i; [reflexivity|]. cbn [atm_print_from filter]. rewrite !app_length, IH. unfold st_print. rewrite !app_length. destruct (0 <? c_end (st_core (fst v)))%Z; rewrite ?app_length; cbn [length]; lia.
Qed.
Theorem C84_address : forall a : vatm, (forall adr adr', atm_print adr a = atm_print adr' a) <-> Forall (fun v : vstate => (c_end (st_core (fst v)) <= 0)%Z) a.
Proof.
  intros a. split.
  - intros H. pose proof (f_equal (@length N) (H (fun _ => [48]) (fun _ => []))) as L. unfold atm_print in L. rewrite print_length in L.
    assert (F : filter (fun v : vstate => (0 <? c_end (st_core (fst v)))%Z) a = []) by (apply length_zero_iff_nil; lia). clear -F. induction a as [|v a IH]; [constructor|]. cbn [filter] in F.
    destruct (Z.ltb_spec 0 (c_end (st_core (fst v)))); [discriminate|]. constructor; [lia|auto].
  - unfold atm_print. intros F adr adr'. generalize 0%nat. induction F as [|v a F1 F2 IH]; intros i; [reflexivity|]. cbn [atm_print_from]. rewrite (IH (S i)). f_equal. f_equal. f_equal.
    unfold st_print. destruct (Z.ltb_spec 0 (c_end (st_core (fst v)))); [lia|]. reflexivity.
Qed.
Print Assumptions C84_address.
(** So it does not for automata built without ranges with an end. *)
Lemma upd_forall : forall (P : vstate -> Prop) i f (a : vatm), Forall P a -> (forall s, P s -> P (f s)) -> Forall P (v_upd i f a).
Proof.
  intros P i f a F H. unfold v_upd. destruct (nth_error a i) as [s|] eqn:E; [|exact F]. pose proof (proj1 (Forall_forall P a) F s (nth_error_In _ _ E)) as Ps. clear E. revert i.
  induction F as [|x a F1 F2 IH]; intros [|i]; cbn [upd]; constructor; auto.
Qed.
Definition no_range (v : vstate) : Prop := (c_end (st_core (fst v)) <= 0)%Z.
Definition call_no_range (c : acall) : Prop := match c with AOutput _ _ _ _ _ _ e => (e <= 0)%Z | _ => True end.
Lemma new_no_range : Forall no_range [v_new].
Proof. constructor; [|constructor]. unfold no_range. cbn. lia. Qed.
Lemma alt_no_range : forall i a j a', v_alt i a = Ret tt (j, a') -> Forall no_range a -> Forall no_range a'.
Proof.
  intros i a j a' E F. unfold v_alt in E. destruct (nth_error a i) as [s|]; [|discriminate]. destruct (st_isempty (fst s)); [congruence|].
  destruct (atm_last _ _ _) as [x k|x|x| |]; try discriminate. injection E as _ <-. apply Forall_app. split; [|exact new_no_range]. apply upd_forall; [exact F|]. intros t Ht. exact Ht.
Qed.
Lemma call_no_range_ok : forall c V V' r, call_no_range c -> Forall (fun o => match o with Some a => Forall no_range a | None => True end) V -> v_call c V = Ret V' r ->
  Forall (fun o => match o with Some a => Forall no_range a | None => True end) V'.
Proof.
  intros c V V' r H F E.
  assert (G : forall k a, v_get V k = Some a -> Forall no_range a).
  { intros k a Ea. unfold v_get in Ea. destruct (nth_error V k) as [o|] eqn:Eo; [|discriminate]. subst o. exact (proj1 (Forall_forall _ V) F (Some a) (nth_error_In _ _ Eo)). }
  assert (U : forall k o, match o with Some a => Forall no_range a | None => True end -> Forall (fun o => match o with Some a => Forall no_range a | None => True end) (upd k o V)).
  { intros k o Ho. clear E G. revert k. induction F as [|x V F1 F2 IH]; intros [|k]; cbn [upd]; constructor; auto. }
  assert (S : forall i (a : vatm), Forall no_range a -> Forall no_range (snd (match a with [] => (O, [v_new]) | _ => (i, a) end))).
  { intros i [|x a] Fa; [exact new_no_range|exact Fa]. }
  destruct c as [|k|k j|k|k i op name follow|k i m t follow b e]; cbn [v_call] in E.
  - injection E as <- _. apply Forall_app. split; [exact F|]. repeat constructor.
  - destruct (v_get V k) as [a|] eqn:Ea; [|discriminate]. injection E as <- _. apply Forall_app. split; [exact F|]. constructor; [eapply G; eauto|constructor].
  - destruct (v_get V k) as [a0|]; [|discriminate]. destruct (v_get V j) as [a|] eqn:Ea; [|discriminate]. injection E as <- _. apply U. eapply G; eauto.
  - destruct (v_get V k) as [a|]; [|discriminate]. injection E as <- _. apply U. exact I.
  - destruct (v_get V k) as [a|] eqn:Ea; [|discriminate]. apply G in Ea. unfold v_defineNext in E. pose proof (S i a Ea) as Sa. destruct (match a with [] => (O, [v_new]) | _ => (i, a) end) as [i1 a1]. cbn [snd] in Sa.
    destruct (atm_find _ _ _ _ _ _) as [x [[n|]|]|x|x| |]; try discriminate E; [injection E as <- _; apply U; exact Sa|].
    destruct (atm_last _ _ _) as [y i2|y|y| |]; try discriminate E. destruct (v_alt i2 a1) as [[] [j a2]|u|u| |] eqn:EA; cbn [bind] in E; try discriminate E. cbn [fst snd] in E. injection E as <- _. apply U.
    apply upd_forall; [apply Forall_app; split; [exact (alt_no_range _ _ _ _ EA Sa)|exact new_no_range]|]. intros s Hs. exact Hs.
  - destruct (v_get V k) as [a|] eqn:Ea; [|discriminate]. apply G in Ea. unfold v_defineOutput in E. pose proof (S i a Ea) as Sa. destruct (match a with [] => (O, [v_new]) | _ => (i, a) end) as [i1 a1]. cbn [snd] in Sa.
    destruct (Nat.leb _ _); [injection E as <- _; apply U; exact Sa|]. destruct (v_alt i1 a1) as [[] [j a2]|u|u| |] eqn:EA; cbn [bind] in E; try discriminate E. cbn [fst snd] in E. injection E as <- _. apply U.
    apply upd_forall; [exact (alt_no_range _ _ _ _ EA Sa)|]. intros s Hs. exact H.
Qed.
Theorem C84_built : forall cs V l k a, v_calls cs [] = Ret V l -> v_get V k = Some a -> Forall call_no_range cs -> forall adr adr', atm_print adr a = atm_print adr' a.
Proof.
  intros cs V l k a E Ea F. apply C84_address.
  assert (W : Forall (fun o => match o with Some a => Forall no_range a | None => True end) V).
  { assert (W0 : Forall (fun o : option vatm => match o with Some a => Forall no_range a | None => True end) []) by constructor. clear Ea. revert E W0. generalize (@nil (option vatm)). revert V l. induction F as [|c cs F1 F2 IH]; intros V l V0 E W0; cbn [v_calls] in E; [congruence|].
    destruct (v_call c V0) as [V1 r|V1|V1| |] eqn:EC; cbn [bind] in E; try discriminate E. destruct (v_calls cs V1) as [V2 l2|V2|V2| |] eqn:ES; cbn [bind] in E; try discriminate E. injection E as <- _.
    eapply IH; [exact ES|]. eapply call_no_range_ok; eauto. }
  unfold v_get in Ea. destruct (nth_error V k) as [o|] eqn:Eo; [|discriminate]. subst o. exact (proj1 (Forall_forall _ V) W (Some a) (nth_error_In _ _ Eo)).
Qed.
Print Assumptions C84_built.
Example C84_built_case : Forall call_no_range c84_calls.
Proof. repeat constructor; discriminate. Qed.
(** With a range the address of a stream on the stack is part of the text. *)
Theorem C84_range_refuted : exists cs a, (exists l, v_calls cs [] = Ret [Some a] l) /\ atm_print (fun _ => str "0x1") a <> atm_print (fun _ => str "0x2") a.
Proof. exists [ANew; AOutput 0 0 (m_op OpContent) 7 false 0 2]. eexists. split; [eexists; vm_compute; reflexivity|]. vm_compute. discriminate. Qed.
Print Assumptions C84_range_refuted.
