(** Paths defined while a selector is in use (proofs). *)
From Coq Require Import Lia.
From Verif Require Import Base Charset XmlScanner PathAtm PathSelect PathSpec PathExtra PathProg PathInspect InspectSpec PathRun1 PathRun8 InspectSafe SelSafe SelGrowSpec.

Inductive chain (a : atm) : nat -> nat -> Prop :=
| ch_refl i : chain a i i
| ch_step i st j k : nth_error a i = Some st -> st_link st = Some j -> chain a j k -> chain a i k.
Definition key_of (cs : charset) (n : option (list N)) (key : option (list N)) : Prop := match n with None => key = None | Some m => exists k, static_key cs m = Ret tt k /\ key = Some k end.
Definition fitting (op : pop) (fo : bool) (key : option (list N)) (st : pstate) : bool :=
  match st_key st, key with
  | Some k, k' => Bool.eqb (c_follow (st_core st)) fo && m_eqb (m_op op) (c_mask (st_core st)) && key_eqb k match k' with Some k' => k' | None => [] end
  | None, _ => false
  end.
Definition linked (j : nat) (new : list pstate) (a : atm) : atm := atm_upd j (st_setLink (length a)) a ++ new.
Inductive astep (cs : charset) : lab -> atm -> nat -> atm -> nat -> Prop :=
| as_found op fo n key a i k st m : key_of cs n key -> chain a i k -> nth_error a k = Some st -> fitting op fo key st = true -> st_next st = Some m -> astep cs (LStep op fo n) a i a m
| as_next op fo n key a i j sj : key_of cs n key -> (forall k st, chain a i k -> nth_error a k = Some st -> fitting op fo key st = false) -> chain a i j -> nth_error a j = Some sj -> st_link sj = None ->
    astep cs (LStep op fo n) a i (linked j [st_defineNext op key (S (length a)) fo st_new; st_new] a) (S (length a))
| as_out a i j sj m t fo b e : chain a i j -> nth_error a j = Some sj -> st_link sj = None ->
    astep cs LOut a i (linked j [st_defineOutput m t fo b e st_new] a) (length a).
Inductive asteps (cs : charset) : list lab -> atm -> nat -> atm -> nat -> Prop :=
| as_nil a i : asteps cs [] a i a i
| as_cons l ls a i a1 i1 a2 i2 : astep cs l a i a1 i1 -> asteps cs ls a1 i1 a2 i2 -> asteps cs (l :: ls) a i a2 i2.

(** ** the calls do these steps *)
Lemma up_nonempty a i st : atm_up a -> nth_error a i = Some st -> st_isempty st = false.
Proof.
  intros W E. destruct (W i st E) as [A _]. unfold st_isempty. destruct (st_next st) as [n|]; [|rewrite !andb_false_r; reflexivity].
  specialize (A n eq_refl). replace (is_zero (Some n)) with false; [rewrite !andb_false_r; reflexivity|]. destruct n; [lia|reflexivity].
Qed.
Lemma last_chain a : atm_up a -> forall f i, (i < length a)%nat -> (length a - i < f)%nat -> exists j st, atm_last f i a = Ret a j /\ chain a i j /\ nth_error a j = Some st /\ st_link st = None.
Proof.
  intros W. induction f as [|f IH]; intros i Hi Hf; [lia|]. cbn [atm_last].
  destruct (nth_error a i) as [st|] eqn:E; [|apply nth_error_None in E; lia].
  destruct (st_link st) as [j|] eqn:L; [|exists i, st; repeat split; auto; constructor].
  destruct (W i st E) as [_ [B _]]. specialize (B j L). destruct (IH j) as (k & sk & E1 & H1 & H2); [lia|lia|].
  exists k, sk. split; [exact E1|]. split; [eapply ch_step; eauto|exact H2].
Qed.
Lemma find_chain a op key fo : atm_up a -> forall f i, (i < length a)%nat -> (length a - i < f)%nat ->
  (exists k st m, atm_find f op key fo (Some i) a = Ret a (Some (Some m)) /\ chain a i k /\ nth_error a k = Some st /\ fitting op fo key st = true /\ st_next st = Some m) \/
  (atm_find f op key fo (Some i) a = Ret a None /\ forall k st, chain a i k -> nth_error a k = Some st -> fitting op fo key st = false).
Proof.
  intros W. induction f as [|f IH]; intros i Hi Hf; [lia|]. cbn [atm_find].
  destruct (nth_error a i) as [st|] eqn:E; [|apply nth_error_None in E; lia]. destruct (W i st E) as [A [B C]].
  change (match st_key st with Some k => Bool.eqb (c_follow (st_core st)) fo && m_eqb (m_op op) (c_mask (st_core st)) && key_eqb k match key with Some k' => k' | None => [] end | None => false end) with (fitting op fo key st).
  destruct (fitting op fo key st) eqn:Hb.
  - left. unfold fitting in Hb. destruct (st_key st) as [k|] eqn:K; [|discriminate]. destruct (st_next st) as [j|] eqn:Nx; [|exfalso; apply C; [discriminate|reflexivity]].
    exists i, st, j. split; [reflexivity|]. split; [constructor|]. split; [exact E|]. split; [unfold fitting; rewrite K; exact Hb|exact Nx].
  - destruct (st_link st) as [j|] eqn:L.
    + specialize (B j eq_refl). destruct (IH j ltac:(lia) ltac:(lia)) as [(k & sk & m & E1 & Ch & R)|[E1 R]]; [left|right].
      * exists k, sk, m. split; [exact E1|]. split; [eapply ch_step; eauto|exact R].
      * split; [exact E1|]. intros k sk Ch Ek. inversion Ch; subst; [congruence|]. assert (st0 = st) by congruence. subst st0. assert (j0 = j) by congruence. subst j0. eapply R; eauto.
    + destruct f as [|f]; [lia|]. right. split; [reflexivity|]. intros k sk Ch Ek. inversion Ch; subst; [congruence|]. assert (st0 = st) by congruence. subst st0. congruence.
Qed.
Lemma upd_snoc {A} (x : A) l y : upd (length l) x (l ++ [y]) = l ++ [x].
Proof. induction l as [|z l IH]; cbn; [reflexivity|]. rewrite IH. reflexivity. Qed.
Lemma upd_snoc2 {A} (x : A) l y z : upd (length l) x (l ++ [y; z]) = l ++ [x; z].
Proof. induction l as [|u l IH]; cbn; [reflexivity|]. rewrite IH. reflexivity. Qed.
Lemma alt_chain a i : atm_up a -> (i < length a)%nat -> exists j sj, atm_alt i a = Ret (linked j [st_new] a) (length a) /\ chain a i j /\ nth_error a j = Some sj /\ st_link sj = None.
Proof.
  intros W Hi. unfold atm_alt. destruct (nth_error a i) as [st|] eqn:E; [|apply nth_error_None in E; lia]. rewrite (up_nonempty _ _ _ W E).
  destruct (last_chain a W (S (length a)) i Hi ltac:(lia)) as (j & sj & -> & Ch & Ej & L). cbn [bind]. exists j, sj. split; [reflexivity|]. auto.
Qed.
Lemma linked_len j new a : length (linked j new a) = (length a + length new)%nat.
Proof. unfold linked. rewrite app_length, atm_upd_len. reflexivity. Qed.
Lemma linked_at j a st : atm_upd (length a) st (linked j [st_new] a) = linked j [st st_new] a.
Proof.
  unfold linked. unfold atm_upd at 1. rewrite nth_error_app2 by (rewrite atm_upd_len; lia). rewrite atm_upd_len, Nat.sub_diag. cbn [nth_error].
  rewrite <- (atm_upd_len j (st_setLink (length a)) a) at 1. apply upd_snoc.
Qed.
Lemma linked_at2 j a st : atm_upd (length a) st (linked j [st_new; st_new] a) = linked j [st st_new; st_new] a.
Proof.
  unfold linked. unfold atm_upd at 1. rewrite nth_error_app2 by (rewrite atm_upd_len; lia). rewrite atm_upd_len, Nat.sub_diag. cbn [nth_error].
  rewrite <- (atm_upd_len j (st_setLink (length a)) a) at 1. apply upd_snoc2.
Qed.
Lemma next_steps cs a i op n key fo : key_of cs n key -> atm_up (nrm a) -> (i < length (nrm a))%nat -> exists a' m, atm_defineNext i op key fo a = Ret a' m /\ nrm a' = a' /\ astep cs (LStep op fo n) (nrm a) i a' m.
Proof.
  intros Hk W Hi. unfold atm_defineNext.
  assert (E0 : (match a with [] => (O, [st_new]) | _ => (i, a) end) = (i, nrm a)) by (destruct a; [cbn in Hi; replace i with O by lia|]; reflexivity).
  rewrite E0. clear E0. remember (nrm a) as b eqn:Hb. clear Hb a.
  destruct (find_chain b op key fo W (S (length b)) i Hi ltac:(lia)) as [(k & st & m & E1 & Ch & Ek & Ft & Nx)|[E1 No]]; rewrite E1; cbn [bind].
  - exists b, m. split; [reflexivity|]. split; [apply nrm_ne; lia|]. eapply as_found; eauto.
  - destruct (last_chain b W (S (length b)) i Hi ltac:(lia)) as (j & sj & -> & Ch & Ej & L). cbn [bind].
    unfold atm_alt. rewrite Ej, (up_nonempty _ _ _ W Ej). assert (Hj : (j < length b)%nat) by (apply nth_error_Some; congruence).
    replace (atm_last (S (length b)) j b) with (Ret (A := nat) b j) by (cbn [atm_last]; rewrite Ej, L; reflexivity). cbn [bind].
    assert (Q : (length ((atm_upd j (st_setLink (length b)) b ++ [st_new]) ++ [st_new]) - 1 = S (length b))%nat) by (rewrite !app_length, atm_upd_len; cbn [length]; lia). rewrite Q.
    rewrite <- app_assoc. cbn [app]. fold (linked j [st_new; st_new] b). rewrite linked_at2. eexists. eexists. split; [reflexivity|].
    split; [apply nrm_ne; rewrite linked_len; lia|]. eapply as_next; eauto.
Qed.
Lemma out_steps cs a i m t fo b e : atm_up (nrm a) -> (i < length (nrm a))%nat -> exists a' j, atm_defineOutput i m t fo b e a = Ret a' j /\ nrm a' = a' /\ astep cs LOut (nrm a) i a' j.
Proof.
  intros W Hi. unfold atm_defineOutput.
  assert (E0 : (match a with [] => (O, [st_new]) | _ => (i, a) end) = (i, nrm a)) by (destruct a; [cbn in Hi; replace i with O by lia|]; reflexivity).
  rewrite E0. clear E0. remember (nrm a) as c eqn:Hc. clear Hc a. replace (Nat.leb (length c) i) with false by (symmetry; apply Nat.leb_gt; exact Hi).
  destruct (alt_chain c i W Hi) as (j & sj & -> & Ch & Ej & L). cbn [bind]. eexists. eexists. split; [reflexivity|]. rewrite linked_at.
  split; [apply nrm_ne; rewrite linked_len; lia|]. eapply as_out; eauto.
Qed.

Lemma steps_one cs l a i a' i' : astep cs l a i a' i' -> asteps cs [l] a i a' i'.
Proof. intro H. eapply as_cons; [exact H|constructor]. Qed.
Lemma steps_app cs : forall ls ls' a i a1 i1 a2 i2, asteps cs ls a i a1 i1 -> asteps cs ls' a1 i1 a2 i2 -> asteps cs (ls ++ ls') a i a2 i2.
Proof. intros ls ls' a i a1 i1 a2 i2 H. induction H; intro K; [exact K|]. cbn. eapply as_cons; eauto. Qed.
Definition moved cs (ls : list lab) (a : atm) (p : pelem) (a' : atm) (p' : pelem) : Prop := asteps cs ls (nrm a) (pe_idx p) (nrm a') (pe_idx p') /\ (a' = a \/ nrm a' = a').
Lemma select_steps cs op n p a : pos_up a p -> (forall m, n = Some m -> name_read cs m) ->
  exists a' p', pe_doSelect cs op n p a = Ret a' p' /\ pos_up a' p' /\ moved cs [LStep op (pe_follow p) n] a p a' p' /\ pe_follow p' = false.
Proof.
  intros P Hn. destruct (doSelect_up cs op n p a P Hn) as (a1 & p1 & E & P1 & _). exists a1, p1. split; [exact E|]. split; [exact P1|]. destruct P as [W Hp]. unfold pe_doSelect in E.
  assert (K : exists key, key_of cs n key /\ match n with
    | None => Ret a None
    | Some v => match static_key cs v with Ret _ k => Ret a (Some k) | Throw _ => Throw a | Jump _ => Jump a | Undef => Undef | Fuel => Fuel end
    end = Ret a key).
  { destruct n as [v|]; [|exists None; split; reflexivity]. destruct (Hn v eq_refl) as [k Ek]. exists (Some k). rewrite Ek. split; [exists k; auto|reflexivity]. }
  destruct K as (key & Hk & Ek). rewrite Ek in E. cbn [bind] in E. destruct (next_steps cs a (pe_idx p) op n key (pe_follow p) Hk W Hp) as (a' & m & En & Nn & St). rewrite En in E. cbn [bind] in E. injection E as <- <-.
  split; [|reflexivity]. split; [|right; exact Nn]. rewrite Nn. cbn [pe_selected pe_idx]. apply steps_one. exact St.
Qed.
Lemma doRange_follow b e p : pe_follow (pe_doRange b e p) = pe_follow p.
Proof. unfold pe_doRange. destruct (_ =? _)%Z; [reflexivity|]. destruct (_ <? _)%Z; [reflexivity|]. destruct (_ <? _)%Z; reflexivity. Qed.
Lemma moved_nil cs a p p' : pe_idx p' = pe_idx p -> moved cs [] a p a p'.
Proof. intro E. split; [rewrite E; constructor|left; reflexivity]. Qed.
Lemma moved_app cs ls ls' a p a1 p1 a2 p2 : moved cs ls a p a1 p1 -> moved cs ls' a1 p1 a2 p2 -> moved cs (ls ++ ls') a p a2 p2.
Proof. intros [A B] [C D]. split; [eapply steps_app; eauto|]. destruct D as [->|D]; [exact B|right; exact D]. Qed.
Lemma ops_steps cs : forall os p a, pos_up a p -> (forall n, In n (flat_map op_names os) -> name_read cs n) -> Forall op_fits os ->
  exists a' p', pe_ops cs os p a = Ret a' p' /\ pos_up a' p' /\ moved cs (steps_of (pe_follow p) os) a p a' p'.
Proof.
  induction os as [|o os IH]; intros p a P Hn Hf; cbn [pe_ops flat_map steps_of] in *; [exists a, p; split; [reflexivity|]; split; [exact P|apply moved_nil; reflexivity]|]. inversion Hf as [|? ? Hf1 Hf2]; subst.
  assert (Hn2 : forall n, In n (flat_map op_names os) -> name_read cs n) by (intros n H; apply Hn, in_or_app; right; exact H).
  assert (Hn1 : forall n, In n (op_names o) -> name_read cs n) by (intros n H; apply Hn, in_or_app; left; exact H). clear Hn Hf.
  assert (Same : forall q, pe_idx q = pe_idx p -> exists a' p', (let! (a, p) := Ret a q in pe_ops cs os p a) = Ret a' p' /\ pos_up a' p' /\ moved cs (steps_of (pe_follow q) os) a p a' p').
  { intros q Eq. cbn [bind]. destruct (IH q a) as (a' & p' & E & P' & M); [destruct P as [W Hp]; split; [exact W|rewrite Eq; exact Hp]|exact Hn2|exact Hf2|]. exists a', p'. split; [exact E|]. split; [exact P'|].
    change (steps_of (pe_follow q) os) with ([] ++ steps_of (pe_follow q) os). eapply moved_app; [apply moved_nil; exact Eq|exact M]. }
  assert (Cons : forall ls fo a1 p1, pos_up a1 p1 -> moved cs ls a p a1 p1 -> pe_follow p1 = fo -> exists a' p', pe_ops cs os p1 a1 = Ret a' p' /\ pos_up a' p' /\ moved cs (ls ++ steps_of fo os) a p a' p').
  { intros ls fo a1 p1 P1 M1 <-. destruct (IH p1 a1 P1 Hn2 Hf2) as (a' & p' & E & P' & M). exists a', p'. split; [exact E|]. split; [exact P'|]. eapply moved_app; eauto. }
  assert (Ranged : forall b e, exists a' p', (let! (a, p) := Ret a (pe_doRange b e p) in pe_ops cs os p a) = Ret a' p' /\ pos_up a' p' /\ moved cs (steps_of (pe_follow p) os) a p a' p').
  { intros b e. rewrite <- (doRange_follow b e p). apply Same. apply doRange_idx. }
  destruct o as [n| |n|n v| | |i|i|i j|i|t]; cbn [pe_op op_names op_fits] in *.
  - unfold pe_selectTag. destruct (select_steps cs OpOpenTag n p a P) as (a1 & p1 & -> & P1 & M1 & F1); [intros m ->; apply Hn1; left; reflexivity|]. cbn [bind]. exact (Cons _ _ _ _ P1 M1 F1).
  - unfold pe_selectCloseTag. destruct (select_steps cs OpCloseTag None p a P) as (a1 & p1 & -> & P1 & M1 & F1); [discriminate|]. cbn [bind]. exact (Cons _ _ _ _ P1 M1 F1).
  - unfold pe_selectAttribute. destruct (select_steps cs OpAttribute n p a P) as (a1 & p1 & -> & P1 & M1 & F1); [intros m ->; apply Hn1; left; reflexivity|]. cbn [bind]. exact (Cons _ _ a1 (pe_output OpThisValue p1) P1 M1 F1).
  - unfold pe_ifAttribute. destruct (select_steps cs OpAttribute n p a P) as (a1 & p1 & -> & P1 & M1 & F1); [intros m ->; apply Hn1; left; reflexivity|]. cbn [bind].
    destruct (select_steps cs OpThisValue v p1 a1 P1) as (a2 & p2 & -> & P2 & M2 & F2); [intros m ->; apply Hn1; apply in_or_app; right; left; reflexivity|]. cbn [bind]. rewrite F1 in M2.
    exact (Cons _ _ _ _ P2 (moved_app _ _ _ _ _ _ _ _ _ M1 M2) F2).
  - apply (Same (pe_selectContent p)). reflexivity.
  - apply (Same (pe_doFollow p)). reflexivity.
  - unfold pe_TO, pe_doCount. destruct (0 <=? i)%Z; [replace (i =? int_max)%Z with false by (symmetry; apply Z.eqb_neq; exact Hf1)|]; cbn [pe_opt]; apply Ranged.
  - apply Ranged.
  - unfold pe_RANGE. destruct (0 <=? j)%Z; [replace (j =? int_max)%Z with false by (symmetry; apply Z.eqb_neq; exact Hf1)|]; cbn [pe_opt]; apply Ranged.
  - unfold pe_INDEX. replace (i =? int_max)%Z with false by (symmetry; apply Z.eqb_neq; exact Hf1). cbn [pe_opt]. apply Ranged.
  - unfold pe_assignType. destruct P as [W Hp]. destruct (defineOutput_up a (pe_idx p) (pe_print p) t (pe_follow p) (pe_start p) (pe_end p) W Hp) as (a0 & i0 & E0 & H1 & H2 & _).
    destruct (out_steps cs a (pe_idx p) (pe_print p) t (pe_follow p) (pe_start p) (pe_end p) W Hp) as (a' & j & E & Nn & St). rewrite E in E0. injection E0 as <- <-. rewrite E. cbn [bind].
    refine (Cons [LOut] (pe_follow p) a' (mkPe j _ _ _ _) _ _ _); [split; assumption| |reflexivity]. split; [|right; exact Nn]. rewrite Nn. apply steps_one. exact St.
Qed.

(** ** what the steps keep *)
Record same (U : nat -> bool) (a a' : atm) : Prop := {
  sm_len : (length a <= length a')%nat;
  sm_st : forall k st, nth_error a k = Some st -> exists st', nth_error a' k = Some st' /\ st_core st' = st_core st /\ st_key st' = st_key st /\ st_next st' = st_next st /\ (U k = true -> st_link st' = st_link st) }.
Lemma same_refl U a : same U a a.
Proof. constructor; [lia|]. intros k st E. exists st. auto. Qed.
Lemma linked_nth j new a k st : nth_error a k = Some st -> nth_error (linked j new a) k = Some (if Nat.eqb j k then st_setLink (length a) st else st).
Proof.
  intro E. unfold linked. rewrite nth_error_app1 by (rewrite atm_upd_len; apply nth_error_Some; congruence). rewrite atm_upd_nth, E. destruct (Nat.eqb j k); reflexivity.
Qed.
Lemma linked_new j new a k : nth_error (linked j new a) (length a + k) = nth_error new k.
Proof. unfold linked. rewrite nth_error_app2 by (rewrite atm_upd_len; lia). rewrite atm_upd_len. f_equal. lia. Qed.
Lemma same_linked U a a' j new : same U a a' -> ((j < length a)%nat -> U j = false) -> same U a (linked j new a').
Proof.
  intros [L H] Hj. constructor; [rewrite linked_len; lia|]. intros k st E. destruct (H k st E) as (st' & E' & C & K & Nx & Lk). eexists. split; [apply linked_nth; exact E'|].
  destruct (Nat.eqb_spec j k) as [->|]; [|auto]. cbn [st_setLink st_core st_key st_next st_link]. split; [exact C|]. split; [exact K|]. split; [exact Nx|]. intro Q. rewrite Hj in Q; [discriminate|apply nth_error_Some; congruence].
Qed.
(** states marked are those of the first list *)
Definition marked (mk : nat -> bool) (a : atm) : Prop := mk 0%nat = true /\
  forall i st, nth_error a i = Some st -> (forall j, st_link st = Some j -> mk j = mk i) /\ (forall n, st_next st = Some n -> mk n = false).
Lemma chain_mark mk a i k : marked mk a -> chain a i k -> mk k = mk i.
Proof. intros [_ M] C. induction C; [reflexivity|]. rewrite IHC. apply (M i st); assumption. Qed.
Lemma chain_up a i k : atm_up a -> chain a i k -> (i <= k)%nat.
Proof. intros W C. induction C as [|i st j k E L C IH]; [lia|]. destruct (W i st E) as [_ [B _]]. specialize (B j L). lia. Qed.
Definition extend (mk : nat -> bool) (n : nat) (b : bool) (k : nat) : bool := if Nat.ltb k n then mk k else if Nat.eqb k n then b else false.
Lemma marked_linked mk a j sj new : atm_up a -> marked mk a -> nth_error a j = Some sj -> st_link sj = None ->
  (forall k st, nth_error new k = Some st -> st_link st = None /\ (st_next st = None \/ st_next st = Some (S (length a)))) -> marked (extend mk (length a) (mk j)) (linked j new a).
Proof.
  intros W [M0 M] Ej Lj Hn. assert (Hj : (j < length a)%nat) by (apply nth_error_Some; congruence). unfold extend. split; [destruct (Nat.ltb_spec 0 (length a)); [exact M0|lia]|].
  intros i st E. destruct (Nat.lt_ge_cases i (length a)) as [Hi|Hi].
  - destruct (nth_error a i) as [si|] eqn:Ei; [|apply nth_error_None in Ei; lia]. rewrite (linked_nth _ _ _ _ _ Ei) in E. injection E as <-. destruct (W i si Ei) as [A [B _]]. destruct (M i si Ei) as [M1 M2].
    assert (Ni : forall n, st_next si = Some n -> (if Nat.ltb n (length a) then mk n else if Nat.eqb n (length a) then mk j else false) = false).
    { intros n En. destruct (Nat.ltb_spec n (length a)); [apply M2; exact En|]. specialize (A n En). lia. }
    destruct (Nat.ltb_spec i (length a)); [|lia]. destruct (Nat.eqb_spec j i) as [->|].
    + split; [|exact Ni]. cbn [st_setLink st_link]. intros x [= <-]. rewrite Nat.ltb_irrefl, Nat.eqb_refl. reflexivity.
    + split; [|exact Ni]. intros x Ex. specialize (B x Ex). destruct (Nat.ltb_spec x (length a)); [apply M1; exact Ex|lia].
  - replace i with (length a + (i - length a))%nat in E by lia. rewrite linked_new in E. destruct (Hn _ _ E) as [Ln Nn]. split; intros x Ex; [congruence|]. destruct Nn as [Nn|Nn]; [congruence|]. assert (x = S (length a)) by congruence. subst x.
    destruct (Nat.ltb_spec (S (length a)) (length a)); [lia|]. destruct (Nat.eqb_spec (S (length a)) (length a)); [lia|reflexivity].
Qed.
Lemma up_linked a j sj new : atm_up a -> nth_error a j = Some sj -> (0 < length new)%nat ->
  (forall k st, nth_error new k = Some st -> st_up (length a + length new) (length a + k) st) -> atm_up (linked j new a).
Proof.
  intros W Ej Hl Hn i st E. rewrite linked_len. assert (Hj : (j < length a)%nat) by (apply nth_error_Some; congruence). destruct (Nat.lt_ge_cases i (length a)) as [Hi|Hi].
  - destruct (nth_error a i) as [si|] eqn:Ei; [|apply nth_error_None in Ei; lia]. rewrite (linked_nth _ _ _ _ _ Ei) in E. injection E as <-. destruct (W i si Ei) as [A [B C]].
    destruct (Nat.eqb_spec j i) as [->|]; (split; [|split; [|exact C]]); cbn [st_setLink st_next st_link]; intros x Ex; try (specialize (A x Ex); lia); try (specialize (B x Ex); lia). injection Ex as <-. lia.
  - replace i with (length a + (i - length a))%nat in E by lia. rewrite linked_new in E. replace i with (length a + (i - length a))%nat by lia. apply Hn. exact E.
Qed.
(** the three kinds of steps in one: the automaton is as before, or states are linked *)
Lemma astep_cases cs l a i a' m : astep cs l a i a' m -> atm_up a -> (i < length a)%nat ->
  (a' = a /\ exists op fo n key k st, l = LStep op fo n /\ key_of cs n key /\ chain a i k /\ nth_error a k = Some st /\ fitting op fo key st = true /\ st_next st = Some m) \/
  (exists j sj new, a' = linked j new a /\ chain a i j /\ nth_error a j = Some sj /\ st_link sj = None /\ (length a <= m < length a + length new)%nat /\
    (forall k st, nth_error new k = Some st -> st_link st = None /\ (st_next st = None \/ st_next st = Some (S (length a)))) /\
    (forall k st, nth_error new k = Some st -> st_up (length a + length new) (length a + k) st) /\
    match l with
    | LStep op fo n => m = S (length a) /\ exists key, key_of cs n key /\ (forall k st, chain a i k -> nth_error a k = Some st -> fitting op fo key st = false) /\ new = [st_defineNext op key (S (length a)) fo st_new; st_new]
    | LOut => m = length a /\ exists k t fo b e, new = [st_defineOutput k t fo b e st_new]
    end).
Proof.
  intros H W Hi. destruct H as [op fo n key a i k st m Hk Ch Ek Ft Nx|op fo n key a i j sj Hk No Ch Ej Lj|a i j sj m t fo b e Ch Ej Lj].
  - left. split; [reflexivity|]. exists op, fo, n, key, k, st. auto 10.
  - right. exists j, sj, [st_defineNext op key (S (length a)) fo st_new; st_new]. split; [reflexivity|]. split; [exact Ch|]. split; [exact Ej|]. split; [exact Lj|]. split; [cbn; lia|].
    split; [intros [|[|k]] st E; [| |destruct k; discriminate]; injection E as <-; cbn; auto|].
    split; [intros [|[|k]] st E; [| |destruct k; discriminate]; injection E as <-; [|apply st_up_new]|].
    + split; [|split]; cbn [st_defineNext st_next st_link st_key length]; [intros x [= <-]; lia|discriminate|discriminate].
    + split; [reflexivity|]. exists key. auto.
  - right. exists j, sj, [st_defineOutput m t fo b e st_new]. split; [reflexivity|]. split; [exact Ch|]. split; [exact Ej|]. split; [exact Lj|]. split; [cbn; lia|].
    split; [intros [|k] st E; [|destruct k; discriminate]; injection E as <-; cbn; auto|].
    split; [intros [|k] st E; [|destruct k; discriminate]; injection E as <-; cbn; split; [|split]; cbn; try discriminate; contradiction|]. split; [reflexivity|]. eauto 10.
Qed.

(** ** sequences of steps, and of paths *)
Inductive csteps (cs : charset) : list (list lab) -> atm -> atm -> Prop :=
| cs_nil a : csteps cs [] a a
| cs_cons ls lss a a1 a2 i : asteps cs ls (nrm a) 0 (nrm a1) i -> a1 = a \/ nrm a1 = a1 -> csteps cs lss a1 a2 -> csteps cs (ls :: lss) a a2.
Lemma add_steps cs : forall ps a, atm_up (nrm a) -> (forall n, In n (prog_names ps) -> name_read cs n) -> Forall (Forall op_fits) ps ->
  exists a', add_paths cs ps a = Ret a' tt /\ csteps cs (map (steps_of false) ps) a a'.
Proof.
  induction ps as [|os ps IH]; intros a W Hn Hf; cbn [add_paths map]; [exists a; split; [reflexivity|constructor]|]. unfold prog_names in *. cbn [flat_map] in Hn. inversion Hf; subst.
  assert (P : pos_up a pe_root) by (split; [exact W|destruct a; cbn; lia]).
  destruct (ops_steps cs os pe_root a P) as (a1 & p1 & -> & [W1 _] & M1 & M2); [intros n H; apply Hn, in_or_app; left; exact H|assumption|]. cbn [bind].
  destruct (IH a1 W1) as (a' & E & S); [intros n H; apply Hn, in_or_app; right; exact H|assumption|]. exists a'. split; [exact E|]. eapply cs_cons; eauto.
Qed.
Lemma csteps_app cs : forall l1 l2 a a1 a2, csteps cs l1 a a1 -> csteps cs l2 a1 a2 -> csteps cs (l1 ++ l2) a a2.
Proof. intros l1 l2 a a1 a2 H. induction H; intro K; [exact K|]. cbn. eapply cs_cons; eauto. Qed.
Lemma step_up cs l a i a' m : astep cs l a i a' m -> atm_up a -> (i < length a)%nat -> atm_up a' /\ (m < length a')%nat /\ (length a <= length a')%nat.
Proof.
  intros H W Hi. destruct (astep_cases _ _ _ _ _ _ H W Hi) as [(-> & op & fo & n & key & k & st & _ & _ & _ & Ek & _ & Nx)|(j & sj & new & -> & Ch & Ej & Lj & Hm & _ & Up & _)].
  - split; [exact W|]. destruct (W k st Ek) as [A _]. specialize (A m Nx). lia.
  - split; [|rewrite linked_len; lia]. eapply up_linked; eauto. lia.
Qed.
Lemma nrm_len a : (0 < length (nrm a))%nat. Proof. destruct a; cbn; lia. Qed.
Lemma mono_same U V a a' : same U a a' -> (forall k, (k < length a)%nat -> V k = true -> U k = true) -> same V a a'.
Proof. intros [L H] HV. constructor; [exact L|]. intros k st E. destruct (H k st E) as (st' & E' & C & K & Nx & Lk). exists st'. split; [exact E'|]. split; [exact C|]. split; [exact K|]. split; [exact Nx|]. intro Q. apply Lk, HV; [apply nth_error_Some; congruence|exact Q]. Qed.

(** marks and keys of all automata built *)
Record built (K : list N -> Prop) (mk : nat -> bool) (a : atm) : Prop := { bu_up : atm_up a; bu_mark : marked mk a; bu_key : forall k st key, nth_error a k = Some st -> st_key st = Some key -> K key }.
Definition lab_keys (cs : charset) (K : list N -> Prop) (l : lab) : Prop := match l with LStep _ _ (Some n) => forall k, static_key cs n = Ret tt k -> K k | _ => True end.
Lemma new_key (K : list N -> Prop) j new a : (forall k st key, nth_error a k = Some st -> st_key st = Some key -> K key) -> (forall k st key, nth_error new k = Some st -> st_key st = Some key -> K key) ->
  forall k st key, nth_error (linked j new a) k = Some st -> st_key st = Some key -> K key.
Proof.
  intros H Hn k st key E Q. destruct (Nat.lt_ge_cases k (length a)) as [Hk|Hk].
  - destruct (nth_error a k) as [sk|] eqn:Ek; [|apply nth_error_None in Ek; lia]. rewrite (linked_nth _ _ _ _ _ Ek) in E. injection E as <-. eapply H; [exact Ek|]. destruct (Nat.eqb j k); exact Q.
  - replace k with (length a + (k - length a))%nat in E by lia. rewrite linked_new in E. eapply Hn; eauto.
Qed.
Lemma step_built cs K mk l a i a' m : astep cs l a i a' m -> built K mk a -> (i < length a)%nat -> lab_keys cs K l -> exists mk', built K mk' a' /\ (forall k, (k < length a)%nat -> mk' k = mk k).
Proof.
  intros H [W M Ky] Hi HK. destruct (astep_cases _ _ _ _ _ _ H W Hi) as [(-> & _)|(j & sj & new & -> & Ch & Ej & Lj & Hm & Hn & Up & Hl)]; [exists mk; split; [constructor; assumption|reflexivity]|].
  exists (extend mk (length a) (mk j)). split; [|intros k Hk; unfold extend; destruct (Nat.ltb_spec k (length a)); [reflexivity|lia]]. constructor.
  - eapply up_linked; eauto. lia.
  - eapply marked_linked; eauto.
  - apply new_key; [exact Ky|]. destruct l as [op fo n|].
    + destruct Hl as (_ & key & Hk & _ & ->). intros [|[|k]] st q E Q; [| |destruct k; discriminate]; injection E as <-; [|discriminate Q]. cbn [st_defineNext st_key] in Q. destruct n as [n|]; cbn [key_of] in Hk; [|congruence].
      destruct Hk as (k & Ek & ->). injection Q as <-. apply HK. exact Ek.
    + destruct Hl as (_ & k0 & t & fo & b & e & ->). intros [|k] st q E Q; [|destruct k; discriminate]. injection E as <-. discriminate Q.
Qed.
Lemma steps_built cs K : forall ls a i a' m, asteps cs ls a i a' m -> forall mk, built K mk a -> (i < length a)%nat -> Forall (lab_keys cs K) ls -> exists mk', built K mk' a' /\ (forall k, (k < length a)%nat -> mk' k = mk k).
Proof.
  intros ls a i a' m H. induction H as [a i|l ls a i a1 i1 a2 i2 H1 H2 IH]; intros mk B Hi HK; [exists mk; auto|]. apply Forall_cons_iff in HK. destruct HK as [HK1 HK2].
  destruct (step_built _ K mk _ _ _ _ _ H1 B Hi HK1) as (mk1 & B1 & A1). destruct (step_up _ _ _ _ _ _ H1 (bu_up _ _ _ B) Hi) as (_ & Hi1 & L1). destruct (IH mk1 B1 Hi1 HK2) as (mk2 & B2 & A2).
  exists mk2. split; [exact B2|]. intros k Hk. rewrite A2 by lia. apply A1. exact Hk.
Qed.
Lemma csteps_built cs K : forall lss a a', csteps cs lss a a' -> forall mk, built K mk (nrm a) -> Forall (Forall (lab_keys cs K)) lss -> exists mk', built K mk' (nrm a') /\ (forall k, (k < length (nrm a))%nat -> mk' k = mk k) /\ (length (nrm a) <= length (nrm a'))%nat.
Proof.
  intros lss a a' H. induction H as [a|ls lss a a1 a2 i H1 _ H2 IH]; intros mk B HK; [exists mk; auto|]. apply Forall_cons_iff in HK. destruct HK as [HK1 HK2].
  destruct (steps_built _ K _ _ _ _ _ H1 mk B (nrm_len a) HK1) as (mk1 & B1 & A1). destruct (IH mk1 B1 HK2) as (mk2 & B2 & A2 & L2).
  assert (L1 : (length (nrm a) <= length (nrm a1))%nat).
  { clear -H1 B. revert H1 B. generalize (nrm_len a). generalize (nrm a) as b, (nrm a1) as b1, 0%nat as j. intros b b1 j Hj H1 B. pose proof (bu_up _ _ _ B) as W. clear B. induction H1 as [|l ls a0 i0 a3 i3 a4 i4 X Y IH]; [lia|].
    destruct (step_up _ _ _ _ _ _ X W Hj) as (W3 & H3 & L3). specialize (IH H3 W3). lia. }
  exists mk2. split; [exact B2|]. split; [|lia]. intros k Hk. rewrite A2 by lia. apply A1. exact Hk.
Qed.

(** ** the states of the first list have the first steps of the paths *)
Lemma key_eqb_eq : forall a b, key_eqb a b = true -> a = b.
Proof. induction a as [|x a IH]; destruct b as [|y b]; cbn; intro H; try discriminate; [reflexivity|]. apply andb_prop in H. destruct H as [H1 H2]. apply N.eqb_eq in H1. f_equal; auto. Qed.
Lemma key_eqb_self : forall a, key_eqb a a = true.
Proof. induction a as [|x a IH]; cbn; [reflexivity|]. rewrite N.eqb_refl. exact IH. Qed.
Lemma m_eqb_eq a b : m_eqb a b = true -> a = b.
Proof. unfold m_eqb. intro H. apply andb_prop in H. destruct H as [H1 H2]. apply N.eqb_eq in H1, H2. destruct a, b; cbn in *; congruence. Qed.
Lemma m_op_inj x y : m_op x = m_op y -> x = y.
Proof. destruct x, y; intro H; try reflexivity; vm_compute in H; discriminate. Qed.
Lemma fitting_new op fo key n : key <> None -> fitting op fo key (st_defineNext op key n fo st_new) = true.
Proof. intro H. unfold fitting. cbn [st_defineNext st_key st_core c_follow c_mask]. destruct key as [k|]; [|congruence]. rewrite eqb_reflx, key_eqb_self. destruct op; reflexivity. Qed.
Lemma fitting_link op fo key j st : fitting op fo key (st_setLink j st) = fitting op fo key st. Proof. reflexivity. Qed.
Lemma chain_trans a i j k : chain a i j -> chain a j k -> chain a i k.
Proof. intros H K. induction H; [exact K|]. eapply ch_step; eauto. Qed.
Lemma chain_linked a i k j sj new : nth_error a j = Some sj -> st_link sj = None -> chain a i k -> chain (linked j new a) i k.
Proof.
  intros Ej Lj C. induction C as [|i st x k E L C IH]; [constructor|]. eapply ch_step; [apply linked_nth; exact E| |exact IH]. destruct (Nat.eqb_spec j i); [congruence|exact L].
Qed.
Lemma chain_end a j sj new : nth_error a j = Some sj -> chain (linked j new a) j (length a).
Proof. intro E. eapply ch_step; [apply linked_nth; exact E| |constructor]. rewrite Nat.eqb_refl. reflexivity. Qed.

Section Heads.
Variable cs : charset.
Variable H : lab -> Prop.
Variable K : list N -> Prop.
(** every state of the first list that has a name is there for a first step *)
Definition roots_in (mk : nat -> bool) (a : atm) : Prop := forall k st key, nth_error a k = Some st -> mk k = true -> st_key st = Some key ->
  exists op n, H (LStep op (c_follow (st_core st)) (Some n)) /\ c_mask (st_core st) = m_op op /\ static_key cs n = Ret tt key.
Lemma steps_roots : forall ls a i a' m, asteps cs ls a i a' m -> forall mk, built K mk a -> (i < length a)%nat -> Forall (lab_keys cs K) ls -> roots_in mk a ->
  (mk i = true -> forall l, head_of ls = Some l -> H l) -> exists mk', built K mk' a' /\ (forall k, (k < length a)%nat -> mk' k = mk k) /\ roots_in mk' a'.
Proof.
  intros ls a i a' m S. induction S as [a i|l ls a i a1 i1 a2 i2 S1 S2 IH]; intros mk B Hi HK R Hh; [exists mk; auto|]. apply Forall_cons_iff in HK. destruct HK as [HK1 HK2]. destruct B as [W M Ky].
  destruct (step_up _ _ _ _ _ _ S1 W Hi) as (W1 & Hi1 & L1).
  destruct (astep_cases _ _ _ _ _ _ S1 W Hi) as [(-> & op & fo & n & key & k & st & -> & _ & Ch & Ek & _ & Nx)|(j & sj & new & E1 & Ch & Ej & Lj & Hm & Hn & Up & Hl)].
  - apply (IH mk); try assumption; [constructor; assumption|]. intros Q. destruct M as [_ M]. destruct (M k st Ek) as [_ M2]. rewrite (M2 i1 Nx) in Q. discriminate.
  - subst a1. pose proof (chain_mark _ _ _ _ M Ch) as Mj. set (mk1 := extend mk (length a) (mk j)).
    assert (B1 : built K mk1 (linked j new a)).
    { constructor; [exact W1|eapply marked_linked; eauto|]. apply new_key; [exact Ky|]. destruct l as [op fo n|].
      + destruct Hl as (_ & key & Hk & _ & ->). intros [|[|k]] st q E Q; [| |destruct k; discriminate]; injection E as <-; [|discriminate Q]. cbn [st_defineNext st_key] in Q. destruct n as [n|]; cbn [key_of] in Hk; [|congruence].
        destruct Hk as (k & Ek & ->). injection Q as <-. apply HK1. exact Ek.
      + destruct Hl as (_ & k0 & t & fo & b & e & ->). intros [|k] st q E Q; [|destruct k; discriminate]. injection E as <-. discriminate Q. }
    assert (A1 : forall k, (k < length a)%nat -> mk1 k = mk k) by (intros k Hk; unfold mk1, extend; destruct (Nat.ltb_spec k (length a)); [reflexivity|lia]).
    assert (R1 : roots_in mk1 (linked j new a)).
    { intros k st key E Mk Ks. destruct (Nat.lt_ge_cases k (length a)) as [Hk|Hk].
      - destruct (nth_error a k) as [sk|] eqn:Ek; [|apply nth_error_None in Ek; lia]. rewrite (linked_nth _ _ _ _ _ Ek) in E. injection E as <-. rewrite A1 in Mk by lia.
        assert (Ks' : st_key sk = Some key) by (destruct (Nat.eqb j k); exact Ks). destruct (R k sk key Ek Mk Ks') as (op & n & X). exists op, n. destruct (Nat.eqb j k); exact X.
      - replace k with (length a + (k - length a))%nat in E, Mk by lia. rewrite linked_new in E. destruct l as [op fo n|].
        + destruct Hl as (_ & ky & Hk' & _ & ->). destruct (k - length a)%nat as [|[|x]]; [| |destruct x; discriminate]; injection E as <-; [|discriminate Ks]. cbn [st_defineNext st_key] in Ks. destruct n as [n|]; cbn [key_of] in Hk'; [|congruence].
          destruct Hk' as (k2 & Ek2 & E3). exists op, n. split; [|split; [reflexivity|congruence]].
          unfold mk1, extend in Mk. rewrite Nat.add_0_r, Nat.ltb_irrefl, Nat.eqb_refl in Mk. apply Hh; [congruence|reflexivity].
        + destruct Hl as (_ & k0 & t & fo & b & e & ->). destruct (k - length a)%nat as [|x]; [|destruct x; discriminate]. injection E as <-. discriminate Ks. }
    destruct (IH mk1 B1 Hi1 HK2 R1) as (mk2 & B2 & A2 & R2).
    { intros Q. destruct l as [op fo n|].
      - destruct Hl as [-> _]. unfold mk1, extend in Q. destruct (Nat.ltb_spec (S (length a)) (length a)); [lia|]. destruct (Nat.eqb_spec (S (length a)) (length a)); [lia|discriminate].
      - destruct Hl as [-> _]. unfold mk1, extend in Q. rewrite Nat.ltb_irrefl, Nat.eqb_refl in Q. cbn [head_of] in Hh. apply Hh. congruence. }
    exists mk2. split; [exact B2|]. split; [|exact R2]. intros k Hk. rewrite A2 by lia. apply A1. exact Hk.
Qed.
Lemma csteps_roots : forall lss a a', csteps cs lss a a' -> forall mk, built K mk (nrm a) -> Forall (Forall (lab_keys cs K)) lss -> roots_in mk (nrm a) ->
  (forall ls l, In ls lss -> head_of ls = Some l -> H l) -> exists mk', built K mk' (nrm a') /\ roots_in mk' (nrm a').
Proof.
  intros lss a a' S. induction S as [a|ls lss a a1 a2 i S1 _ S2 IH]; intros mk B HK R Hh; [exists mk; auto|]. apply Forall_cons_iff in HK. destruct HK as [HK1 HK2].
  destruct (steps_roots _ _ _ _ _ S1 mk B (nrm_len a) HK1 R) as (mk1 & B1 & _ & R1); [intros _ l; apply Hh; left; reflexivity|]. apply (IH mk1 B1 HK2 R1). intros x l Hx. apply Hh. right. exact Hx.
Qed.
End Heads.

(** every first step with a name has a state in the first list *)
Definition waits (a : atm) (op : pop) (fo : bool) (key : option (list N)) : Prop := exists k st, chain a 0 k /\ nth_error a k = Some st /\ fitting op fo key st = true.
Lemma waits_linked a op fo key j sj new : nth_error a j = Some sj -> st_link sj = None -> waits a op fo key -> waits (linked j new a) op fo key.
Proof.
  intros Ej Lj (k & st & C & E & F). eexists k, _. split; [eapply chain_linked; eauto|]. split; [apply linked_nth; exact E|]. destruct (Nat.eqb j k); exact F.
Qed.
Lemma steps_waits cs : forall ls a i a' m, asteps cs ls a i a' m -> atm_up a -> (i < length a)%nat ->
  (forall op fo key, waits a op fo key -> waits a' op fo key) /\ (chain a 0 i -> forall op fo n key, head_of ls = Some (LStep op fo (Some n)) -> static_key cs n = Ret tt key -> waits a' op fo (Some key)).
Proof.
  intros ls a i a' m S. induction S as [a i|l ls a i a1 i1 a2 i2 S1 S2 IH]; intros W Hi; [split; [auto|discriminate]|]. destruct (step_up _ _ _ _ _ _ S1 W Hi) as (W1 & Hi1 & L1). destruct (IH W1 Hi1) as [I1 I2].
  assert (K1 : forall op fo key, waits a op fo key -> waits a1 op fo key).
  { intros op fo key Q. destruct (astep_cases _ _ _ _ _ _ S1 W Hi) as [(-> & _)|(j & sj & new & -> & Ch & Ej & Lj & _)]; [exact Q|eapply waits_linked; eauto]. }
  split; [auto|]. intros C op fo n key Hh Hk. destruct (astep_cases _ _ _ _ _ _ S1 W Hi) as [(-> & op' & fo' & n' & key' & k & st & -> & Hk' & Ch & Ek & F & Nx)|(j & sj & new & -> & Ch & Ej & Lj & Hm & Hn & Up & Hl)].
  - cbn [head_of] in Hh. injection Hh as -> -> ->. cbn [key_of] in Hk'. destruct Hk' as (x & Ex & ->). assert (x = key) by congruence. subst x. apply I1. exists k, st. split; [eapply chain_trans; eauto|auto].
  - destruct l as [op' fo' n'|]; cbn [head_of] in Hh.
    + injection Hh as -> -> ->. destruct Hl as (_ & key' & Hk' & _ & ->). cbn [key_of] in Hk'. destruct Hk' as (x & Ex & ->). assert (x = key) by congruence. subst x. apply I1. eexists (length a), _.
      split; [exact (chain_trans _ _ _ _ (chain_linked _ _ _ _ _ _ Ej Lj (chain_trans _ _ _ _ C Ch)) (chain_end _ _ _ _ Ej))|]. split; [|]. { pose proof (linked_new j [st_defineNext op (Some key) (S (length a)) fo st_new; st_new] a 0) as E0. rewrite Nat.add_0_r in E0. exact E0. } apply fitting_new. discriminate.
    + destruct Hl as [-> _]. apply (I2 (chain_trans _ _ _ _ (chain_linked _ _ _ _ _ _ Ej Lj (chain_trans _ _ _ _ C Ch)) (chain_end _ _ _ _ Ej)) _ _ _ _ Hh Hk).
Qed.
Lemma steps_up cs : forall ls a i a' m, asteps cs ls a i a' m -> atm_up a -> (i < length a)%nat -> atm_up a' /\ (length a <= length a')%nat.
Proof. intros ls a i a' m S. induction S as [a i|l ls a i a1 i1 a2 i2 S1 S2 IH]; intros W Hi; [auto|]. destruct (step_up _ _ _ _ _ _ S1 W Hi) as (W1 & Hi1 & L1). destruct (IH W1 Hi1). split; [assumption|lia]. Qed.
Lemma csteps_waits cs : forall lss a a', csteps cs lss a a' -> atm_up (nrm a) ->
  (forall op fo key, waits (nrm a) op fo key -> waits (nrm a') op fo key) /\ (forall ls op fo n key, In ls lss -> head_of ls = Some (LStep op fo (Some n)) -> static_key cs n = Ret tt key -> waits (nrm a') op fo (Some key)).
Proof.
  intros lss a a' S. induction S as [a|ls lss a a1 a2 i S1 _ S2 IH]; intros W; [split; [auto|contradiction]|]. destruct (steps_up _ _ _ _ _ _ S1 W (nrm_len a)) as [W1 _]. destruct (IH W1) as [I1 I2]. destruct (steps_waits _ _ _ _ _ _ S1 W (nrm_len a)) as [J1 J2].
  split; [auto|]. intros x op fo n key [<-|Hx] Hh Hk; [|eapply I2; eauto]. apply I1. eapply J2; eauto. constructor.
Qed.

(** ** the states kept *)
Lemma steps_any cs : forall ls a i a' m, asteps cs ls a i a' m -> forall a0, atm_up a -> (i < length a)%nat -> same (fun _ => false) a0 a -> same (fun _ => false) a0 a'.
Proof.
  intros ls a i a' m S. induction S as [a i|l ls a i a1 i1 a2 i2 S1 S2 IH]; intros a0 W Hi Sm; [exact Sm|]. destruct (step_up _ _ _ _ _ _ S1 W Hi) as (W1 & Hi1 & L1). apply IH; [assumption|assumption|].
  destruct (astep_cases _ _ _ _ _ _ S1 W Hi) as [(-> & _)|(j & sj & new & -> & _)]; [exact Sm|]. apply same_linked; [exact Sm|reflexivity].
Qed.
Lemma csteps_any cs : forall lss a a', csteps cs lss a a' -> forall a0, atm_up (nrm a) -> same (fun _ => false) a0 (nrm a) -> same (fun _ => false) a0 (nrm a') /\ atm_up (nrm a').
Proof.
  intros lss a a' S. induction S as [a|ls lss a a1 a2 i S1 _ S2 IH]; intros a0 W Sm; [auto|]. destruct (steps_up _ _ _ _ _ _ S1 W (nrm_len a)) as [W1 _]. apply IH; [exact W1|]. eapply steps_any; eauto using nrm_len.
Qed.
Lemma csteps_ne cs : forall lss a a', csteps cs lss a a' -> a <> [] -> a' <> [].
Proof. intros lss a a' S. induction S as [|ls lss a a1 a2 i S1 Hor S2 IH]; intro Hn; [exact Hn|]. apply IH. destruct Hor as [->|E]; [exact Hn|]. intros ->. discriminate E. Qed.
Lemma same_raw U a a' : same U (nrm a) (nrm a') -> (a <> [] -> a' <> []) -> same U a a'.
Proof.
  intros Sm Hn. destruct a as [|x a]; [constructor; [cbn; lia|]; intros k st E; destruct k; discriminate|]. specialize (Hn ltac:(discriminate)). destruct a' as [|y a']; [congruence|]. exact Sm.
Qed.
Lemma same_nrm U a : same U a (nrm a).
Proof. destruct a; [constructor; [cbn; lia|]; intros k st E; destruct k; discriminate|apply same_refl]. Qed.
Lemma safe_same U a a' s : same U a a' -> Safe a s -> Safe a' s.
Proof.
  intros [_ Sm] [A B C D E]. constructor; try assumption. eapply Forall_impl; [|exact A]. intros t (st & Et & Hm). destruct (Sm _ _ Et) as (st' & Et' & Cc & _). exists st'. split; [exact Et'|]. rewrite Cc. exact Hm.
Qed.

Section Late.
Variable cs : charset.
Variable a0 : atm.
Variable mk0 : nat -> bool.
Variable K : list N -> Prop.
Hypothesis Pos : (0 < length a0)%nat.
Hypothesis M0 : marked mk0 a0.
Definition fresh (l : lab) : Prop := match l with LStep op fo n => forall key k st, key_of cs n key -> nth_error a0 k = Some st -> mk0 k = true -> fitting op fo key st = false | LOut => True end.
Lemma steps_late : forall ls a i a' m, asteps cs ls a i a' m -> forall mk, built K mk a -> (forall k, (k < length a0)%nat -> mk k = mk0 k) -> (i < length a)%nat -> Forall (lab_keys cs K) ls ->
  (i = 0%nat \/ (length a0 <= i)%nat) -> same (fun k => negb (mk0 k)) a0 a -> (i = 0%nat -> forall l ls', ls = l :: ls' -> fresh l) -> same (fun k => negb (mk0 k)) a0 a'.
Proof.
  intros ls a i a' m S. induction S as [a i|l ls a i a1 i1 a2 i2 S1 S2 IH]; intros mk B Ag Hi HK Po Sm Fr; [exact Sm|]. apply Forall_cons_iff in HK. destruct HK as [HK1 HK2].
  destruct (step_built _ _ _ _ _ _ _ _ S1 B Hi HK1) as (mk1 & B1 & A1). destruct B as [W M _]. destruct (step_up _ _ _ _ _ _ S1 W Hi) as (_ & Hi1 & L1). pose proof (sm_len _ _ _ Sm) as Ls.
  assert (Far : (length a0 <= i1)%nat /\ same (fun k => negb (mk0 k)) a0 a1).
  { destruct (astep_cases _ _ _ _ _ _ S1 W Hi) as [(-> & op & fo & n & key & k & st & -> & Hk & Ch & Ek & F & Nx)|(j & sj & new & -> & Ch & Ej & Lj & Hm & Hn & Up & Hl)].
    - split; [|exact Sm]. assert (Hik : (k < i1)%nat) by (destruct (W k st Ek) as [A _]; specialize (A i1 Nx); lia).
      destruct (Nat.lt_ge_cases k (length a0)) as [Hk0|Hk0]; [|lia]. exfalso. destruct Po as [->|Po]; [|pose proof (chain_up _ _ _ W Ch); lia].
      destruct (nth_error a0 k) as [s0|] eqn:E0; [|apply nth_error_None in E0; lia]. destruct (sm_st _ _ _ Sm k s0 E0) as (s1 & E1 & Cc & Kk & _). assert (s1 = st) by congruence. subst s1.
      assert (Mk : mk0 k = true) by (rewrite <- Ag by exact Hk0; rewrite (chain_mark _ _ _ _ M Ch); destruct M as [-> _]; reflexivity).
      pose proof (Fr eq_refl _ _ eq_refl key k s0 Hk E0 Mk) as F0. unfold fitting in F, F0. rewrite Kk, Cc in F. rewrite F in F0. discriminate.
    - split; [lia|]. apply same_linked; [exact Sm|]. intros Hj. destruct Po as [->|Po]; [|pose proof (chain_up _ _ _ W Ch); lia]. rewrite <- Ag by exact Hj. rewrite (chain_mark _ _ _ _ M Ch). destruct M as [-> _]. reflexivity. }
  destruct Far as [Far Sm1]. apply (IH mk1 B1); try assumption; [intros k Hk; rewrite A1 by lia; apply Ag; exact Hk|right; exact Far|]. intros ->. lia.
Qed.
End Late.

Section Early.
Variable cs : charset.
Variable a0 : atm.
Variable mk0 : nat -> bool.
Variable K : list N -> Prop.
Hypothesis Pos : (0 < length a0)%nat.
Hypothesis M0 : marked mk0 a0.
Lemma same_chain a i k : same mk0 a0 a -> (i < length a0)%nat -> mk0 i = true -> atm_up a0 -> chain a0 i k -> chain a i k.
Proof.
  intros Sm Hi Mi W C. induction C as [|i st j k E L C IH]; [constructor|]. destruct (sm_st _ _ _ Sm i st E) as (st' & E' & _ & _ & _ & Lk). specialize (Lk Mi).
  destruct (W i st E) as [_ [B _]]. specialize (B j L). apply (ch_step a i st' j); [exact E'|congruence|]. apply IH; [lia|]. destruct M0 as [_ M]. destruct (M i st E) as [M1 _]. rewrite (M1 j L). exact Mi.
Qed.
Definition known (ls : list lab) : Prop := match ls with [] => True | LStep op fo (Some n) :: _ => exists key, static_key cs n = Ret tt key /\ waits a0 op fo (Some key) | _ => False end.
Lemma steps_early : forall ls a i a' m, asteps cs ls a i a' m -> forall mk, built K mk a -> atm_up a0 -> (forall k, (k < length a0)%nat -> mk k = mk0 k) -> (i < length a)%nat -> Forall (lab_keys cs K) ls ->
  same mk0 a0 a -> (mk i = true -> i = 0%nat /\ known ls) -> same mk0 a0 a'.
Proof.
  intros ls a i a' m S. induction S as [a i|l ls a i a1 i1 a2 i2 S1 S2 IH]; intros mk B W0 Ag Hi HK Sm Kn; [exact Sm|]. apply Forall_cons_iff in HK. destruct HK as [HK1 HK2].
  destruct B as [W M Ky]. destruct (step_up _ _ _ _ _ _ S1 W Hi) as (W1 & Hi1 & L1). pose proof (sm_len _ _ _ Sm) as Ls.
  destruct (astep_cases _ _ _ _ _ _ S1 W Hi) as [(-> & op & fo & n & key & k & st & -> & Hk & Ch & Ek & F & Nx)|(j & sj & new & -> & Ch & Ej & Lj & Hm & Hn & Up & Hl)].
  - apply (IH mk); try assumption; [constructor; assumption|]. intro Q. destruct M as [_ M]. destruct (M k st Ek) as [_ M2]. rewrite (M2 i1 Nx) in Q. discriminate.
  - pose proof (chain_mark _ _ _ _ M Ch) as Mj. destruct (mk i) eqn:Mi.
    + exfalso. destruct (Kn eq_refl) as [-> Kl]. destruct l as [op fo [n|]|]; cbn [known] in Kl; try contradiction. destruct Kl as (key & Ek & k & st & Ck & E & F).
      destruct Hl as (_ & key' & Hk' & No & _). cbn [key_of] in Hk'. destruct Hk' as (x & Ex & ->). assert (x = key) by congruence. subst x.
      destruct (sm_st _ _ _ Sm k st E) as (st' & E' & Cc & Kk & _). pose proof (same_chain a 0 k Sm Pos (proj1 M0) W0 Ck) as Ca. specialize (No k st' Ca E'). unfold fitting in No, F. rewrite Cc, Kk in No. rewrite No in F. discriminate.
    + set (mk1 := extend mk (length a) (mk j)).
      assert (B1 : exists mk1, built K mk1 (linked j new a) /\ (forall k, (k < length a)%nat -> mk1 k = mk k) /\ mk1 i1 = false).
      { exists (extend mk (length a) (mk j)). assert (B : built K mk a) by (constructor; assumption). assert (Mm := marked_linked mk a j sj new W M Ej Lj Hn). split; [|split].
        - constructor; [exact W1|exact Mm|]. destruct (step_built _ _ _ _ _ _ _ _ S1 B Hi HK1) as (mx & [_ _ Kx] & _). exact Kx.
        - intros k Hk. unfold extend. destruct (Nat.ltb_spec k (length a)); [reflexivity|lia].
        - unfold extend. rewrite Mj. destruct (Nat.ltb_spec i1 (length a)); [lia|]. destruct (Nat.eqb i1 (length a)); reflexivity. }
      destruct B1 as (mk2 & B2 & A2 & I2). apply (IH mk2 B2); try assumption.
      * intros k Hk. rewrite A2 by lia. apply Ag. exact Hk.
      * apply same_linked; [exact Sm|]. intro Hj. rewrite <- Ag by exact Hj. exact Mj.
      * intro Q. congruence.
Qed.
End Early.

(** ** a selector does not see the states linked to the others *)
Section Frame.
Variables a a' : atm.
Variable U : nat -> bool.
Hypothesis Sm : same U a a'.
Hypothesis CL : forall k st j, nth_error a k = Some st -> st_link st = Some j -> U k = true -> U j = true.
Hypothesis CN : forall k st j, nth_error a k = Some st -> st_next st = Some j -> U j = true.
Lemma expand_frame : forall f i s s', expand f a i s = Ret s' tt -> (forall j, i = Some j -> U j = true) -> forall f', (f <= f')%nat -> expand f' a' i s = Ret s' tt.
Proof using Sm CL. clear CN.
  induction f as [|f IH]; intros i s s' E Hi f' Hf; [discriminate|]. destruct f' as [|f']; [lia|]. cbn [expand] in *. destruct i as [i|]; [|exact E].
  destruct (nth_error a i) as [st|] eqn:Ei; [|discriminate]. destruct (sm_st _ _ _ Sm i st Ei) as (st' & -> & Cc & _ & _ & Lk). specialize (Hi i eq_refl). rewrite (Lk Hi).
  replace (expand1 i st' s) with (expand1 i st s) by (unfold expand1; rewrite Cc; reflexivity). apply IH; [exact E| |lia]. intros j Hj. eapply CL; eauto.
Qed.
Lemma sel_expand_frame i s s' u : sel_expand a i s = Ret s' u -> (forall j, i = Some j -> U j = true) -> sel_expand a' i s = Ret s' u.
Proof using Sm CL. clear CN. destruct u. intros E H. eapply expand_frame; [exact E|exact H|]. pose proof (sm_len _ _ _ Sm). lia. Qed.
Lemma produce_frame k st i s s' u : nth_error a k = Some st -> sel_produce a i st s = Ret s' u -> forall st', st_next st' = st_next st -> sel_produce a' i st' s = Ret s' u.
Proof.
  unfold sel_produce. intros Ek E st' Nx. destruct (nth_error (s_toks s) i) as [tk|]; [|discriminate]. destruct (count_down (t_core tk)) as [c go]. destruct go; [|exact E]. rewrite Nx. apply sel_expand_frame; [exact E|]. intros j Hj. eapply CN; eauto.
Qed.
Lemma match_frame i s s' t : sel_match a i s = Ret s' t -> sel_match a' i s = Ret s' t.
Proof.
  unfold sel_match. destruct (s_key s) as [key|]; [|auto]. destruct (Nat.leb _ _); [auto|]. destruct (nth_error (s_toks s) i) as [tk|]; [|auto]. destruct (m_matches _ _); [|auto].
  destruct (nth_error a (t_state tk)) as [st|] eqn:Ek; [|discriminate]. destruct (sm_st _ _ _ Sm _ st Ek) as (st' & -> & Cc & Kk & Nx & _). rewrite Kk. intro E.
  apply bind_Ret in E. destruct E as (s1 & t1 & E & E1). apply bind_Ret in E. destruct E as (s2 & u & E & E2).
  assert (E0 : (if match st_key st with Some k => key_eqb k key | None => true end then sel_produce a' i st' s else Ret s tt) = Ret s2 u).
  { destruct (match st_key st with Some k => key_eqb k key | None => true end); [|exact E]. eapply produce_frame; eauto. }
  rewrite E0. cbn [bind]. rewrite E2. cbn [bind]. exact E1.
Qed.
Lemma loop_frame : forall f s s' t, fetch_loop f a s = Ret s' t -> fetch_loop f a' s = Ret s' t.
Proof.
  induction f as [|f IH]; intros s s' t E; [discriminate|]. cbn [fetch_loop] in *.
  assert (Ag : forall s1 t1, (if (t1 =? 0)%Z then fetch_loop f a s1 else Ret s1 t1) = Ret s' t -> (if (t1 =? 0)%Z then fetch_loop f a' s1 else Ret s1 t1) = Ret s' t).
  { intros s1 t1. destruct (t1 =? 0)%Z; auto. }
  assert (Tr : match s_trig s with z :: l => if (z =? 0)%Z then fetch_loop f a (sel_set_trig l s) else Ret (sel_set_trig l s) z | [] => Ret (sel_no_key s) 0%Z end = Ret s' t ->
    match s_trig s with z :: l => if (z =? 0)%Z then fetch_loop f a' (sel_set_trig l s) else Ret (sel_set_trig l s) z | [] => Ret (sel_no_key s) 0%Z end = Ret s' t).
  { destruct (s_trig s) as [|z l]; auto. }
  destruct (Nat.ltb _ _).
  - apply bind_Ret in E. destruct E as (s1 & t1 & E1 & E2). rewrite (match_frame _ _ _ _ E1). cbn [bind]. apply Ag. exact E2.
  - destruct (Nat.ltb _ _); [|apply Tr; exact E]. destruct (nth_error (s_follows s) _) as [j|]; [|discriminate]. destruct (Nat.ltb _ _); [|apply Tr; exact E].
    apply bind_Ret in E. destruct E as (s1 & t1 & E1 & E2). rewrite (match_frame _ _ _ _ E1). cbn [bind]. apply Ag. exact E2.
Qed.
Lemma fetch_frame f s s' t : sel_fetch f a s = Ret s' t -> sel_fetch f a' s = Ret s' t.
Proof. unfold sel_fetch. destruct (m_matches _ _); [apply loop_frame|auto]. Qed.
Lemma all_frame : forall f ff s s' l, fetch_all f ff a s = Ret s' l -> fetch_all f ff a' s = Ret s' l.
Proof.
  induction f as [|f IH]; intros ff s s' l E; [discriminate|]. cbn [fetch_all] in *. apply bind_Ret in E. destruct E as (s1 & t1 & E1 & E2). rewrite (fetch_frame _ _ _ _ E1). cbn [bind].
  destruct (t1 =? 0)%Z; [exact E2|]. apply bind_Ret in E2. destruct E2 as (s2 & l2 & E2 & E3). rewrite (IH _ _ _ _ E2). exact E3.
Qed.
Lemma element_frame f ff e k s s' l : sel_element f ff a e k s = Ret s' l -> sel_element f ff a' e k s = Ret s' l.
Proof. unfold sel_element. intro E. apply bind_Ret in E. destruct E as (s1 & l1 & E1 & E2). rewrite (all_frame _ _ _ _ _ E1). exact E2. Qed.
End Frame.
