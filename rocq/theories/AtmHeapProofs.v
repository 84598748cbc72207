(** Calls on several automata (proofs). *)
From Coq Require Import Lia Permutation.
From Verif Require Import Base XmlScanner PathAtm AtmMemory AtmValue AtmMemProofs.

Definition vptrs (o : option avec) : list nat := match o with Some v => flat_map ptrs (av_states v) | None => [] end.
Definition aptrs (A : list (option avec)) : list nat := flat_map vptrs A.
Definition slot (H : blocks) (o : option avec) (x : option vatm) : Prop :=
  match o, x with
  | Some v, Some d => Forall2 (holds H) (av_states v) d /\ (length (av_states v) <= av_cap v)%nat
  | None, None => True
  | _, _ => False
  end.
Record hrel (h : aheap) (V : list (option vatm)) : Prop := mkHrel { hr_owned : owned (ah_blks h) (aptrs (ah_atms h)); hr_slots : Forall2 (slot (ah_blks h)) (ah_atms h) V }.
Lemma slots_same : forall H H' A V, same_on (aptrs A) H H' -> Forall2 (slot H) A V -> Forall2 (slot H') A V.
Proof.
  intros H H' A V S F. induction F as [|o x A V F1 F2 IH]; [constructor|]. unfold aptrs in S. cbn [flat_map] in S. constructor.
  - destruct o as [v|], x as [d|]; cbn [slot vptrs] in *; auto. destruct F1 as [F1 C]. split; [|exact C]. eapply all_same; [exact S| |exact F1]. apply incl_appl, incl_refl.
  - apply IH. eapply same_incl; [exact S|]. apply incl_appr, incl_refl.
Qed.
Lemma aptrs_mid : forall A1 o A2, Permutation (aptrs (A1 ++ o :: A2)) (vptrs o ++ aptrs (A1 ++ A2)).
Proof.
  intros A1 o A2. unfold aptrs. rewrite !flat_map_app. cbn [flat_map]. rewrite !app_assoc. apply Permutation_app_tail, Permutation_app_comm.
Qed.
Lemma focus : forall h V k, hrel h V -> match ah_get h k with
  | None => v_get V k = None
  | Some v => exists d A1 A2 V1 V2, v_get V k = Some d /\ ah_atms h = A1 ++ Some v :: A2 /\ V = V1 ++ Some d :: V2 /\ length A1 = k /\ length V1 = k /\
      good (aptrs (A1 ++ A2)) (ah_blks h) v d /\ Forall2 (slot (ah_blks h)) (A1 ++ A2) (V1 ++ V2)
  end.
Proof.
  intros [H A] V k [O F]. unfold ah_get, v_get. cbn [ah_blks ah_atms] in *. pose proof (forall2_nth _ _ _ k F) as N.
  destruct (nth_error A k) as [[v|]|] eqn:E, (nth_error V k) as [[d|]|] eqn:E'; cbn [slot] in N; try contradiction; auto.
  destruct (nth_error_split _ _ E) as [A1 [A2 [-> L]]]. destruct (forall2_split _ _ _ _ _ F) as [V1 [x [V2 [-> [L2 [F1 [F2 F3]]]]]]].
  rewrite <- L, <- L2, nth_mid in E'. injection E' as ->. exists d, A1, A2, V1, V2. destruct N as [N C].
  repeat (split; [first [reflexivity|congruence]|]). split; [constructor; auto|apply Forall2_app; assumption].
  exact (owned_perm _ _ _ (aptrs_mid A1 (Some v) A2) O).
Qed.
Lemma app_split : forall {A} (l1 l2 m1 m2 : list A), length l1 = length m1 -> l1 ++ l2 = m1 ++ m2 -> l1 = m1 /\ l2 = m2.
Proof. intros A. induction l1 as [|x l1 IH]; intros l2 [|y m1] m2 L E; cbn in *; try discriminate; [auto|]. injection E as -> E. destruct (IH _ _ _ (f_equal Nat.pred L) E) as [-> ->]. auto. Qed.
Lemma unfocus : forall H H' A1 A2 V1 V2 v d, length A1 = length V1 -> good (aptrs (A1 ++ A2)) H' v d -> same_on (aptrs (A1 ++ A2)) H H' -> Forall2 (slot H) (A1 ++ A2) (V1 ++ V2) ->
  hrel (mkAh H' (A1 ++ Some v :: A2)) (V1 ++ Some d :: V2).
Proof.
  intros H H' A1 A2 V1 V2 v d L [O F C] S K. apply (slots_same _ _ _ _ S) in K. constructor; cbn [ah_blks ah_atms].
  - exact (owned_perm _ _ _ (Permutation_sym (aptrs_mid A1 (Some v) A2)) O).
  - apply Forall2_app_inv_l in K. destruct K as [W1 [W2 [K1 [K2 E]]]].
    assert (E2 : V1 = W1 /\ V2 = W2) by (apply app_split; [rewrite <- L; exact (f2_len K1)|exact E]).
    destruct E2 as [-> ->]. apply Forall2_app; [exact K1|]. constructor; [split; assumption|exact K2].
Qed.

Lemma push_slot : forall H H' A V v d, good (aptrs A) H' v d -> same_on (aptrs A) H H' -> Forall2 (slot H) A V -> hrel (mkAh H' (A ++ [Some v])) (V ++ [Some d]).
Proof. intros H H' A V v d G S F. apply unfocus with (H := H); rewrite ?app_nil_r; auto. exact (f2_len F). Qed.
Lemma copy_vec_ok : forall H ps v d, owned H ps -> incl (flat_map ptrs (av_states v)) ps -> Forall2 (holds H) (av_states v) d ->
  exists H' w, av_copy v H = Ret H' w /\ good ps H' w d /\ same_on ps H H'.
Proof.
  intros H ps v d O I F. destruct (copy_all_ok _ H ps d O I F) as [H' [l [E [O' [S F']]]]]. unfold av_copy. rewrite E. cbn [bind].
  eexists _, _. split; [reflexivity|]. split; [constructor; auto|exact S].
Qed.
Definition calls_as (x : out aheap aanswer) (y : out (list (option vatm)) aanswer) : Prop :=
  match y with Ret V a => exists h, x = Ret h a /\ hrel h V | Fuel => x = Fuel | _ => x = Undef end.
Lemma upd_at : forall {A} (l1 l2 : list A) s x k, length l1 = k -> upd k x (l1 ++ s :: l2) = l1 ++ x :: l2.
Proof. intros A l1 l2 s x k <-. apply upd_mid. Qed.
Lemma get_mid : forall V1 (d : option vatm) V2, v_get (V1 ++ d :: V2) (length V1) = d.
Proof. intros. unfold v_get. rewrite nth_mid. reflexivity. Qed.
Lemma destroy_slot : forall H A1 A2 V1 V2 v d, length A1 = length V1 -> good (aptrs (A1 ++ A2)) H v d -> Forall2 (slot H) (A1 ++ A2) (V1 ++ V2) ->
  exists H', destroy_all (av_states v) H = Ret H' tt /\ hrel (mkAh H' (A1 ++ None :: A2)) (V1 ++ None :: V2).
Proof.
  intros H A1 A2 V1 V2 v d L [O F C] K. destruct (destroy_all_ok _ _ _ O) as [H' [E [O' S]]]. exists H'. split; [exact E|].
  apply (slots_same _ _ _ _ S) in K. constructor; cbn [ah_blks ah_atms].
  - exact (owned_perm _ _ _ (Permutation_sym (aptrs_mid A1 None A2)) O').
  - apply Forall2_app_inv_l in K. destruct K as [W1 [W2 [K1 [K2 E2]]]]. assert (E3 : V1 = W1 /\ V2 = W2) by (apply app_split; [rewrite <- L; exact (f2_len K1)|exact E2]).
    destruct E3 as [-> ->]. apply Forall2_app; [exact K1|]. constructor; [exact I|exact K2].
Qed.
Lemma slot_of : forall H A V j, Forall2 (slot H) A V -> forall w, nth_error A j = Some (Some w) -> incl (flat_map ptrs (av_states w)) (aptrs A).
Proof.
  intros H A V j F w E. apply nth_error_In in E. intros p Hp. unfold aptrs. apply in_flat_map. exists (Some w). auto.
Qed.
(** Assignment to another automaton, when there are no states to assign or no place for them *)
Lemma assign_right : forall H ps v w d e, good ps H v d -> incl (flat_map ptrs (av_states w)) ps -> Forall2 (holds H) (av_states w) e ->
  d = [] \/ e = [] \/ (av_cap v < length e)%nat -> exists H' v', av_assign v w H = Ret H' v' /\ good ps H' v' e /\ same_on ps H H'.
Proof.
  intros H ps v w d e G I F K. pose proof (good_len _ _ _ _ G) as Lv. pose proof (f2_len F) as Lw. destruct G as [O Fv C]. unfold av_assign.
  destruct (Nat.ltb_spec (av_cap v) (length (av_states w))) as [B|B].
  - destruct (copy_all_ok _ H _ e O (incl_appr _ I) F) as [H1 [l [E1 [O1 [S1 F1]]]]]. rewrite E1. cbn [bind].
    assert (O2 : owned H1 (flat_map ptrs (av_states v) ++ flat_map ptrs l ++ ps)) by (eapply owned_perm; [|exact O1]; rewrite !app_assoc; apply Permutation_app_tail, Permutation_app_comm).
    destruct (destroy_all_ok _ H1 _ O2) as [H2 [E2 [O3 S2]]]. rewrite E2. cbn [bind]. eexists _, _. split; [reflexivity|]. split.
    + constructor; cbn [av_states av_cap]; [exact O3|eapply all_same; [exact S2|apply incl_appl, incl_refl|exact F1]|pose proof (f2_len F1); lia].
    + eapply same_trans; [eapply same_incl; [exact S1|apply incl_appr, incl_refl]|]. eapply same_incl; [exact S2|apply incl_appr, incl_refl].
  - destruct K as [->|[->|K]]; [| |lia].
    + destruct v as [[|] c]; [|discriminate Lv]. cbn [av_states av_cap length] in *. cbn [skipn firstn].
      destruct (copy_all_ok _ H _ e O (incl_appr _ I) F) as [H1 [l [E1 [O1 [S1 F1]]]]].
      destruct (Nat.leb_spec (length (av_states w)) 0) as [Z|Z].
      * assert (W : av_states w = []) by (destruct (av_states w); [reflexivity|cbn in Z; lia]). rewrite W in *. inversion F; subst. cbn [skipn destroy_all bind].
        eexists _, _. split; [reflexivity|]. split; [constructor; cbn; [exact O|constructor|lia]|apply same_refl].
      * rewrite E1. cbn [bind app]. eexists _, _. split; [reflexivity|]. split; [constructor; cbn [av_states av_cap]; [exact O1|exact F1|pose proof (f2_len F1); lia]|exact S1].
    + assert (W : av_states w = []) by (destruct (av_states w); [reflexivity|discriminate Lw]). rewrite W in *. cbn [length Nat.leb skipn].
      destruct (destroy_all_ok _ _ _ O) as [H' [E [O' S]]]. rewrite E. cbn [bind]. eexists _, _. split; [reflexivity|]. split; [constructor; cbn; [exact O'|constructor|lia]|exact S].
Qed.
(** another automaton seen from automaton [k] *)
Lemma other : forall H A1 A2 V1 V2 (v : option avec) (d : option vatm) j, length A1 = length V1 -> Forall2 (slot H) (A1 ++ A2) (V1 ++ V2) -> j <> length A1 ->
  forall w, nth_error (A1 ++ v :: A2) j = Some (Some w) ->
  exists e, v_get (V1 ++ d :: V2) j = Some e /\ incl (flat_map ptrs (av_states w)) (aptrs (A1 ++ A2)) /\ Forall2 (holds H) (av_states w) e /\ (length (av_states w) <= av_cap w)%nat.
Proof.
  intros H A1 A2 V1 V2 v d j L F J w E. set (i := if Nat.ltb j (length A1) then j else (j - 1)%nat).
  assert (E1 : nth_error (A1 ++ A2) i = Some (Some w)).
  { subst i. destruct (Nat.ltb_spec j (length A1)) as [B|B]; [rewrite nth_error_app1 in * by exact B; exact E|]. rewrite nth_error_app2 in * by lia. replace (j - length A1)%nat with (S (j - 1 - length A1)) in E by lia. exact E. }
  assert (E2 : nth_error (V1 ++ d :: V2) j = nth_error (V1 ++ V2) i).
  { subst i. rewrite L in *. destruct (Nat.ltb_spec j (length V1)) as [B|B]; [rewrite !nth_error_app1 by exact B; reflexivity|]. rewrite !nth_error_app2 by lia. replace (j - length V1)%nat with (S (j - 1 - length V1)) by lia. reflexivity. }
  pose proof (forall2_nth _ _ _ i F) as N. rewrite E1 in N. unfold v_get. rewrite E2. destruct (nth_error (V1 ++ V2) i) as [[e|]|]; cbn [slot] in N; try contradiction.
  exists e. split; [reflexivity|]. split; [eapply slot_of; eauto|exact N].
Qed.
Lemma upd_same : forall {A} (l : list A) k x, nth_error l k = Some x -> upd k x l = l.
Proof. intros A. induction l as [|y l IH]; intros [|k] x E; cbn in *; try discriminate; [congruence|]. rewrite IH by exact E. reflexivity. Qed.
Lemma get_none : forall h V j, hrel h V -> ah_get h j = None -> v_get V j = None.
Proof. intros h V j R E. pose proof (focus h V j R) as K. rewrite E in K. exact K. Qed.
Lemma call_ok : forall grow c h V, hrel h V -> plain_call c V -> names_ok c -> calls_as (a_call grow c h) (v_call c V).
Proof.
  intros grow c h V R P Z. destruct c as [|k|k j|k|k i op name follow|k i m t follow b e]; cbn [a_call v_call].
  - cbn [calls_as]. eexists. split; [reflexivity|]. destruct R as [O F]. eapply push_slot; [apply good_new; exact O|apply same_refl|exact F].
  - pose proof (focus h V k R) as K. destruct (ah_get h k) as [v|]; [|rewrite K; reflexivity]. destruct K as [d [A1 [A2 [V1 [V2 [-> [EA [EV [L1 [L2 [G F]]]]]]]]]]]. destruct R as [O FS].
    destruct (copy_vec_ok (ah_blks h) (aptrs (ah_atms h)) v d O) as [H' [w [E [G' S]]]]; [eapply slot_of; [exact FS|]; rewrite EA, <- L1; apply nth_mid|apply G|].
    rewrite E. cbn [with_blocks fst snd calls_as]. eexists. split; [reflexivity|]. eapply push_slot; eauto.
  - pose proof (focus h V k R) as K. destruct (ah_get h k) as [v|] eqn:Ek; [|rewrite K; reflexivity]. destruct K as [d [A1 [A2 [V1 [V2 [Ed [EA [EV [L1 [L2 [G F]]]]]]]]]]]. rewrite Ed.
    destruct (ah_get h j) as [w|] eqn:Ej; [|rewrite (get_none _ _ _ R Ej); reflexivity].
    destruct (Nat.eqb_spec k j) as [<-|J].
    + rewrite Ed. cbn [calls_as]. eexists. split; [reflexivity|]. rewrite upd_same; [exact R|]. rewrite EV, <- L2. apply nth_mid.
    + assert (Nj : nth_error (A1 ++ Some v :: A2) j = Some (Some w)) by (unfold ah_get in Ej; rewrite EA in Ej; destruct (nth_error _ j) as [[|]|]; congruence).
      destruct (other _ A1 A2 V1 V2 (Some v) (Some d) j ltac:(congruence) F ltac:(congruence) w Nj) as [e [Ee [I [Fe Ce]]]]. rewrite EV in *. rewrite Ee.
      destruct (assign_right (ah_blks h) _ v w d e G I Fe) as [H' [v' [E [G' S]]]].
      { cbn [plain_call] in P. rewrite Ed, Ee in P. destruct P as [P|[P|P]]; [congruence|left; congruence|right; left; congruence]. }
      rewrite E. cbn [with_blocks fst snd calls_as]. eexists. split; [reflexivity|]. rewrite EA, !upd_at by congruence. eapply unfocus; eauto. congruence.
  - pose proof (focus h V k R) as K. destruct (ah_get h k) as [v|] eqn:Ek; [|rewrite K; reflexivity]. destruct K as [d [A1 [A2 [V1 [V2 [Ed [EA [EV [L1 [L2 [G F]]]]]]]]]]]. rewrite Ed.
    destruct (destroy_slot (ah_blks h) A1 A2 V1 V2 v d ltac:(congruence) G F) as [H' [E R']]. rewrite E. cbn [with_blocks fst snd calls_as]. eexists. split; [reflexivity|]. rewrite EA, EV, !upd_at by congruence. exact R'.
  - pose proof (focus h V k R) as K. destruct (ah_get h k) as [v|] eqn:Ek; [|rewrite K; reflexivity]. destruct K as [d [A1 [A2 [V1 [V2 [Ed [EA [EV [L1 [L2 [G F]]]]]]]]]]]. rewrite Ed.
    assert (Z' : match option_map snd name with Some l => Forall (fun b => b <> 0) l | None => True end) by (destruct name as [[x y]|]; exact Z).
    pose proof (next_ok grow _ i op (option_map fst name) (option_map snd name) follow _ v d G Z') as K.
    destruct (v_defineNext i op (option_map fst name) (option_map snd name) follow d) as [u [n d']|u|u| |]; cbn [steps calls_as fst snd] in *; try (rewrite K; reflexivity).
    destruct K as [H' [v' [E [G' S]]]]. rewrite E. cbn [with_blocks fst snd]. eexists. split; [reflexivity|]. rewrite EA, EV, !upd_at by congruence. eapply unfocus; eauto. congruence.
  - pose proof (focus h V k R) as K. destruct (ah_get h k) as [v|] eqn:Ek; [|rewrite K; reflexivity]. destruct K as [d [A1 [A2 [V1 [V2 [Ed [EA [EV [L1 [L2 [G F]]]]]]]]]]]. rewrite Ed.
    pose proof (outp_ok grow _ i m t follow b e _ v d G) as K.
    destruct (v_defineOutput i m t follow b e d) as [u [n d']|u|u| |]; cbn [steps calls_as fst snd] in *; try (rewrite K; reflexivity).
    destruct K as [H' [v' [E [G' S]]]]. rewrite E. cbn [with_blocks fst snd]. eexists. split; [reflexivity|]. rewrite EA, EV, !upd_at by congruence. eapply unfocus; eauto. congruence.
Qed.
Lemma calls_ok : forall grow cs h V, hrel h V -> plain cs V ->
  match v_calls cs V with Ret V' l => exists h', a_calls grow cs h = Ret h' l /\ hrel h' V' | Fuel => a_calls grow cs h = Fuel | _ => a_calls grow cs h = Undef end.
Proof.
  intros grow. induction cs as [|c cs IH]; intros h V R P; cbn [v_calls a_calls].
  - exists h. auto.
  - cbn [plain] in P. destruct P as [P1 [Z P2]]. pose proof (call_ok grow c h V R P1 Z) as C.
    destruct (v_call c V) as [V1 a|V1|V1| |]; cbn [calls_as bind] in *; try (rewrite C; reflexivity).
    destruct C as [h1 [E R1]]. rewrite E. cbn [bind]. pose proof (IH h1 V1 R1 P2) as C.
    destruct (v_calls cs V1) as [V2 l|V2|V2| |]; cbn [bind]; try (rewrite C; reflexivity). destruct C as [h2 [E2 R2]]. rewrite E2. exists h2. auto.
Qed.
Lemma rel_new : hrel ah_new [].
Proof. constructor; cbn; [|constructor]. split; [constructor|]. intros p. split; [intros [l Hl]; destruct p; discriminate|intros []]. Qed.

(** ** Blocks in use *)
Lemma use_seq : forall H b, length (filter (fun p => match nth_error H (p - b) with Some (Some _) => true | _ => false end) (seq b (length H))) = in_use H.
Proof.
  induction H as [|x H IH]; intros b; [reflexivity|]. cbn [length seq filter]. rewrite Nat.sub_diag. cbn [nth_error]. unfold in_use in *. cbn [filter].
  assert (E : filter (fun p => match nth_error (x :: H) (p - b) with Some (Some _) => true | _ => false end) (seq (S b) (length H)) = filter (fun p => match nth_error H (p - S b) with Some (Some _) => true | _ => false end) (seq (S b) (length H))).
  { apply filter_ext_in. intros p Hp. apply in_seq in Hp. replace (p - b)%nat with (S (p - S b)) by lia. reflexivity. }
  rewrite E. destruct x; cbn [length]; rewrite IH; reflexivity.
Qed.
Lemma use_owned : forall H ps, owned H ps -> in_use H = length ps.
Proof.
  intros H ps [N O]. rewrite <- (use_seq H 0). apply Permutation_length, NoDup_Permutation; [apply NoDup_filter, seq_NoDup|exact N|].
  intros p. rewrite filter_In, in_seq, Nat.sub_0_r, <- O. unfold read_block. split.
  - intros [_ E]. destruct (nth_error H p) as [[l|]|]; try discriminate. eauto.
  - intros [l E]. split; [split; [lia|]; cbn; apply nth_error_Some; destruct (nth_error H p); congruence|]. destruct (nth_error H p) as [[|]|]; congruence.
Qed.
Lemma points_len : forall H p o, points H p o -> length (ol p) = has_block o.
Proof. intros H [p|] [o|] P; cbn in *; try contradiction; reflexivity. Qed.
Lemma needs_ok : forall H l d, Forall2 (holds H) l d -> length (flat_map ptrs l) = needs d.
Proof.
  intros H l d F. induction F as [|s x l d F1 F2 IH]; [reflexivity|]. cbn [flat_map]. unfold needs in *. cbn [map list_sum fold_right]. rewrite app_length, IH. unfold ptrs. rewrite app_length.
  rewrite (points_len _ _ _ (ho_key _ _ _ F1)), (points_len _ _ _ (ho_src _ _ _ F1)). destruct (snd x); reflexivity.
Qed.
Lemma all_need_ok : forall H A V, Forall2 (slot H) A V -> length (aptrs A) = all_need V.
Proof.
  intros H A V F. induction F as [|o x A V F1 F2 IH]; [reflexivity|]. unfold aptrs, all_need in *. cbn [flat_map map list_sum fold_right]. rewrite app_length, IH. f_equal.
  destruct o as [v|], x as [d|]; cbn [slot vptrs] in *; try contradiction; [|reflexivity]. apply (needs_ok H). apply F1.
Qed.
Lemma use_ok : forall h V, hrel h V -> in_use (ah_blks h) = all_need V.
Proof. intros h V [O F]. rewrite (use_owned _ _ O). eapply all_need_ok; eauto. Qed.

(** ** Assignment of states *)
Lemma delete_keeps : forall p H H' q, delete_block p H = Ret H' tt -> read_block q H = None -> read_block q H' = None.
Proof.
  intros [p|] H H' q E N; cbn [delete_block] in E; [|congruence]. destruct (read_block p H) eqn:R; [|discriminate]. injection E as <-.
  destruct (Nat.eq_dec p q) as [->|D]; [congruence|]. unfold read_block in *. rewrite nth_upd_ne by exact D. exact N.
Qed.
Lemma delete_ret : forall p H, (exists H', delete_block p H = Ret H' tt) \/ delete_block p H = Undef.
Proof. intros [p|] H; cbn [delete_block]; [|eauto]. destruct (read_block p H); eauto. Qed.
Lemma delete_gone : forall p H H', delete_block (Some p) H = Ret H' tt -> read_block p H' = None.
Proof.
  intros p H H' E. cbn [delete_block] in E. destruct (read_block p H) eqn:R; [|discriminate]. injection E as <-. unfold read_block in *. rewrite nth_upd_eq; [reflexivity|].
  apply nth_error_Some. destruct (nth_error H p); congruence.
Qed.
Lemma destroy_keeps : forall l H H' q, destroy_all l H = Ret H' tt -> read_block q H = None -> read_block q H' = None.
Proof.
  induction l as [|s l IH]; intros H H' q E N; cbn [destroy_all] in E; [congruence|]. unfold as_destroy in E.
  destruct (delete_ret (as_key s) H) as [[H1 E1]|E1]; rewrite E1 in E; [|discriminate E]. cbn [bind] in E.
  destruct (delete_ret (as_src s) H1) as [[H2 E2]|E2]; rewrite E2 in E; [|discriminate E]. cbn [bind] in E.
  eapply IH; [exact E|]. eapply delete_keeps; [exact E2|]. eapply delete_keeps; eauto.
Qed.
Lemma destroy_ret : forall l H, (exists H', destroy_all l H = Ret H' tt) \/ destroy_all l H = Undef.
Proof.
  induction l as [|s l IH]; intros H; cbn [destroy_all]; [eauto|]. unfold as_destroy. destruct (delete_ret (as_key s) H) as [[H1 E1]|E1]; rewrite E1; [|right; reflexivity]. cbn [bind].
  destruct (delete_ret (as_src s) H1) as [[H2 E2]|E2]; rewrite E2; [|right; reflexivity]. cbn [bind]. apply IH.
Qed.
Lemma destroy_gone : forall l H H' p, In p (flat_map ptrs l) -> destroy_all l H = Ret H' tt -> read_block p H' = None.
Proof.
  induction l as [|s l IH]; intros H H' p I E; cbn [destroy_all flat_map] in *; [destruct I|]. unfold as_destroy in E.
  destruct (delete_ret (as_key s) H) as [[H1 E1]|E1]; rewrite E1 in E; [|discriminate E]. cbn [bind] in E.
  destruct (delete_ret (as_src s) H1) as [[H2 E2]|E2]; rewrite E2 in E; [|discriminate E]. cbn [bind] in E.
  apply in_app_or in I. destruct I as [I|I]; [|eapply IH; eauto]. eapply destroy_keeps; [exact E|]. unfold ptrs in I. apply in_app_or in I. destruct I as [I|I].
  - destruct (as_key s) as [q|]; [destruct I as [->|[]]|destruct I]. eapply delete_keeps; [exact E2|]. eapply delete_gone; eauto.
  - destruct (as_src s) as [q|]; [destruct I as [->|[]]|destruct I]. eapply delete_gone; eauto.
Qed.
Lemma destroy_dead : forall l H p, In p (flat_map ptrs l) -> read_block p H = None -> destroy_all l H = Undef.
Proof.
  induction l as [|s l IH]; intros H p I N; cbn [destroy_all flat_map] in *; [destruct I|]. unfold as_destroy.
  destruct (delete_ret (as_key s) H) as [[H1 E1]|E1]; rewrite E1; [|reflexivity]. cbn [bind].
  destruct (delete_ret (as_src s) H1) as [[H2 E2]|E2]; rewrite E2; [|reflexivity]. cbn [bind].
  pose proof (delete_keeps _ _ _ _ E1 N) as N1. pose proof (delete_keeps _ _ _ _ E2 N1) as N2.
  apply in_app_or in I. destruct I as [I|I]; [|eapply IH; eauto]. exfalso. unfold ptrs in I. apply in_app_or in I. destruct I as [I|I].
  - destruct (as_key s) as [q|]; [destruct I as [->|[]]|destruct I]. cbn [delete_block] in E1. rewrite N in E1. discriminate.
  - destruct (as_src s) as [q|]; [destruct I as [->|[]]|destruct I]. cbn [delete_block] in E2. rewrite N1 in E2. discriminate.
Qed.
Lemma shared_destroyed : forall grow h k j v w p, k <> j -> ah_get h k = Some v -> ah_get h j = Some w -> In p (flat_map ptrs (av_states v)) -> In p (flat_map ptrs (av_states w)) ->
  a_calls grow [ADestroy k; ADestroy j] h = Undef.
Proof.
  intros grow h k j v w p D Ek Ej Iv Iw. cbn [a_calls a_call]. rewrite Ek. destruct (destroy_ret (av_states v) (ah_blks h)) as [[H1 E1]|E1]; rewrite E1; [|reflexivity].
  cbn [with_blocks bind fst snd]. unfold ah_get in *. cbn [ah_atms ah_blks]. rewrite nth_upd_ne by exact D. rewrite Ej.
  rewrite (destroy_dead _ H1 p Iw (destroy_gone _ _ _ _ Iv E1)). reflexivity.
Qed.
Lemma needs_ptr : forall H l d, Forall2 (holds H) l d -> (0 < needs d)%nat -> exists p, In p (flat_map ptrs l).
Proof. intros H l d F N. rewrite <- (needs_ok _ _ _ F) in N. destruct (flat_map ptrs l) as [|p ps]; [inversion N|]. exists p. left. reflexivity. Qed.
Lemma f2_firstn : forall {A B} (R : A -> B -> Prop) n l d, Forall2 R l d -> Forall2 R (firstn n l) (firstn n d).
Proof. intros A B R n l d F. revert n. induction F; intros [|n]; cbn; constructor; auto. Qed.
Lemma f2_skipn : forall {A B} (R : A -> B -> Prop) n l d, Forall2 R l d -> Forall2 R (skipn n l) (skipn n d).
Proof. intros A B R n l d F. revert n. induction F; intros [|n]; cbn; try constructor; auto. Qed.
Lemma get_upd : forall h k o H, (k < length (ah_atms h))%nat -> ah_get (mkAh H (upd k o (ah_atms h))) k = o.
Proof. intros h k o H L. unfold ah_get. cbn [ah_atms]. rewrite nth_upd_eq by exact L. reflexivity. Qed.
Lemma get_upd_ne : forall h k j o H, k <> j -> ah_get (mkAh H (upd k o (ah_atms h))) j = ah_get h j.
Proof. intros h k j o H L. unfold ah_get. cbn [ah_atms]. rewrite nth_upd_ne by exact L. reflexivity. Qed.
Lemma assign_shares : forall grow h V k j v w dk dj, hrel h V -> k <> j -> ah_get h k = Some v -> ah_get h j = Some w -> v_get V k = Some dk -> v_get V j = Some dj ->
  (length dj <= av_cap v)%nat ->
  exists h1, a_call grow (AAssign k j) h = Ret h1 ANothing /\
    (in_use (ah_blks h1) + needs (skipn (length dj) dk) = in_use (ah_blks h) + needs (skipn (length dk) dj))%nat /\
    ((0 < needs (firstn (length dk) dj))%nat -> a_calls grow [ADestroy k; ADestroy j] h1 = Undef /\ a_calls grow [ADestroy j; ADestroy k] h1 = Undef).
Proof.
  intros grow h V k j v w dk dj R D Ek Ej Ed Ee L. pose proof (focus h V k R) as K. rewrite Ek in K.
  destruct K as [d [A1 [A2 [V1 [V2 [Ed' [EA [EV [L1 [L2 [G F]]]]]]]]]]]. rewrite Ed in Ed'. injection Ed' as <-.
  assert (Nj : nth_error (A1 ++ Some v :: A2) j = Some (Some w)) by (unfold ah_get in Ej; rewrite EA in Ej; destruct (nth_error _ j) as [[|]|]; congruence).
  destruct (other _ A1 A2 V1 V2 (Some v) (Some dk) j ltac:(congruence) F ltac:(congruence) w Nj) as [e [Ee' [I [Fe Ce]]]]. rewrite EV in Ee. rewrite Ee in Ee'. injection Ee' as <-.
  pose proof (good_len _ _ _ _ G) as Lv. pose proof (f2_len Fe) as Lw. destruct G as [O Fv C].
  assert (Lk : (k < length (ah_atms h))%nat) by (rewrite EA, app_length; cbn [length]; lia).
  assert (U : in_use (ah_blks h) = (needs dk + length (aptrs (A1 ++ A2)))%nat) by (rewrite (use_owned _ _ O), app_length, (needs_ok _ _ _ Fv); reflexivity).
  cbn [a_call]. rewrite Ek, Ej. destruct (Nat.eqb_spec k j); [contradiction|]. unfold av_assign. rewrite Lv, Lw. destruct (Nat.ltb_spec (av_cap v) (length dj)); [lia|].
  assert (SP : forall n (l : list astate), flat_map ptrs l = flat_map ptrs (firstn n l) ++ flat_map ptrs (skipn n l)) by (intros n' l; rewrite <- flat_map_app, firstn_skipn; reflexivity).
  assert (NP : forall n (l : vatm), needs l = (needs (firstn n l) + needs (skipn n l))%nat).
  { intros n' l. rewrite <- (firstn_skipn n' l) at 1. unfold needs. rewrite map_app, list_sum_app. reflexivity. }
  destruct (Nat.leb_spec (length dj) (length dk)) as [B|B].
  - assert (O1 : owned (ah_blks h) (flat_map ptrs (skipn (length dj) (av_states v)) ++ flat_map ptrs (firstn (length dj) (av_states v)) ++ aptrs (A1 ++ A2))).
    { eapply owned_perm; [|exact O]. rewrite (SP (length dj) (av_states v)), !app_assoc. apply Permutation_app_tail, Permutation_app_comm. }
    destruct (destroy_all_ok _ _ _ O1) as [H1 [E1 [O2 S]]]. rewrite E1. cbn [bind with_blocks fst snd]. eexists. split; [reflexivity|]. split.
    + cbn [ah_blks]. rewrite (use_owned _ _ O2), U, app_length, (needs_ok _ _ _ (f2_firstn _ _ _ _ Fv)). rewrite (NP (length dj) dk). rewrite (skipn_all2 dj) by lia. cbn. lia.
    + rewrite firstn_all2 by lia. intros N. destruct (needs_ptr _ _ _ Fe N) as [p Hp].
      pose proof (get_upd h k (Some (mkAv (av_states w) (av_cap v))) H1 Lk) as Gk. pose proof (get_upd_ne h k j (Some (mkAv (av_states w) (av_cap v))) H1 D) as Gj. rewrite Ej in Gj.
      split; [exact (shared_destroyed grow _ k j _ _ p D Gk Gj Hp Hp)|exact (shared_destroyed grow _ j k _ _ p (not_eq_sym D) Gj Gk Hp Hp)].
  - destruct (copy_all_ok (skipn (length dk) (av_states w)) (ah_blks h) _ (skipn (length dk) dj) O) as [H1 [l [E1 [O1 [S1 F1]]]]].
    { eapply incl_tran; [|apply incl_appr; exact I]. rewrite (SP (length dk) (av_states w)). apply incl_appr, incl_refl. }
    { apply f2_skipn. exact Fe. }
    rewrite E1. cbn [bind with_blocks fst snd]. eexists. split; [reflexivity|]. split.
    + cbn [ah_blks]. rewrite (use_owned _ _ O1), U, !app_length, (needs_ok _ _ _ F1), (needs_ok _ _ _ Fv). rewrite (skipn_all2 dk) by lia. cbn. lia.
    + intros N. destruct (needs_ptr _ _ _ (f2_firstn _ (length dk) _ _ Fe) N) as [p Hp].
      assert (Pv : In p (flat_map ptrs (firstn (length dk) (av_states w) ++ l))) by (rewrite flat_map_app; apply in_or_app; left; exact Hp).
      assert (Pw : In p (flat_map ptrs (av_states w))) by (rewrite (SP (length dk) (av_states w)); apply in_or_app; left; exact Hp).
      pose proof (get_upd h k (Some (mkAv (firstn (length dk) (av_states w) ++ l) (av_cap v))) H1 Lk) as Gk. pose proof (get_upd_ne h k j (Some (mkAv (firstn (length dk) (av_states w) ++ l) (av_cap v))) H1 D) as Gj. rewrite Ej in Gj.
      split; [exact (shared_destroyed grow _ k j _ _ p D Gk Gj Pv Pw)|exact (shared_destroyed grow _ j k _ _ p (not_eq_sym D) Gj Gk Pw Pv)].
Qed.
(** without place for the states *)
Lemma assign_copies : forall grow h V k j v dk dj, hrel h V -> ah_get h k = Some v -> v_get V k = Some dk -> v_get V j = Some dj -> (av_cap v < length dj)%nat ->
  exists h1, a_call grow (AAssign k j) h = Ret h1 ANothing /\ hrel h1 (upd k (Some dj) V).
Proof.
  intros grow h V k j v dk dj R Ek Ed Ee L. pose proof (focus h V k R) as K. rewrite Ek in K.
  destruct K as [d [A1 [A2 [V1 [V2 [Ed' [EA [EV [L1 [L2 [G F]]]]]]]]]]]. rewrite Ed in Ed'. injection Ed' as <-. cbn [a_call]. rewrite Ek.
  destruct (ah_get h j) as [w|] eqn:Ej; [|rewrite (get_none _ _ _ R Ej) in Ee; discriminate].
  destruct (Nat.eqb_spec k j) as [<-|D].
  { eexists. split; [reflexivity|]. rewrite Ed in Ee. injection Ee as <-. rewrite upd_same; [exact R|]. rewrite EV, <- L2. apply nth_mid. }
  assert (Nj : nth_error (A1 ++ Some v :: A2) j = Some (Some w)) by (unfold ah_get in Ej; rewrite EA in Ej; destruct (nth_error _ j) as [[|]|]; congruence).
  destruct (other _ A1 A2 V1 V2 (Some v) (Some dk) j ltac:(congruence) F ltac:(congruence) w Nj) as [e [Ee' [I [Fe Ce]]]]. rewrite EV in Ee. rewrite Ee in Ee'. injection Ee' as <-.
  destruct (assign_right (ah_blks h) _ v w dk dj G I Fe ltac:(auto)) as [H' [v' [E [G' S]]]]. rewrite E. cbn [with_blocks fst snd]. eexists. split; [reflexivity|].
  rewrite EA, EV, !upd_at by congruence. eapply unfocus; eauto. congruence.
Qed.

(** ** The automata of PathAtm.v *)
Lemma map_upd : forall i f g (a : vatm), (forall s, fst (g s) = f (fst s)) -> map fst (v_upd i g a) = atm_upd i f (map fst a).
Proof.
  intros i f g a E. unfold v_upd, atm_upd. rewrite nth_map. destruct (nth_error a i) as [s|] eqn:N; [|reflexivity]. rewrite <- E. clear N. revert i. induction a as [|x a IH]; intros [|i]; cbn; congruence.
Qed.
Lemma last_ret : forall fuel i a x j, atm_last fuel i a = Ret x j -> x = a.
Proof. induction fuel as [|fuel IH]; intros i a x j E; [discriminate|]. cbn [atm_last] in E. destruct (nth_error a i) as [s|]; [|discriminate]. destruct (st_link s); [eauto|congruence]. Qed.
Lemma last_out : forall fuel i a, (exists j, atm_last fuel i a = Ret a j) \/ atm_last fuel i a = Fuel \/ atm_last fuel i a = Undef.
Proof. induction fuel as [|fuel IH]; intros i a; [auto|]. cbn [atm_last]. destruct (nth_error a i) as [s|]; [|auto]. destruct (st_link s); eauto. Qed.
Lemma find_out : forall fuel op key follow ee a, (exists j, atm_find fuel op key follow ee a = Ret a j) \/ atm_find fuel op key follow ee a = Fuel \/ atm_find fuel op key follow ee a = Undef.
Proof.
  induction fuel as [|fuel IH]; intros op key follow ee a; [auto|]. cbn [atm_find]. destruct ee as [i|]; [|eauto]. destruct (nth_error a i) as [s|]; [|auto].
  match goal with |- context [if ?b then _ else _] => destruct b end; eauto.
Qed.
Definition as_atm {A} (x : out unit (A * vatm)) (f : atm -> A -> out atm nat) : out atm nat := match x with Ret _ (n, a) => f (map fst a) n | Fuel => Fuel | _ => Undef end.
Lemma alt_map : forall i (a : vatm), atm_alt i (map fst a) = as_atm (v_alt i a) Ret.
Proof.
  intros i a. unfold atm_alt, v_alt. rewrite nth_map. destruct (nth_error a i) as [s|]; [|reflexivity]. destruct (st_isempty (fst s)); [reflexivity|]. rewrite map_length.
  destruct (last_out (S (length a)) i (map fst a)) as [[j E]|[E|E]]; rewrite E; cbn [bind as_atm]; try reflexivity.
  rewrite map_length, map_app, (map_upd _ (st_setLink (length a))) by reflexivity. reflexivity.
Qed.
Lemma next_map : forall i op key src follow (a : vatm), atm_defineNext i op key follow (map fst a) = as_atm (v_defineNext i op key src follow a) Ret.
Proof.
  intros i op key src follow a. unfold atm_defineNext, v_defineNext.
  match goal with |- (let (_, _) := ?X in _) = as_atm (let (_, _) := ?Y in _) _ => replace X with (let (i, a) := Y in (i, map fst a)) by (destruct a; reflexivity); destruct Y as [i1 a1] end. clear a i. rewrite map_length.
  destruct (find_out (S (length a1)) op key follow (Some i1) (map fst a1)) as [[j E]|[E|E]]; rewrite E; cbn [bind as_atm]; try reflexivity.
  destruct j as [[n|]|]; try reflexivity. rewrite map_length.  destruct (last_out (S (length a1)) i1 (map fst a1)) as [[j E2]|[E2|E2]]; rewrite E2; cbn [bind as_atm]; try reflexivity.
  rewrite alt_map. destruct (v_alt j a1) as [u [j2 a2]|u|u| |]; cbn [bind as_atm fst snd]; try reflexivity.
  rewrite (map_upd _ (st_defineNext op key (length (a2 ++ [v_new]) - 1) follow)) by reflexivity. rewrite map_app, !app_length, map_length.  reflexivity.
Qed.
Lemma output_map : forall i m t follow b e (a : vatm),
  atm_defineOutput i m t follow b e (map fst a) = as_atm (v_defineOutput i m t follow b e a) (fun a n => match n with Some n => Ret a n | None => Throw a end).
Proof.
  intros i m t follow b e a. unfold atm_defineOutput, v_defineOutput.
  match goal with |- (let (_, _) := ?X in _) = as_atm (let (_, _) := ?Y in _) _ => replace X with (let (i, a) := Y in (i, map fst a)) by (destruct a; reflexivity); destruct Y as [i1 a1] end. clear a i. rewrite map_length.  destruct (Nat.leb (length a1) i1); [reflexivity|].
  rewrite alt_map. destruct (v_alt i1 a1) as [u [j2 a2]|u|u| |]; cbn [bind as_atm fst snd]; try reflexivity.
  rewrite (map_upd _ (st_defineOutput m t follow b e)) by reflexivity. reflexivity.
Qed.
