(** The memory of automata (proofs). *)
From Coq Require Import Lia Permutation.
From Verif Require Import Base XmlScanner PathAtm AtmMemory AtmValue.

(** ** Blocks *)
Definition owned (H : blocks) (ps : list nat) : Prop := NoDup ps /\ forall p, (exists l, read_block p H = Some l) <-> In p ps.
Definition same_on (ps : list nat) (H H' : blocks) : Prop := forall p, In p ps -> read_block p H' = read_block p H.
Lemma same_refl : forall ps H, same_on ps H H.
Proof. intros ps H p _. reflexivity. Qed.
Lemma same_trans : forall ps H1 H2 H3, same_on ps H1 H2 -> same_on ps H2 H3 -> same_on ps H1 H3.
Proof. intros ps H1 H2 H3 A B p Hp. rewrite (B p Hp). apply A. exact Hp. Qed.
Lemma same_incl : forall ps qs H H', same_on ps H H' -> incl qs ps -> same_on qs H H'.
Proof. intros ps qs H H' A B p Hp. apply A, B, Hp. Qed.
Lemma owned_perm : forall H ps qs, Permutation ps qs -> owned H ps -> owned H qs.
Proof.
  intros H ps qs P [N O]. split; [eapply Permutation_NoDup; eauto|]. intros p. rewrite O. split; apply Permutation_in; [exact P|symmetry; exact P].
Qed.
Lemma owned_lt : forall H ps p, owned H ps -> In p ps -> (p < length H)%nat.
Proof. intros H ps p [_ O] Hp. apply O in Hp. destruct Hp as [l Hl]. unfold read_block in Hl. apply nth_error_Some. destruct (nth_error H p); congruence. Qed.
Lemma new_ok : forall H ps l, owned H ps -> exists H' p, new_block l H = Ret H' p /\ owned H' (p :: ps) /\ same_on ps H H' /\ read_block p H' = Some l.
Proof.
  intros H ps l O. exists (H ++ [Some l]), (length H). split; [reflexivity|].
  assert (R : read_block (length H) (H ++ [Some l]) = Some l) by (unfold read_block; rewrite nth_error_app2, Nat.sub_diag by lia; reflexivity).
  assert (E : forall p, (p < length H)%nat -> read_block p (H ++ [Some l]) = read_block p H) by (intros p Hp; unfold read_block; rewrite nth_error_app1 by exact Hp; reflexivity).
  split; [|split; [|exact R]].
  - split.
    + constructor; [|apply O]. intros Hp. apply (owned_lt _ _ _ O) in Hp. lia.
    + intros p. split.
      * intros [b Hb]. destruct (Nat.lt_ge_cases p (length H)) as [Hp|Hp]; [right; apply O; exists b; rewrite <- E by exact Hp; exact Hb|].
        left. unfold read_block in Hb. rewrite nth_error_app2 in Hb by exact Hp. destruct (p - length H)%nat as [|n] eqn:D; [lia|destruct n; discriminate].
      * intros [<-|Hp]; [eauto|]. rewrite E by (eapply owned_lt; eauto). apply O. exact Hp.
  - intros p Hp. apply E. eapply owned_lt; eauto.
Qed.
Lemma nth_upd_eq : forall {A} (l : list A) i x, (i < length l)%nat -> nth_error (upd i x l) i = Some x.
Proof. intros A. induction l as [|y l IH]; intros [|i] x Hi; cbn in *; try lia; [reflexivity|]. apply IH. lia. Qed.
Lemma nth_upd_ne : forall {A} (l : list A) i j x, i <> j -> nth_error (upd i x l) j = nth_error l j.
Proof. intros A. induction l as [|y l IH]; intros [|i] [|j] x Hi; cbn; try reflexivity; [congruence|]. apply IH. congruence. Qed.
Lemma upd_len : forall {A} (l : list A) i x, length (upd i x l) = length l.
Proof. intros A. induction l as [|y l IH]; intros [|i] x; cbn; auto. Qed.
Lemma delete_ok : forall H ps p, owned H (p :: ps) -> exists H', delete_block (Some p) H = Ret H' tt /\ owned H' ps /\ same_on ps H H'.
Proof.
  intros H ps p O. pose proof (owned_lt _ _ p O (or_introl eq_refl)) as L. destruct O as [N O]. pose proof (proj2 (O p) (or_introl eq_refl)) as [l Hl]. inversion N as [|? ? N1 N2]; subst.
  exists (upd p None H). unfold delete_block. rewrite Hl. split; [reflexivity|].
  assert (E : forall q, q <> p -> read_block q (upd p None H) = read_block q H) by (intros q Hq; unfold read_block; rewrite nth_upd_ne by congruence; reflexivity).
  split.
  - split; [exact N2|]. intros q. split.
    + intros [b Hb]. destruct (Nat.eq_dec q p) as [->|Hq]; [unfold read_block in Hb; rewrite nth_upd_eq in Hb by exact L; discriminate|].
      rewrite E in Hb by exact Hq. destruct (proj1 (O q) (ex_intro _ _ Hb)) as [<-|Hi]; [congruence|exact Hi].
    + intros Hq. rewrite E by (intros ->; contradiction). apply O. right. exact Hq.
  - intros q Hq. apply E. intros ->. contradiction.
Qed.
Definition ol (p : option nat) : list nat := match p with Some p => [p] | None => [] end.
Lemma delete_opt : forall H ps p, owned H (ol p ++ ps) -> exists H', delete_block p H = Ret H' tt /\ owned H' ps /\ same_on ps H H'.
Proof. intros H ps [p|] O; [apply delete_ok; exact O|]. exists H. split; [reflexivity|]. split; [exact O|apply same_refl]. Qed.

(** ** States *)
Definition ptrs (s : astate) : list nat := ol (as_key s) ++ ol (as_src s).
Definition points (H : blocks) (p : option nat) (o : option (list N)) : Prop :=
  match p, o with Some p, Some l => read_block p H = Some l | None, None => True | _, _ => False end.
Record holds (H : blocks) (s : astate) (v : vstate) : Prop := mkHolds {
  ho_core : as_core s = st_core (fst v); ho_next : as_next s = st_next (fst v); ho_link : as_link s = st_link (fst v);
  ho_key : points H (as_key s) (st_key (fst v)); ho_size : match st_key (fst v) with Some k => as_keysize s = length k | None => True end;
  ho_src : points H (as_src s) (option_map (fun l => l ++ [0]) (snd v)); ho_name : match snd v with Some l => Forall (fun b => b <> 0) l | None => True end }.
Lemma points_same : forall ps H H' p o, same_on ps H H' -> incl (ol p) ps -> points H p o -> points H' p o.
Proof. intros ps H H' [p|] [o|] S I P; cbn in *; auto. rewrite S; [exact P|]. apply I. left. reflexivity. Qed.
Lemma holds_same : forall ps H H' s v, same_on ps H H' -> incl (ptrs s) ps -> holds H s v -> holds H' s v.
Proof.
  intros ps H H' s v S I [A B C D E F G]. unfold ptrs in I. apply incl_app_inv in I. destruct I as [I1 I2].
  constructor; auto; eapply points_same; eauto.
Qed.
Lemma all_same : forall ps H H' l d, same_on ps H H' -> incl (flat_map ptrs l) ps -> Forall2 (holds H) l d -> Forall2 (holds H') l d.
Proof.
  intros ps H H' l d S I F. induction F as [|s v l d F1 F2 IH]; [constructor|]. cbn [flat_map] in I. apply incl_app_inv in I. destruct I as [I1 I2].
  constructor; [eapply holds_same; eauto|auto].
Qed.
Lemma new_opt : forall H ps o, owned H ps -> exists H' p, match o with None => Ret H None | Some l => let! (H, p) := new_block l H in Ret H (Some p) end = Ret H' p /\ owned H' (ol p ++ ps) /\ same_on ps H H' /\ points H' p o.
Proof.
  intros H ps [l|] O.
  - destruct (new_ok H ps l O) as [H' [p [E [A [B C]]]]]. rewrite E. cbn [bind]. exists H', (Some p). auto.
  - exists H, None. split; [reflexivity|]. split; [exact O|]. split; [apply same_refl|exact I].
Qed.
Lemma defineKey_ok : forall H ps s key src, owned H (ptrs s ++ ps) -> exists H' c, as_defineKey key src s H = Ret H' c /\ owned H' (ptrs c ++ ps) /\ same_on ps H H' /\
  points H' (as_key c) key /\ points H' (as_src c) (option_map (fun l => l ++ [0]) src) /\
  as_core c = as_core s /\ as_next c = as_next s /\ as_link c = as_link s /\ as_keysize c = match key with Some l => length l | None => as_keysize s end.
Proof.
  intros H ps s key src O. unfold ptrs in O. rewrite <- app_assoc in O. unfold as_defineKey.
  destruct (delete_opt _ _ _ O) as [H1 [E1 [O1 S1]]]. rewrite E1. cbn [bind]. destruct (delete_opt _ _ _ O1) as [H2 [E2 [O2 S2]]]. rewrite E2. cbn [bind].
  destruct (new_opt _ _ key O2) as [H3 [p [E3 [O3 [S3 P3]]]]]. rewrite E3. cbn [bind].
  destruct (new_opt _ _ (option_map (fun l => l ++ [0]) src) O3) as [H4 [q [E4 [O4 [S4 P4]]]]].
  replace (match src with None => Ret H3 None | Some l => let! (H, p0) := new_block (l ++ [0]) H3 in Ret H (Some p0) end) with (Ret H4 q) by (rewrite <- E4; destruct src; reflexivity).
  cbn [bind]. eexists _, _. split; [reflexivity|]. unfold ptrs. cbn [as_key as_src as_core as_next as_link as_keysize].
  split; [eapply owned_perm; [|exact O4]; rewrite !app_assoc; apply Permutation_app_tail, Permutation_app_comm|].
  split.
  - eapply same_trans; [eapply same_incl; [exact S1|apply incl_appr, incl_refl]|]. eapply same_trans; [exact S2|]. eapply same_trans; [exact S3|]. eapply same_incl; [exact S4|]. apply incl_appr, incl_refl.
  - split; [eapply points_same; [exact S4| |exact P3]; apply incl_appl, incl_refl|]. auto.
Qed.
Lemma before_zero_ok : forall l, Forall (fun b => b <> 0) l -> before_zero (l ++ [0]) = Some l.
Proof. induction 1 as [|c l Hc H IH]; [reflexivity|]. cbn [before_zero app]. destruct (N.eqb_spec c 0); [contradiction|]. rewrite IH. reflexivity. Qed.
Lemma read_all : forall p l n H, read_block p H = Some l -> n = length l -> read_bytes p n H = Some l.
Proof. intros p l n H E ->. unfold read_bytes. rewrite E. destruct l as [|c l]; [reflexivity|]. cbn [length Nat.eqb]. rewrite Nat.leb_refl. f_equal. exact (firstn_all (c :: l)). Qed.
Lemma copy_ok : forall H ps s v, owned H ps -> holds H s v -> exists H' c, as_copy s H = Ret H' c /\ owned H' (ptrs c ++ ps) /\ same_on ps H H' /\ holds H' c v.
Proof.
  intros H ps s v O [A B C D E F G]. unfold as_copy.
  assert (K : match as_key s with None => Some None | Some p => option_map Some (read_bytes p (as_keysize s) H) end = Some (st_key (fst v))).
  { destruct (as_key s) as [p|], (st_key (fst v)) as [k|]; cbn [points] in D; try contradiction; [|reflexivity]. rewrite (read_all _ _ _ _ D E). reflexivity. }
  assert (S : match as_src s with None => Some None | Some p => option_map Some (read_string p H) end = Some (snd v)).
  { destruct (as_src s) as [p|], (snd v) as [k|]; cbn [points option_map] in F; try contradiction; [|reflexivity]. unfold read_string. rewrite F, before_zero_ok by exact G. reflexivity. }
  rewrite K, S. destruct (defineKey_ok H ps (mkAs (as_core s) (as_keysize s) None None (as_next s) (as_link s)) (st_key (fst v)) (snd v) O) as [H' [c [E1 [O1 [S1 [P1 [P2 [C1 [C2 [C3 C4]]]]]]]]]].
  exists H', c. split; [exact E1|]. split; [exact O1|]. split; [exact S1|]. cbn [as_core as_next as_link] in *. constructor; try congruence; auto. destruct (st_key (fst v)); auto.
Qed.
Lemma destroy_ok : forall H ps s, owned H (ptrs s ++ ps) -> exists H', as_destroy s H = Ret H' tt /\ owned H' ps /\ same_on ps H H'.
Proof.
  intros H ps s O. unfold ptrs in O. rewrite <- app_assoc in O. unfold as_destroy.
  destruct (delete_opt _ _ _ O) as [H1 [E1 [O1 S1]]]. rewrite E1. cbn [bind]. destruct (delete_opt _ _ _ O1) as [H2 [E2 [O2 S2]]]. exists H2. split; [exact E2|]. split; [exact O2|].
  eapply same_trans; [eapply same_incl; [exact S1|apply incl_appr, incl_refl]|exact S2].
Qed.
Lemma copy_all_ok : forall l H ps d, owned H ps -> incl (flat_map ptrs l) ps -> Forall2 (holds H) l d ->
  exists H' l', copy_all l H = Ret H' l' /\ owned H' (flat_map ptrs l' ++ ps) /\ same_on ps H H' /\ Forall2 (holds H') l' d.
Proof.
  induction l as [|s l IH]; intros H ps d O I F; cbn [copy_all].
  - inversion F; subst. exists H, []. split; [reflexivity|]. split; [exact O|]. split; [apply same_refl|constructor].
  - inversion F as [|? v ? d' F1 F2]; subst. cbn [flat_map] in I. apply incl_app_inv in I. destruct I as [I1 I2].
    destruct (copy_ok H ps s v O F1) as [H1 [c [E1 [O1 [S1 F3]]]]]. rewrite E1. cbn [bind].
    destruct (IH H1 (ptrs c ++ ps) d' O1) as [H2 [l' [E2 [O2 [S2 F4]]]]]; [apply incl_appr; exact I2|eapply all_same; eauto|].
    rewrite E2. cbn [bind]. exists H2, (c :: l'). split; [reflexivity|]. cbn [flat_map]. split; [|split].
    + eapply owned_perm; [|exact O2]. rewrite !app_assoc. apply Permutation_app_tail, Permutation_app_comm.
    + eapply same_trans; [exact S1|]. eapply same_incl; [exact S2|]. apply incl_appr, incl_refl.
    + constructor; [|exact F4]. eapply holds_same; [exact S2| |exact F3]. apply incl_appl, incl_refl.
Qed.
Lemma destroy_all_ok : forall l H ps, owned H (flat_map ptrs l ++ ps) -> exists H', destroy_all l H = Ret H' tt /\ owned H' ps /\ same_on ps H H'.
Proof.
  induction l as [|s l IH]; intros H ps O; cbn [destroy_all flat_map] in *.
  - exists H. split; [reflexivity|]. split; [exact O|apply same_refl].
  - rewrite <- app_assoc in O. destruct (destroy_ok _ _ _ O) as [H1 [E1 [O1 S1]]]. rewrite E1. cbn [bind]. destruct (IH H1 ps O1) as [H2 [E2 [O2 S2]]]. exists H2. split; [exact E2|]. split; [exact O2|].
    eapply same_trans; [eapply same_incl; [exact S1|apply incl_appr, incl_refl]|exact S2].
Qed.

(** ** Vectors *)
Lemma f2_len : forall {A B} {R : A -> B -> Prop} {l d}, Forall2 R l d -> length l = length d.
Proof. intros A B R l d F. induction F; cbn; congruence. Qed.
Record good (ps : list nat) (H : blocks) (v : avec) (d : vatm) : Prop := mkGood {
  go_owned : owned H (flat_map ptrs (av_states v) ++ ps); go_holds : Forall2 (holds H) (av_states v) d; go_cap : (length (av_states v) <= av_cap v)%nat }.
Lemma good_len : forall ps H v d, good ps H v d -> length (av_states v) = length d.
Proof. intros ps H v d [_ F _]. exact (f2_len F). Qed.
Lemma good_new : forall ps H, owned H ps -> good ps H av_new [].
Proof. intros ps H O. constructor; [exact O|constructor|apply le_n]. Qed.
Lemma forall2_nth : forall {A B} (R : A -> B -> Prop) l d i, Forall2 R l d -> match nth_error l i, nth_error d i with Some s, Some v => R s v | None, None => True | _, _ => False end.
Proof. intros A B R l d i F. revert i. induction F as [|s v l d F1 F2 IH]; intros [|i]; cbn; [exact I|exact I|exact F1|apply IH]. Qed.
Lemma upd_mid : forall {A} (l1 l2 : list A) s x, upd (length l1) x (l1 ++ s :: l2) = l1 ++ x :: l2.
Proof. intros A. induction l1 as [|y l1 IH]; intros l2 s x; cbn; [reflexivity|]. rewrite IH. reflexivity. Qed.
Lemma forall2_split : forall {A B} (R : A -> B -> Prop) l1 s l2 d, Forall2 R (l1 ++ s :: l2) d -> exists d1 v d2, d = d1 ++ v :: d2 /\ length d1 = length l1 /\ Forall2 R l1 d1 /\ R s v /\ Forall2 R l2 d2.
Proof.
  intros A B R l1 s l2 d F. apply Forall2_app_inv_l in F. destruct F as [d1 [d' [F1 [F2 ->]]]]. inversion F2 as [|? v ? d2 F3 F4]; subst. exists d1, v, d2.
  split; [reflexivity|]. split; [symmetry; exact (f2_len F1)|]. auto.
Qed.
Lemma nth_mid : forall {A} (l1 l2 : list A) s, nth_error (l1 ++ s :: l2) (length l1) = Some s.
Proof. intros. rewrite nth_error_app2, Nat.sub_diag by lia. reflexivity. Qed.
Lemma new_holds : forall H, holds H as_new v_new.
Proof. intros H. constructor; cbn; auto. Qed.
Lemma copy_new : forall H, as_copy as_new H = Ret H as_new.
Proof. reflexivity. Qed.

Lemma push_ok : forall grow ps H v d, good ps H v d -> exists H' v', av_push grow as_new v H = Ret H' v' /\ good ps H' v' (d ++ [v_new]) /\ same_on ps H H'.
Proof.
  intros grow ps H [l c] d [O F C]. cbn [av_states av_cap] in *. unfold av_push. cbn [av_states av_cap]. rewrite copy_new. cbn [bind].
  destruct (Nat.ltb_spec (length l) c) as [Hc|Hc].
  - eexists _, _. split; [reflexivity|]. split; [|apply same_refl]. constructor; cbn [av_states av_cap].
    + rewrite flat_map_app. cbn. rewrite app_nil_r. exact O.
    + apply Forall2_app; [exact F|]. constructor; [apply new_holds|constructor].
    + rewrite app_length. cbn. lia.
  - destruct (copy_all_ok l H _ d O) as [H1 [l' [E1 [O1 [S1 F1]]]]]; [apply incl_appl, incl_refl|exact F|]. rewrite E1. cbn [bind].
    assert (O2 : owned H1 (flat_map ptrs l ++ flat_map ptrs l' ++ ps)) by (eapply owned_perm; [|exact O1]; rewrite !app_assoc; apply Permutation_app_tail, Permutation_app_comm).
    destruct (destroy_all_ok l H1 _ O2) as [H2 [E2 [O3 S2]]]. rewrite E2. cbn [bind]. eexists _, _. split; [reflexivity|]. split.
    + constructor; cbn [av_states av_cap].
      * rewrite flat_map_app. cbn. rewrite app_nil_r. exact O3.
      * apply Forall2_app; [eapply all_same; [exact S2|apply incl_appl, incl_refl|exact F1]|]. constructor; [apply new_holds|constructor].
      * rewrite app_length. cbn [length]. pose proof (f2_len F1). pose proof (f2_len F). lia.
    + eapply same_trans; [eapply same_incl; [exact S1|apply incl_appr, incl_refl]|]. eapply same_incl; [exact S2|apply incl_appr, incl_refl].
Qed.
Lemma upd_ok : forall ps H v d i f g, good ps H v d -> (forall s x, holds H s x -> ptrs (f s) = ptrs s /\ holds H (f s) (g x)) -> good ps H (av_upd i f v) (v_upd i g d).
Proof.
  intros ps H [l c] d i f g [O F C] K. unfold av_upd, v_upd. cbn [av_states av_cap] in *. pose proof (forall2_nth _ _ _ i F) as N.
  destruct (nth_error l i) as [s|] eqn:E; destruct (nth_error d i) as [x|] eqn:E'; try contradiction; [|constructor; assumption].
  destruct (nth_error_split _ _ E) as [l1 [l2 [-> L]]]. destruct (forall2_split _ _ _ _ _ F) as [d1 [x' [d2 [-> [L2 [F1 [F2 F3]]]]]]].
  destruct (K s x N) as [P Q]. subst i. rewrite upd_mid. rewrite <- L2 at 1. rewrite upd_mid. constructor; cbn [av_states av_cap].
  - rewrite flat_map_app in *. cbn [flat_map] in *. rewrite P. exact O.
  - apply Forall2_app; [exact F1|]. constructor; assumption.
  - rewrite app_length in *. exact C.
Qed.
Lemma link_ok : forall H n s x, holds H s x -> ptrs (as_setLink n s) = ptrs s /\ holds H (as_setLink n s) (st_setLink n (fst x), snd x).
Proof. intros H n s x [A B C D E F G]. split; [reflexivity|]. constructor; cbn; auto. Qed.
Lemma output_ok : forall H m t f b e s x, holds H s x -> ptrs (as_defineOutput m t f b e s) = ptrs s /\ holds H (as_defineOutput m t f b e s) (st_defineOutput m t f b e (fst x), snd x).
Proof. intros H m t f b e s x [A B C D E F G]. split; [reflexivity|]. constructor; cbn; auto. Qed.
Lemma empty_ok : forall H s x, holds H s x -> as_isempty s = st_isempty (fst x).
Proof.
  intros H s x [A B C D E F G]. unfold as_isempty, st_isempty. rewrite A, B, C. destruct (as_key s), (st_key (fst x)); cbn [points] in D; try contradiction; reflexivity.
Qed.
Definition onto {S A B} (H : blocks) (x : out S A) (f : A -> B) : out blocks B := match x with Ret _ a => Ret H (f a) | Fuel => Fuel | _ => Undef end.
Lemma nth_map : forall (d : list vstate) i, nth_error (map fst d) i = match nth_error d i with Some s => Some (fst s) | None => None end.
Proof. induction d as [|x d IH]; intros [|i]; cbn; auto. Qed.
Lemma last_ok : forall fuel i v d H, Forall2 (holds H) (av_states v) d -> av_last fuel i v H = onto H (atm_last fuel i (map fst d)) (fun j => j).
Proof.
  induction fuel as [|fuel IH]; intros i v d H F; [reflexivity|]. cbn [av_last atm_last]. rewrite nth_map. pose proof (forall2_nth _ _ _ i F) as N.
  destruct (nth_error (av_states v) i) as [s|], (nth_error d i) as [x|]; cbn [option_map]; try contradiction; [|reflexivity].
  rewrite (ho_link _ _ _ N). destruct (st_link (fst x)); [apply IH; exact F|reflexivity].
Qed.
Lemma key_len : forall a b, key_eqb a b = true -> length a = length b.
Proof. induction a as [|x a IH]; intros [|y b] E; cbn in *; try discriminate; [reflexivity|]. apply andb_true_iff in E. destruct E as [_ E]. rewrite (IH _ E). reflexivity. Qed.
Lemma find_ok : forall fuel op key follow ee v d H, Forall2 (holds H) (av_states v) d -> av_find fuel op key follow ee v H = onto H (atm_find fuel op key follow ee (map fst d)) (fun j => j).
Proof.
  induction fuel as [|fuel IH]; intros op key follow ee v d H F; [reflexivity|]. cbn [av_find atm_find]. destruct ee as [i|]; [|reflexivity]. rewrite nth_map. pose proof (forall2_nth _ _ _ i F) as N.
  destruct (nth_error (av_states v) i) as [s|], (nth_error d i) as [x|]; cbn [option_map]; try contradiction; [|reflexivity].
  destruct N as [A B C D E _ _]. rewrite A, B, C.
  destruct (as_key s) as [p|], (st_key (fst x)) as [k|]; cbn [points] in D; try contradiction; [|apply IH; exact F].
  rewrite (read_all _ _ _ _ D E), E. set (k' := match key with Some k' => k' | None => [] end). clearbody k'.
  destruct (Nat.eqb_spec (length k') (length k)) as [L|L]; cbn [andb].
  - destruct (Bool.eqb (c_follow (st_core (fst x))) follow && m_eqb (m_op op) (c_mask (st_core (fst x)))); cbn [andb]; [|apply IH; exact F].
    destruct (key_eqb k k'); [reflexivity|apply IH; exact F].
  - assert (K : key_eqb k k' = false) by (destruct (key_eqb k k') eqn:K; [apply key_len in K; congruence|reflexivity]).
    rewrite K, andb_false_r. apply IH. exact F.
Qed.
Definition steps {A} (ps : list nat) (H : blocks) (x : out blocks (A * avec)) (y : out unit (A * vatm)) : Prop :=
  match y with
  | Ret _ (a, d) => exists H' v, x = Ret H' (a, v) /\ good ps H' v d /\ same_on ps H H'
  | Fuel => x = Fuel
  | _ => x = Undef
  end.
Lemma alt_ok : forall grow ps i H v d, good ps H v d -> steps ps H (av_alt grow i v H) (v_alt i d).
Proof.
  intros grow ps i H v d G. pose proof (go_holds _ _ _ _ G) as F. unfold av_alt, v_alt. pose proof (forall2_nth _ _ _ i F) as N.
  destruct (nth_error (av_states v) i) as [s|], (nth_error d i) as [x|]; try contradiction; [|reflexivity]. rewrite (empty_ok _ _ _ N).
  destruct (st_isempty (fst x)); [exists H, v; split; [reflexivity|]; split; [exact G|apply same_refl]|].
  rewrite (last_ok _ _ _ _ _ F), (good_len _ _ _ _ G). destruct (atm_last (S (length d)) i (map fst d)) as [a j|a|a| |]; cbn [onto bind]; try reflexivity.
  destruct (push_ok grow ps H (av_upd j (as_setLink (length d)) v) (v_upd j (fun s => (st_setLink (length d) (fst s), snd s)) d)) as [H' [v' [E [G' S']]]]; [apply upd_ok; [exact G|]; intros; apply link_ok; assumption|].
  rewrite E. cbn [bind]. exists H', v'. auto.
Qed.
Lemma define_ok : forall ps H v d j op key src n follow, good ps H v d -> match src with Some l => Forall (fun b => b <> 0) l | None => True end -> (j < length d)%nat ->
  exists H' s s' , nth_error (av_states v) j = Some s /\ as_defineNext op key src n follow s H = Ret H' s' /\
    good ps H' (mkAv (upd j s' (av_states v)) (av_cap v)) (v_upd j (fun s => (st_defineNext op key n follow (fst s), src)) d) /\ same_on ps H H'.
Proof.
  intros ps H [l c] d j op key src n follow [O F C] Z L. cbn [av_states av_cap] in *. pose proof (forall2_nth _ _ _ j F) as N.
  unfold v_upd. destruct (nth_error l j) as [s|] eqn:E; [|destruct (nth_error d j) eqn:E'; [contradiction|apply nth_error_None in E'; lia]].
  destruct (nth_error d j) as [x|]; [|contradiction].
  destruct (nth_error_split _ _ E) as [l1 [l2 [-> Lj]]]. destruct (forall2_split _ _ _ _ _ F) as [d1 [x' [d2 [-> [L2 [F1 [F2 F3]]]]]]].
  set (s0 := mkAs (mkCore (m_seekop op (c_mask (as_core s))) (c_follow (as_core s)) (c_type (as_core s)) (c_start (as_core s)) (c_end (as_core s))) (as_keysize s) (as_key s) (as_src s) (as_next s) (as_link s)).
  assert (O1 : owned H (ptrs s0 ++ (flat_map ptrs (l1 ++ l2) ++ ps))).
  { eapply owned_perm; [|exact O]. rewrite !flat_map_app. cbn [flat_map]. change (ptrs s0) with (ptrs s). rewrite <- !app_assoc. rewrite (app_assoc (flat_map ptrs l1) (ptrs s)), (app_assoc (ptrs s) (flat_map ptrs l1)). apply Permutation_app_tail, Permutation_app_comm. }
  destruct (defineKey_ok H _ s0 key src O1) as [H' [s1 [E1 [O2 [S1 [P1 [P2 [C1 [C2 [C3 C4]]]]]]]]]].
  eexists H', s, _. split; [reflexivity|]. split; [unfold as_defineNext; cbv zeta; fold s0; rewrite E1; cbn [bind]; reflexivity|].
  split; [|eapply same_incl; [exact S1|apply incl_appr, incl_refl]].
  subst j. rewrite upd_mid. rewrite <- L2 at 1. rewrite upd_mid. rewrite flat_map_app in S1. constructor; cbn [av_states av_cap].
  - eapply owned_perm; [|exact O2]. rewrite !flat_map_app. cbn [flat_map]. match goal with |- context [ptrs (mkAs ?a ?b (as_key s1) (as_src s1) ?e ?f)] => change (ptrs (mkAs a b (as_key s1) (as_src s1) e f)) with (ptrs s1) end.
    rewrite <- !app_assoc. rewrite (app_assoc (flat_map ptrs l1) (ptrs s1)), (app_assoc (ptrs s1) (flat_map ptrs l1)). apply Permutation_app_tail, Permutation_app_comm.
  - apply Forall2_app; [eapply all_same; [exact S1| |exact F1]; rewrite <- app_assoc; apply incl_appl, incl_refl|].
    constructor; [|eapply all_same; [exact S1| |exact F3]; rewrite <- app_assoc; apply incl_appr, incl_appl, incl_refl].
    constructor; cbn [as_core as_next as_link as_key as_src as_keysize st_core st_next st_link st_key st_defineNext fst snd]; auto.
    + rewrite C1. subst s0. cbn [as_core c_mask c_type c_start c_end]. rewrite (ho_core _ _ _ N). reflexivity.
    + rewrite C3. subst s0. cbn [as_link]. apply (ho_link _ _ _ N).
    + destruct key; [exact C4|exact I].
  - rewrite app_length in *. exact C.
Qed.
Lemma v_alt_lt : forall i d j d', v_alt i d = Ret tt (j, d') -> (j < length d')%nat.
Proof.
  intros i d j d' E. unfold v_alt in E. destruct (nth_error d i) as [x|] eqn:N; [|discriminate]. destruct (st_isempty (fst x)).
  - injection E as <- <-. apply nth_error_Some. congruence.
  - destruct (atm_last _ _ _) as [a k|a|a| |]; try discriminate. injection E as <- <-. rewrite app_length. cbn [length]. unfold v_upd. destruct (nth_error d k); rewrite ?upd_len; lia.
Qed.
Lemma first_ok : forall grow ps i H v d, good ps H v d -> exists H' v', av_first grow i v H = Ret H' (fst (match d with [] => (O, [v_new]) | _ => (i, d) end), v') /\
  good ps H' v' (snd (match d with [] => (O, [v_new]) | _ => (i, d) end)) /\ same_on ps H H'.
Proof.
  intros grow ps i H v d G. unfold av_first. pose proof (good_len _ _ _ _ G) as L. destruct (av_states v) as [|s l] eqn:E, d as [|x d]; try discriminate L.
  - destruct (push_ok grow ps H v [] G) as [H' [v' [E' [G' S']]]]. rewrite E'. cbn [bind]. exists H', v'. auto.
  - exists H, v. split; [reflexivity|]. split; [exact G|apply same_refl].
Qed.
Lemma onto_bind : forall {S A B C} (H : blocks) (x : out S A) (f : A -> B) (k : blocks -> B -> out blocks C), bind (onto H x f) k = match x with Ret _ a => k H (f a) | Fuel => Fuel | _ => Undef end.
Proof. intros S A B C H [s a|s|s| |] f k; reflexivity. Qed.
Lemma next_ok : forall grow ps i op key src follow H v d, good ps H v d -> match src with Some l => Forall (fun b => b <> 0) l | None => True end ->
  steps ps H (av_defineNext grow i op key src follow v H) (v_defineNext i op key src follow d).
Proof.
  intros grow ps i op key src follow H v d G Z. unfold av_defineNext, v_defineNext. destruct (first_ok grow ps i H v d G) as [H1 [v1 [E1 [G1 S1]]]]. rewrite E1. cbn [bind].
  destruct (match d with [] => (O, [v_new]) | _ => (i, d) end) as [i1 d1] eqn:E2. cbn [fst snd] in *. clear E1 E2 G i d.
  pose proof (go_holds _ _ _ _ G1) as F1. rewrite (find_ok _ _ _ _ _ _ _ _ F1), onto_bind, (good_len _ _ _ _ G1).
  destruct (atm_find (S (length d1)) op key follow (Some i1) (map fst d1)) as [a [[n|]|]|a|a| |]; try reflexivity; [exists H1, v1; auto|].
  rewrite (last_ok _ _ _ _ _ F1), onto_bind. destruct (atm_last (S (length d1)) i1 (map fst d1)) as [a' i2|a'|a'| |]; try reflexivity.
  pose proof (alt_ok grow ps i2 H1 v1 d1 G1) as A. destruct (v_alt i2 d1) as [u [j d2]|u|u| |] eqn:EA; cbn [steps bind fst snd] in *; try (rewrite A; reflexivity).
  destruct A as [H2 [v2 [A1 [G2 S2]]]]. rewrite A1. cbn [bind fst snd]. destruct (push_ok grow ps H2 v2 d2 G2) as [H3 [v3 [A2 [G3 S3]]]]. rewrite A2. cbn [bind].
  destruct u. pose proof (v_alt_lt _ _ _ _ EA) as Lj. rewrite (good_len _ _ _ _ G3).
  destruct (define_ok ps H3 v3 _ j op key src (length (d2 ++ [v_new]) - 1) follow G3 Z) as [H4 [s [s' [N [D [G4 S4]]]]]]; [rewrite app_length; lia|].
  rewrite N, D. cbn [bind]. eexists H4, _. split; [reflexivity|]. split; [exact G4|].
  eapply same_trans; [exact S1|]. eapply same_trans; [exact S2|]. eapply same_trans; [exact S3|exact S4].
Qed.
Lemma outp_ok : forall grow ps i m t follow b e H v d, good ps H v d -> steps ps H (av_defineOutput grow i m t follow b e v H) (v_defineOutput i m t follow b e d).
Proof.
  intros grow ps i m t follow b e H v d G. unfold av_defineOutput, v_defineOutput. destruct (first_ok grow ps i H v d G) as [H1 [v1 [E1 [G1 S1]]]]. rewrite E1. cbn [bind].
  destruct (match d with [] => (O, [v_new]) | _ => (i, d) end) as [i1 d1] eqn:E2. cbn [fst snd] in *. clear E1 E2 G i d. rewrite (good_len _ _ _ _ G1).
  destruct (Nat.leb (length d1) i1); [exists H1, v1; auto|].
  pose proof (alt_ok grow ps i1 H1 v1 d1 G1) as A. destruct (v_alt i1 d1) as [u [j d2]|u|u| |] eqn:EA; cbn [steps bind fst snd] in *; try (rewrite A; reflexivity).
  destruct A as [H2 [v2 [A1 [G2 S2]]]]. rewrite A1. cbn [bind fst snd]. eexists H2, _. split; [reflexivity|].
  split; [apply upd_ok; [exact G2|]; intros; apply output_ok; assumption|]. eapply same_trans; eauto.
Qed.
