(** The memory of an automaton when allocations fail (proofs). *)
From Coq Require Import Lia Permutation.
From Verif Require Import Base XmlScanner PathAtm AtmMemory AtmValue AtmMemProofs PathProg AtmFail AtmFailMem AtmFailMemSpec.

Notation left_over s := (nf (fm_ans s)).

Lemma alloc_ok s : exists r b, fm_alloc s = (mkFm (fm_blks s) r, b) /\ left_over s = ((if b then 0 else 1) + nf r)%nat.
Proof.
  destruct s as [H an]. unfold fm_alloc. cbn [fm_ans fm_blks]. destruct an as [|b r]; [exists [], true; split; reflexivity|].
  exists r, b. split; [reflexivity|]. destruct b; reflexivity.
Qed.
Lemma fm_new_ok l s ps : owned (fm_blks s) ps -> exists s' r, fm_new l s = Ret s' r /\
  match r with
  | Some p => owned (fm_blks s') (p :: ps) /\ same_on ps (fm_blks s) (fm_blks s') /\ read_block p (fm_blks s') = Some l /\ left_over s = left_over s'
  | None => fm_blks s' = fm_blks s /\ left_over s = S (left_over s')
  end.
Proof.
  intro O. unfold fm_new. destruct (alloc_ok s) as (r & b & -> & E). destruct b.
  - destruct (new_ok (fm_blks s) ps l O) as (H' & p & E1 & E2 & E3 & E4). unfold fm_lift. cbn [fm_blks fm_ans]. rewrite E1. cbn [bind]. eexists. exists (Some p). split; [reflexivity|]. cbn [fm_blks fm_ans]. auto.
  - eexists. exists None. split; [reflexivity|]. cbn [fm_blks fm_ans]. auto.
Qed.
Lemma fm_opt_ok o s ps : owned (fm_blks s) ps -> exists s' r, fm_opt o s = Ret s' r /\
  match r with
  | Some p => owned (fm_blks s') (ol p ++ ps) /\ same_on ps (fm_blks s) (fm_blks s') /\ points (fm_blks s') p o /\ left_over s = left_over s'
  | None => o <> None /\ fm_blks s' = fm_blks s /\ left_over s = S (left_over s')
  end.
Proof.
  intro O. destruct o as [l|]; cbn [fm_opt].
  - destruct (fm_new_ok l s ps O) as (s' & r & -> & K). cbn [bind]. exists s', (option_map Some r). split; [reflexivity|]. destruct r as [p|]; cbn [option_map ol app points]; [exact K|]. split; [discriminate|exact K].
  - exists s, (Some None). split; [reflexivity|]. split; [exact O|]. split; [apply same_refl|]. split; [exact I|reflexivity].
Qed.
Lemma lift_delete p s ps : owned (fm_blks s) (ol p ++ ps) -> exists s', fm_lift (delete_block p) s = Ret s' tt /\ owned (fm_blks s') ps /\ same_on ps (fm_blks s) (fm_blks s') /\ fm_ans s' = fm_ans s.
Proof. intro O. destruct (delete_opt _ _ _ O) as (H' & E & A & B). unfold fm_lift. rewrite E. eexists. split; [reflexivity|]. cbn [fm_blks fm_ans]. auto. Qed.
Lemma lift_destroy l s ps : owned (fm_blks s) (flat_map ptrs l ++ ps) -> exists s', fm_lift (destroy_all l) s = Ret s' tt /\ owned (fm_blks s') ps /\ same_on ps (fm_blks s) (fm_blks s') /\ fm_ans s' = fm_ans s.
Proof. intro O. destruct (destroy_all_ok _ _ _ O) as (H' & E & A & B). unfold fm_lift. rewrite E. eexists. split; [reflexivity|]. cbn [fm_blks fm_ans]. auto. Qed.

(** what defineKey leaves *)
Lemma fm_defineKey_ok key src x s ps : owned (fm_blks s) (ptrs x ++ ps) -> exists s' c b kk ss, fm_defineKey key src x s = Ret s' (c, b) /\ owned (fm_blks s') (ptrs c ++ ps) /\ same_on ps (fm_blks s) (fm_blks s') /\
  points (fm_blks s') (as_key c) kk /\ points (fm_blks s') (as_src c) (option_map (fun l => l ++ [0]) ss) /\
  as_core c = as_core x /\ as_next c = as_next x /\ as_link c = as_link x /\ as_keysize c = match key with Some l => length l | None => as_keysize x end /\
  left_over s = ((if b then 0 else 1) + left_over s')%nat /\
  (b = true /\ kk = key /\ ss = src \/ b = false /\ key <> None /\ kk = None /\ ss = None /\ ptrs c = [] \/ b = false /\ src <> None /\ kk = key /\ ss = None /\ (length (ptrs c) <= 1)%nat).
Proof.
  intro O. unfold ptrs in O. rewrite <- app_assoc in O. unfold fm_defineKey.
  destruct (lift_delete _ _ _ O) as (s1 & -> & O1 & S1 & A1). cbn [bind]. destruct (lift_delete _ _ _ O1) as (s2 & -> & O2 & S2 & A2). cbn [bind].
  assert (S12 : same_on ps (fm_blks s) (fm_blks s2)) by (eapply same_trans; [eapply same_incl; [exact S1|apply incl_appr, incl_refl]|exact S2]).
  destruct (fm_opt_ok key s2 ps O2) as (s3 & r3 & -> & K3). cbn [bind]. destruct r3 as [k|].
  - destruct K3 as (O3 & S3 & P3 & N3).
    destruct (fm_opt_ok (option_map (fun l => l ++ [0]) src) s3 _ O3) as (s4 & r4 & -> & K4). cbn [bind]. destruct r4 as [q|].
    + destruct K4 as (O4 & S4 & P4 & N4). eexists s4, _, true, key, src. split; [reflexivity|]. unfold ptrs. cbn [as_key as_src as_core as_next as_link as_keysize].
      split; [eapply owned_perm; [|exact O4]; rewrite !app_assoc; apply Permutation_app_tail, Permutation_app_comm|].
      split; [eapply same_trans; [exact S12|]; eapply same_trans; [exact S3|]; eapply same_incl; [exact S4|]; apply incl_appr, incl_refl|].
      split; [eapply points_same; [exact S4| |exact P3]; apply incl_appl, incl_refl|]. split; [exact P4|]. do 4 (split; [reflexivity|]). split; [rewrite <- A1, <- A2; lia|]. left. auto.
    + destruct K4 as (Q4 & B4 & N4). eexists s4, _, false, key, None. split; [reflexivity|]. unfold ptrs. cbn [as_key as_src as_core as_next as_link as_keysize ol]. rewrite app_nil_r, B4.
      split; [exact O3|]. split; [eapply same_trans; [exact S12|exact S3]|]. split; [exact P3|]. split; [exact I|]. do 4 (split; [reflexivity|]). split; [rewrite <- A1, <- A2; lia|]. right. right.
      split; [reflexivity|]. split; [destruct src; [discriminate|contradiction]|]. split; [reflexivity|]. split; [reflexivity|]. destruct k; cbn; lia.
  - destruct K3 as (Q3 & B3 & N3). eexists s3, _, false, None, None. split; [reflexivity|]. unfold ptrs. cbn [as_key as_src as_core as_next as_link as_keysize ol app]. rewrite B3.
    split; [exact O2|]. split; [exact S12|]. split; [exact I|]. split; [exact I|]. do 4 (split; [reflexivity|]). split; [rewrite <- A1, <- A2; lia|]. right. left. auto.
Qed.

Lemma fm_copy_ok x v s ps : owned (fm_blks s) ps -> holds (fm_blks s) x v -> exists s' r, fm_copy x s = Ret s' r /\ same_on ps (fm_blks s) (fm_blks s') /\
  match r with
  | Some c => owned (fm_blks s') (ptrs c ++ ps) /\ holds (fm_blks s') c v /\ left_over s = left_over s'
  | None => exists lk, (length lk <= 1)%nat /\ owned (fm_blks s') (lk ++ ps) /\ left_over s = S (left_over s')
  end.
Proof.
  intros O [A B C D E F G]. unfold fm_copy.
  assert (K : match as_key x with None => Some None | Some p => option_map Some (read_bytes p (as_keysize x) (fm_blks s)) end = Some (st_key (fst v))).
  { destruct (as_key x) as [p|], (st_key (fst v)) as [k|]; cbn [points] in D; try contradiction; [|reflexivity]. rewrite (read_all _ _ _ _ D E). reflexivity. }
  assert (S : match as_src x with None => Some None | Some p => option_map Some (read_string p (fm_blks s)) end = Some (snd v)).
  { destruct (as_src x) as [p|], (snd v) as [k|]; cbn [points option_map] in F; try contradiction; [|reflexivity]. unfold read_string. rewrite F, before_zero_ok by exact G. reflexivity. }
  rewrite K, S. destruct (fm_defineKey_ok (st_key (fst v)) (snd v) (mkAs (as_core x) (as_keysize x) None None (as_next x) (as_link x)) s ps O) as (s' & c & b & kk & ss & -> & O1 & S1 & P1 & P2 & C1 & C2 & C3 & C4 & N1 & R).
  cbn [bind fst snd]. eexists. eexists. split; [reflexivity|]. split; [exact S1|]. destruct R as [(-> & -> & ->)|[(-> & _ & _ & _ & R)|(-> & _ & _ & _ & R)]].
  - split; [exact O1|]. split; [|exact N1]. cbn [as_core as_next as_link] in *. constructor; try congruence; auto. destruct (st_key (fst v)); auto.
  - exists (ptrs c). split; [rewrite R; cbn; lia|]. auto.
  - exists (ptrs c). auto.
Qed.
Lemma fm_copy_all_ok : forall l cs s ps d dc, owned (fm_blks s) (flat_map ptrs cs ++ ps) -> incl (flat_map ptrs l) ps -> Forall2 (holds (fm_blks s)) l d -> Forall2 (holds (fm_blks s)) cs dc ->
  exists s' r, fm_copy_all l cs s = Ret s' r /\ same_on ps (fm_blks s) (fm_blks s') /\
  match r with
  | Some l' => owned (fm_blks s') (flat_map ptrs l' ++ ps) /\ Forall2 (holds (fm_blks s')) l' (dc ++ d) /\ left_over s = left_over s'
  | None => exists lk, (length lk <= 1)%nat /\ owned (fm_blks s') (lk ++ ps) /\ left_over s = S (left_over s')
  end.
Proof.
  induction l as [|x l IH]; intros cs s ps d dc O Inc F Fc; cbn [fm_copy_all].
  - inversion F; subst. exists s, (Some cs). split; [reflexivity|]. split; [apply same_refl|]. rewrite app_nil_r. auto.
  - inversion F as [|? v ? d' F1 F2]; subst. cbn [flat_map] in Inc. apply incl_app_inv in Inc. destruct Inc as [I1 I2].
    destruct (fm_copy_ok x v s _ O F1) as (s1 & r & -> & S1 & K). cbn [bind]. destruct r as [c|].
    + destruct K as (O1 & H1 & N1).
      destruct (IH (cs ++ [c]) s1 ps d' (dc ++ [v])) as (s2 & r & -> & S2 & K2).
      * rewrite flat_map_app. cbn [flat_map]. rewrite app_nil_r. eapply owned_perm; [|exact O1]. rewrite !app_assoc. apply Permutation_app_tail, Permutation_app_comm.
      * exact I2.
      * eapply all_same; [exact S1| |exact F2]. apply incl_appr; exact I2.
      * apply Forall2_app; [eapply all_same; [exact S1| |exact Fc]; apply incl_appl, incl_refl|]. constructor; [exact H1|constructor].
      * exists s2, r. split; [reflexivity|]. split; [eapply same_trans; [eapply same_incl; [exact S1|apply incl_appr, incl_refl]|exact S2]|]. rewrite N1. destruct r; [|exact K2]. rewrite <- app_assoc in K2. exact K2.
    + destruct K as (lk & L & O1 & N1).
      assert (O2 : owned (fm_blks s1) (flat_map ptrs cs ++ lk ++ ps)) by (eapply owned_perm; [|exact O1]; rewrite !app_assoc; apply Permutation_app_tail, Permutation_app_comm).
      destruct (lift_destroy cs s1 _ O2) as (s2 & -> & O3 & S3 & A3). cbn [bind]. exists s2, None. split; [reflexivity|]. split.
      * eapply same_trans; [eapply same_incl; [exact S1|apply incl_appr, incl_refl]|]. eapply same_incl; [exact S3|apply incl_appr, incl_refl].
      * exists lk. rewrite A3. auto.
Qed.

Definition pushed (s : fm) (ps : list nat) (v : avec) (d : vatm) (o : out fm (avec * bool)) : Prop :=
  exists s' v' b, o = Ret s' (v', b) /\
    (b = true /\ good ps (fm_blks s') v' (d ++ [v_new]) /\ left_over s = left_over s' \/
     b = false /\ v' = v /\ exists lk, (length lk <= match av_states v with [] => 0 | _ => 1 end)%nat /\ good (lk ++ ps) (fm_blks s') v d /\ left_over s = S (left_over s')).
Lemma fm_push_ok grow s ps v d : good ps (fm_blks s) v d -> pushed s ps v d (fm_push grow v s).
Proof.
  destruct v as [l c]. intros [O F C]. cbn [av_states av_cap] in *. unfold fm_push, pushed. cbn [av_states av_cap].
  destruct (Nat.ltb_spec (length l) c) as [Hc|Hc].
  - eexists s, _, true. split; [reflexivity|]. left. split; [reflexivity|]. split; [|reflexivity]. constructor; cbn [av_states av_cap].
    + rewrite flat_map_app. cbn. rewrite app_nil_r. exact O.
    + apply Forall2_app; [exact F|]. constructor; [apply new_holds|constructor].
    + rewrite app_length. cbn. lia.
  - destruct (alloc_ok s) as (r & b & -> & N). destruct b.
    + destruct (fm_copy_all_ok l [] (mkFm (fm_blks s) r) (flat_map ptrs l ++ ps) d []) as (s1 & r1 & Ec & S1 & K); [exact O|apply incl_appl, incl_refl|exact F|constructor|]. rewrite Ec. cbn [bind fm_blks fm_ans] in *.
      destruct r1 as [l'|].
      * destruct K as (O1 & F1 & N1). cbn [app] in F1.
        assert (O2 : owned (fm_blks s1) (flat_map ptrs l ++ flat_map ptrs l' ++ ps)) by (eapply owned_perm; [|exact O1]; rewrite !app_assoc; apply Permutation_app_tail, Permutation_app_comm).
        destruct (lift_destroy l s1 _ O2) as (s2 & -> & O3 & S2 & A2). cbn [bind]. eexists s2, _, true. split; [reflexivity|]. left. split; [reflexivity|]. rewrite A2. split; [|lia]. constructor; cbn [av_states av_cap].
        -- rewrite flat_map_app. cbn. rewrite app_nil_r. exact O3.
        -- apply Forall2_app; [eapply all_same; [exact S2|apply incl_appl, incl_refl|exact F1]|]. constructor; [apply new_holds|constructor].
        -- rewrite app_length. cbn [length]. pose proof (f2_len F1). pose proof (f2_len F). lia.
      * destruct K as (lk & L & O1 & N1). eexists s1, _, false. split; [reflexivity|]. right. split; [reflexivity|]. split; [reflexivity|]. exists lk. split; [destruct l; [|exact L]|].
        { exfalso. cbn [fm_copy_all] in Ec. discriminate Ec. }
        split; [|lia]. constructor; cbn [av_states av_cap].
        -- eapply owned_perm; [|exact O1]. rewrite !app_assoc. apply Permutation_app_tail, Permutation_app_comm.
        -- eapply all_same; [exact S1|apply incl_appl, incl_refl|exact F].
        -- exact C.
    + eexists _, _, false. split; [reflexivity|]. right. split; [reflexivity|]. split; [reflexivity|]. exists []. cbn [fm_blks fm_ans app length]. split; [apply Nat.le_0_l|]. split; [|lia]. constructor; assumption.
Qed.

(** ** the functions of the automaton and what they are for values *)
Definition agrees {A} (s : fm) (ps : list nat) (m : option place) (o : out fm (avec * option A)) (y : out atm (option A)) : Prop :=
  match y with
  | Ret a r => exists s' v' d' lk, o = Ret s' (v', r) /\ map fst d' = a /\ good (lk ++ ps) (fm_blks s') v' d' /\ (length lk <= lossy m)%nat /\ left_over s = (one m + left_over s')%nat /\ (m <> None -> r = None)
  | Fuel => o = Fuel
  | _ => o = Undef
  end.

Lemma find_same : forall f op key follow ee a, match atm_find f op key follow ee a with Ret a' _ => a' = a | Undef | Fuel => True | _ => False end.
Proof.
  induction f as [|f IH]; intros; cbn [atm_find]; [exact I|]. destruct ee as [i|]; [|reflexivity]. destruct (nth_error a i) as [x|]; [|exact I].
  destruct (st_key x) as [k|]; [|apply IH]. destruct (_ && _ && _); [reflexivity|apply IH].
Qed.
Lemma last_same : forall f i a, match atm_last f i a with Ret a' j => a' = a /\ (j < length a)%nat | Undef | Fuel => True | _ => False end.
Proof.
  induction f as [|f IH]; intros; cbn [atm_last]; [exact I|]. destruct (nth_error a i) as [x|] eqn:E; [|exact I]. destruct (st_link x); [apply IH|]. split; [reflexivity|]. apply nth_error_Some. congruence.
Qed.
Lemma map_v_upd i f g (d : vatm) : (forall x, fst (g x) = f (fst x)) -> map fst (v_upd i g d) = atm_upd i f (map fst d).
Proof.
  intro K. unfold v_upd, atm_upd. rewrite nth_map. destruct (nth_error d i) as [x|] eqn:E; [|reflexivity]. rewrite <- (K x). clear K. revert i E. induction d as [|y d IH]; intros [|i] E; cbn in *; try discriminate; [reflexivity|].
  rewrite (IH i E). reflexivity.
Qed.
Lemma lift_last s v d f i : Forall2 (holds (fm_blks s)) (av_states v) d -> fm_lift (av_last f i v) s = match atm_last f i (map fst d) with Ret _ j => Ret s j | Fuel => Fuel | _ => Undef end.
Proof. intro F. unfold fm_lift. rewrite (last_ok _ _ _ _ _ F). unfold onto. destruct s as [H an]. destruct (atm_last f i (map fst d)); reflexivity. Qed.
Lemma lift_find s v d f op key follow i : Forall2 (holds (fm_blks s)) (av_states v) d ->
  fm_lift (av_find f op key follow i v) s = match atm_find f op key follow i (map fst d) with Ret _ j => Ret s j | Fuel => Fuel | _ => Undef end.
Proof. intro F. unfold fm_lift. rewrite (find_ok _ _ _ _ _ _ _ _ F). unfold onto. destruct s as [H an]. destruct (atm_find f op key follow i (map fst d)); reflexivity. Qed.

Lemma fm_first_ok grow s ps v d i : good ps (fm_blks s) v d -> exists m, (m = None \/ m = Some PlFirst) /\ agrees s ps m (fm_first grow i v s) (caught (f_first m i (map fst d))).
Proof.
  intro G. unfold fm_first. pose proof (good_len _ _ _ _ G) as L. destruct (av_states v) as [|x l] eqn:E, d as [|y d]; try discriminate L; cbn [map f_first].
  - destruct (fm_push_ok grow s ps v [] G) as (s' & v' & b & -> & [(-> & G' & N)|(-> & -> & lk & Lk & G' & N)]); cbn [bind fst snd].
    + exists None. split; [left; reflexivity|]. cbn [fails f_push app bind caught agrees]. exists s', v', [v_new], []. cbn [app length one lossy]. split; [reflexivity|]. split; [reflexivity|]. split; [exact G'|]. split; [lia|]. split; [lia|]. congruence.
    + rewrite E in Lk. exists (Some PlFirst). split; [right; reflexivity|]. cbn [fails f_push app bind caught agrees]. exists s', v, [], lk. cbn [one lossy]. split; [reflexivity|]. split; [reflexivity|]. split; [exact G'|]. auto.
  - exists None. split; [left; reflexivity|]. cbn [caught agrees]. exists s, v, (y :: d), []. cbn [app length one lossy]. split; [reflexivity|]. split; [reflexivity|]. split; [exact G|]. split; [lia|]. split; [lia|]. congruence.
Qed.
Lemma fm_alt_ok grow s ps v d i : good ps (fm_blks s) v d -> exists m, (m = None \/ m = Some PlLink) /\ agrees s ps m (fm_alt grow i v s) (caught (f_alt m i (map fst d))) /\
  forall a j, f_alt m i (map fst d) = Ret a j -> (j < length a)%nat.
Proof.
  intro G. pose proof (go_holds _ _ _ _ G) as F. unfold fm_alt, f_alt. rewrite nth_map. pose proof (forall2_nth _ _ _ i F) as N.
  destruct (nth_error (av_states v) i) as [x|], (nth_error d i) as [y|] eqn:Ey; try contradiction; [|exists None; split; [left; reflexivity|]; split; [reflexivity|discriminate]].
  rewrite (empty_ok _ _ _ N). destruct (st_isempty (fst y)).
  { exists None. split; [left; reflexivity|]. split; [|intros a j Q; injection Q as <- <-; rewrite map_length; apply nth_error_Some; congruence]. cbn [caught agrees]. exists s, v, d, []. cbn [app length one lossy]. split; [reflexivity|]. split; [reflexivity|]. split; [exact G|]. split; [lia|]. split; [lia|]. congruence. }
  rewrite (lift_last _ _ _ _ _ F), (good_len _ _ _ _ G), map_length. pose proof (last_same (S (length d)) i (map fst d)) as Ls.
  destruct (atm_last (S (length d)) i (map fst d)) as [a j|a|a| |]; cbn [bind]; try contradiction; try (exists None; split; [left; reflexivity|]; split; [reflexivity|discriminate]). destruct Ls as [-> _].
  assert (G1 : good ps (fm_blks s) (av_upd j (as_setLink (length d)) v) (v_upd j (fun s => (st_setLink (length d) (fst s), snd s)) d)) by (apply upd_ok; [exact G|]; intros; apply link_ok; assumption).
  assert (M : map fst (v_upd j (fun s => (st_setLink (length d) (fst s), snd s)) d) = atm_upd j (st_setLink (length d)) (map fst d)) by (apply map_v_upd; reflexivity).
  assert (Lu : length (atm_upd j (st_setLink (length d)) (map fst d)) = length d) by (unfold atm_upd; destruct (nth_error (map fst d) j); rewrite ?upd_len, map_length; reflexivity).
  destruct (fm_push_ok grow s ps _ _ G1) as (s' & v' & b & -> & [(-> & G' & N')|(-> & -> & lk & Lk & G' & N')]); cbn [bind fst snd].
  - exists None. split; [left; reflexivity|]. unfold f_push. cbn [fails bind caught agrees]. rewrite map_length. split; [|intros a' j' Q; injection Q as <- <-; rewrite app_length, Lu; cbn; lia].
    exists s', v', (v_upd j (fun s => (st_setLink (length d) (fst s), snd s)) d ++ [v_new]), []. cbn [app length one lossy]. split; [reflexivity|]. split; [rewrite map_app, M; reflexivity|]. split; [exact G'|]. split; [lia|]. split; [lia|]. congruence.
  - assert (Lk' : (length lk <= 1)%nat) by (eapply Nat.le_trans; [exact Lk|]; match goal with |- context [match ?l with _ => _ end] => destruct l; lia end).
    exists (Some PlLink). split; [right; reflexivity|]. unfold f_push. cbn [fails bind caught agrees]. rewrite map_length. split; [|discriminate].
    eexists s', _, _, lk. cbn [one lossy]. split; [reflexivity|]. split; [exact M|]. split; [exact G'|]. auto.
Qed.
Lemma fm_define_ok op key name n follow j s ps v d : key = option_map fst name -> match name with Some (_, l) => Forall (fun b => b <> 0) l | None => True end -> good ps (fm_blks s) v d -> (j < length d)%nat ->
  exists m x s' x' b, (m = None \/ m = Some PlKey \/ m = Some PlName) /\ nth_error (av_states v) j = Some x /\ fm_define op key (option_map snd name) n follow x s = Ret s' (x', b) /\ left_over s = (one m + left_over s')%nat /\ b = match m with None => true | _ => false end /\
    exists d', good ps (fm_blks s') (mkAv (upd j x' (av_states v)) (av_cap v)) d' /\ f_define m j op key n follow (map fst d) = if b then Ret (map fst d') tt else Throw (map fst d').
Proof.
  destruct v as [l c]. intros Ek Z [O F C] L. cbn [av_states av_cap] in *. pose proof (forall2_nth _ _ _ j F) as N.
  destruct (nth_error l j) as [x|] eqn:E; [|destruct (nth_error d j) eqn:E'; [contradiction|apply nth_error_None in E'; lia]].
  destruct (nth_error d j) as [y|] eqn:Ey; [|contradiction].
  destruct (nth_error_split _ _ E) as [l1 [l2 [-> Lj]]]. destruct (forall2_split _ _ _ _ _ F) as [d1 [x' [d2 [-> [L2 [F1 [F2 F3]]]]]]].
  assert (y = x') by (rewrite <- L2 in Lj; subst j; rewrite nth_mid in Ey; congruence). subst x'.
  set (s0 := mkAs (mkCore (m_seekop op (c_mask (as_core x))) (c_follow (as_core x)) (c_type (as_core x)) (c_start (as_core x)) (c_end (as_core x))) (as_keysize x) (as_key x) (as_src x) (as_next x) (as_link x)).
  assert (O1 : owned (fm_blks s) (ptrs s0 ++ (flat_map ptrs (l1 ++ l2) ++ ps))).
  { eapply owned_perm; [|exact O]. rewrite !flat_map_app. cbn [flat_map]. change (ptrs s0) with (ptrs x). rewrite <- !app_assoc. rewrite (app_assoc (flat_map ptrs l1) (ptrs x)), (app_assoc (ptrs x) (flat_map ptrs l1)). apply Permutation_app_tail, Permutation_app_comm. }
  destruct (fm_defineKey_ok key (option_map snd name) s0 s _ O1) as (s' & c1 & b & kk & ss & E1 & O2 & S1 & P1 & P2 & C1 & C2 & C3 & C4 & N1 & R).
  set (nx := fun b : bool => if b then mkAs (mkCore (c_mask (as_core c1)) follow (c_type (as_core c1)) (c_start (as_core c1)) (c_end (as_core c1))) (as_keysize c1) (as_key c1) (as_src c1) (Some n) (as_link c1) else c1).
  assert (D : fm_define op key (option_map snd name) n follow x s = Ret s' (nx b, b)) by (unfold fm_define; cbv zeta; fold s0; rewrite E1; reflexivity).
  assert (Good : forall y', holds (fm_blks s') (nx b) y' -> good ps (fm_blks s') (mkAv (upd j (nx b) (l1 ++ x :: l2)) c) (d1 ++ y' :: d2)).
  { intros y' Hy. subst j. rewrite upd_mid. rewrite flat_map_app in S1. constructor; cbn [av_states av_cap].
    - eapply owned_perm; [|exact O2]. rewrite !flat_map_app. cbn [flat_map]. assert (Pn : ptrs (nx b) = ptrs c1) by (destruct b; reflexivity). rewrite Pn.
      rewrite <- !app_assoc. rewrite (app_assoc (flat_map ptrs l1) (ptrs c1)), (app_assoc (ptrs c1) (flat_map ptrs l1)). apply Permutation_app_tail, Permutation_app_comm.
    - apply Forall2_app; [eapply all_same; [exact S1| |exact F1]; rewrite <- app_assoc; apply incl_appl, incl_refl|].
      constructor; [exact Hy|eapply all_same; [exact S1| |exact F3]; rewrite <- app_assoc; apply incl_appr, incl_appl, incl_refl].
    - rewrite app_length in *. exact C. }
  assert (Mp : forall y', map fst (d1 ++ y' :: d2) = upd j (fst y') (map fst (d1 ++ y :: d2))).
  { intro y'. rewrite !map_app. cbn [map]. rewrite <- Lj, <- L2. rewrite <- (map_length fst d1), upd_mid. reflexivity. }
  assert (Nm : nth_error (map fst (d1 ++ y :: d2)) j = Some (fst y)) by (rewrite nth_map, Ey; reflexivity).
  assert (Cc : as_core c1 = mkCore (m_seekop op (c_mask (st_core (fst y)))) (c_follow (st_core (fst y))) (c_type (st_core (fst y))) (c_start (st_core (fst y))) (c_end (st_core (fst y)))).
  { rewrite C1. subst s0. cbn [as_core]. rewrite (ho_core _ _ _ N). reflexivity. }
  assert (Hl : as_link c1 = st_link (fst y)) by (rewrite C3; apply (ho_link _ _ _ N)).
  assert (Hx : as_next c1 = st_next (fst y)) by (rewrite C2; apply (ho_next _ _ _ N)).
  destruct R as [(-> & -> & ->)|[(-> & Q1 & -> & -> & _)|(-> & Q1 & -> & -> & _)]].
  - exists None, x, s', (nx true), true. split; [left; reflexivity|]. split; [reflexivity|]. split; [exact D|]. split; [exact N1|]. split; [reflexivity|].
    exists (d1 ++ (st_defineNext op key n follow (fst y), option_map snd name) :: d2). split.
    + apply Good. constructor; cbn [nx as_core as_next as_link as_key as_src as_keysize st_core st_next st_link st_key st_defineNext fst snd]; auto.
      * rewrite Cc. reflexivity.
      * destruct key; [exact C4|exact I].
      * destruct name as [[]|]; [exact Z|exact I].
    + rewrite (Mp (st_defineNext op key n follow (fst y), option_map snd name)). unfold f_define, atm_upd. destruct key; cbn [fails fst]; rewrite Nm; reflexivity.
  - exists (Some PlKey), x, s', (nx false), false. split; [right; left; reflexivity|]. split; [reflexivity|]. split; [exact D|]. split; [exact N1|]. split; [reflexivity|].
    eexists (d1 ++ (mkSt _ None (st_next (fst y)) (st_link (fst y)), None) :: d2). split.
    + apply Good. constructor; cbn [nx as_core as_next as_link as_key as_src as_keysize st_core st_next st_link st_key st_defineNext fst snd]; auto.
    + rewrite (Mp (mkSt _ None _ _, None)). unfold f_define, atm_upd. destruct key; [|contradiction]. cbn [fails fst]. rewrite Nm, <- Cc. reflexivity.
  - exists (Some PlName), x, s', (nx false), false. split; [right; right; reflexivity|]. split; [reflexivity|]. split; [exact D|]. split; [exact N1|]. split; [reflexivity|].
    eexists (d1 ++ (mkSt _ key (st_next (fst y)) (st_link (fst y)), None) :: d2). split.
    + apply Good. constructor; cbn [nx as_core as_next as_link as_key as_src as_keysize st_core st_next st_link st_key st_defineNext fst snd]; auto. destruct key; [exact C4|exact I].
    + rewrite (Mp (mkSt _ key _ _, None)). unfold f_define, atm_upd. destruct key; [cbn [fails fst]; rewrite Nm, <- Cc; reflexivity|]. destruct name as [[]|]; [discriminate Ek|contradiction].
Qed.

Lemma good_more ps lk H v d : good (lk ++ ps) H v d -> forall ps', Permutation (lk ++ ps) ps' -> good ps' H v d.
Proof. intros [O F C] ps' P. constructor; [|exact F|exact C]. eapply owned_perm; [|exact O]. apply Permutation_app_head. exact P. Qed.
Lemma none_first i a m : m <> Some PlFirst -> f_first m i a = f_first None i a.
Proof. intro Q. unfold f_first. destruct a; [|reflexivity]. destruct m as [[]|]; try reflexivity. congruence. Qed.
Lemma none_alt i a m : m <> Some PlLink -> f_alt m i a = f_alt None i a.
Proof. intro Q. unfold f_alt. destruct (nth_error a i); [|reflexivity]. destruct (st_isempty p); [reflexivity|]. destruct m as [[]|]; try reflexivity. congruence. Qed.
Lemma none_define j op key n follow a m : m <> Some PlKey -> m <> Some PlName -> f_define m j op key n follow a = f_define None j op key n follow a.
Proof. intros Q Q'. unfold f_define. destruct key; [|reflexivity]. destruct m as [[]|]; try reflexivity; congruence. Qed.
Lemma agrees_len {A} s ps (o : out fm (avec * option A)) a r : agrees s ps None o (Ret a (Some r)) ->
  exists s' v' d', o = Ret s' (v', Some r) /\ map fst d' = a /\ good ps (fm_blks s') v' d' /\ left_over s = left_over s'.
Proof. intros (s' & v' & d' & lk & E & M & G & L & N & _). destruct lk; [|cbn in L; lia]. exists s', v', d'. auto. Qed.
Lemma first_cases i a m : (exists a' j, f_first m i a = Ret a' j) \/ (exists a', f_first m i a = Throw a' /\ m = Some PlFirst).
Proof. destruct a; cbn [f_first]; [|left; eauto]. destruct m as [[]|]; cbn; eauto. Qed.
Lemma alt_cases i a m : (exists a' j, f_alt m i a = Ret a' j) \/ (exists a', f_alt m i a = Throw a' /\ m = Some PlLink) \/ f_alt m i a = Undef \/ f_alt m i a = Fuel.
Proof.
  unfold f_alt. destruct (nth_error a i); [|auto]. destruct (st_isempty p); [eauto|]. pose proof (last_same (S (length a)) i a) as L. destruct (atm_last (S (length a)) i a); cbn [bind]; try contradiction; auto.
  destruct m as [[]|]; cbn; eauto 8.
Qed.

(** all allocations of a call that may fail are told by one place *)
Lemma next_place grow s ps v d i op name follow : match name with Some (_, l) => Forall (fun b => b <> 0) l | None => True end -> good ps (fm_blks s) v d ->
  exists m, agrees s ps m (fm_defineNext grow i op (option_map fst name) (option_map snd name) follow v s) (caught (f_defineNext m i op (option_map fst name) follow (map fst d))).
Proof.
  intros Z G. set (key := option_map fst name). unfold fm_defineNext, f_defineNext.
  destruct (fm_first_ok grow s ps v d i G) as (m1 & M1 & A1).
  destruct (first_cases i (map fst d) m1) as [(a1 & j1 & E1)|(a1 & E1 & Em)].
  2:{ exists m1. rewrite E1 in *. cbn [bind caught agrees] in *. destruct A1 as (s' & v' & d' & lk & E & M & G' & L & N & R). rewrite E. cbn [bind fst snd]. exists s', v', d', lk. auto 10. }
  assert (m1 = None) as ->. { destruct M1 as [Q| ->]; [exact Q|]. exfalso. destruct (map fst d) eqn:Ed; cbn in E1; [discriminate E1|]. cbn [f_first caught agrees] in A1. destruct A1 as (s' & v' & d' & lk & _ & _ & _ & _ & _ & R). specialize (R ltac:(discriminate)). discriminate R. }
  clear M1. rewrite E1 in A1. cbn [caught] in A1. apply agrees_len in A1. destruct A1 as (s1 & v1 & d1 & F1 & D1 & G1 & N1). rewrite F1. cbn [bind fst snd].
  assert (E1' : forall m, m <> Some PlFirst -> f_first m i (map fst d) = Ret a1 j1) by (intros m Q; rewrite none_first by exact Q; exact E1).
  destruct j1 as [j|]; [|exists None; rewrite E1' by discriminate; reflexivity].
  assert (Ln : length (av_states v1) = length a1) by (rewrite (good_len _ _ _ _ G1), <- (map_length fst d1), D1; reflexivity).
  rewrite (lift_find _ _ _ _ _ _ _ _ (go_holds _ _ _ _ G1)), D1, Ln.
  pose proof (find_same (S (length a1)) op key follow (Some j) a1) as Ff. destruct (atm_find (S (length a1)) op key follow (Some j) a1) as [a2 fo|a2|a2| |] eqn:E2; try contradiction; cbn [bind];
    try (exists None; rewrite E1' by discriminate; cbn [bind]; rewrite E2; reflexivity).
  subst a2. destruct fo as [n|].
  { exists None. rewrite E1' by discriminate. cbn [bind]. rewrite E2. cbn [bind caught agrees one lossy]. exists s1, v1, d1, []. cbn [app length]. split; [reflexivity|]. split; [exact D1|]. split; [exact G1|]. split; [lia|]. split; [lia|]. congruence. }
  rewrite (lift_last _ _ _ _ _ (go_holds _ _ _ _ G1)), D1, ?Ln.
  pose proof (last_same (S (length a1)) j a1) as Ll. destruct (atm_last (S (length a1)) j a1) as [a3 i'|a3|a3| |] eqn:E3; try contradiction; cbn [bind];
    try (exists None; rewrite E1' by discriminate; cbn [bind]; rewrite E2; cbn [bind]; rewrite E3; reflexivity).
  destruct Ll as [-> Li].
  destruct (fm_alt_ok grow s1 ps v1 d1 i' G1) as (m2 & M2 & A2 & L2). rewrite D1 in *.
  assert (X : forall m, m <> Some PlFirst -> forall K, (let! (a, i) := f_first m i (map fst d) in match i with None => Undef | Some i => let! (a, found) := atm_find (S (length a)) op key follow (Some i) a in match found with Some n => Ret a n | None => let! (a, i) := atm_last (S (length a)) i a in let! (a, j) := f_alt m i a in K a j end end) = let! (a, j) := f_alt m i' a1 in (K a j : out atm (option nat))).
  { intros m Q K. rewrite E1' by exact Q. cbn [bind]. rewrite E2. cbn [bind]. rewrite E3. reflexivity. }
  destruct (alt_cases i' a1 m2) as [(a2 & j2 & E4)|[(a2 & E4 & ->)|[E4|E4]]].
  2:{ exists (Some PlLink). rewrite X by discriminate. rewrite E4 in *. cbn [bind caught agrees] in *. destruct A2 as (s' & v' & d' & lk & E & M & G' & L & N & R). rewrite E. cbn [bind fst snd]. exists s', v', d', lk. rewrite N1. auto 10. }
  2,3: exists m2; rewrite X by (destruct M2 as [-> | ->]; discriminate); rewrite E4 in *; cbn [caught agrees] in A2; rewrite A2; reflexivity.
  assert (m2 = None) as ->. { destruct M2 as [Q| ->]; [exact Q|]. exfalso. rewrite E4 in A2. cbn [caught agrees] in A2. destruct A2 as (s' & v' & d' & lk & _ & _ & _ & _ & _ & R). specialize (R ltac:(discriminate)). discriminate R. }
  specialize (L2 _ _ E4). rewrite E4 in A2. cbn [caught] in A2. apply agrees_len in A2. destruct A2 as (s2 & v2 & d2 & F2 & D2 & G2 & N2). rewrite F2. cbn [bind fst snd].
  assert (Y : forall m, m <> Some PlFirst -> m <> Some PlLink -> forall K, (let! (a, j) := f_alt m i' a1 in (K a j : out atm (option nat))) = K a2 j2) by (intros m Q Q' K; rewrite none_alt by exact Q'; rewrite E4; reflexivity).
  destruct (fm_push_ok grow s2 ps v2 d2 G2) as (s3 & v3 & b & -> & [(-> & G3 & N3)|(-> & -> & lk & Lk & G3 & N3)]); cbn [bind fst snd].
  2:{ assert (Lk' : (length lk <= 1)%nat) by (eapply Nat.le_trans; [exact Lk|]; destruct (av_states v2); lia).
      exists (Some PlNext). rewrite X, Y by discriminate. cbn [fails f_push bind caught agrees one lossy]. exists s3, v2, d2, lk. split; [reflexivity|]. split; [exact D2|]. split; [exact G3|]. split; [exact Lk'|]. split; [lia|]. reflexivity. }
  assert (Len : length (av_states v3) = S (length a2)) by (rewrite (good_len _ _ _ _ G3), app_length, <- D2, map_length; cbn; lia).
  destruct (fm_define_ok op key name (length (av_states v3) - 1) follow j2 s3 ps v3 _ eq_refl Z G3) as (m & x & s4 & x' & b & Mm & Ex & F4 & N4 & Eb & d4 & G4 & E5).
  { rewrite app_length, <- (map_length fst d2), D2. lia. }
  rewrite Ex. fold key in F4. rewrite F4. cbn [bind fst snd]. exists m.
  assert (m <> Some PlFirst /\ m <> Some PlLink /\ fails PlNext m = false) as (Q1 & Q2 & Q3) by (destruct Mm as [-> |[-> | ->]]; repeat split; discriminate).
  rewrite X, Y by assumption. rewrite Q3. cbn [f_push bind].
  rewrite map_app, D2 in E5. cbn [map] in E5. change (fst v_new) with st_new in E5. rewrite Len in E5. rewrite app_length. cbn [length]. replace (length a2 + 1 - 1)%nat with (S (length a2) - 1)%nat by lia.
  rewrite E5, Len. subst b. destruct Mm as [-> |[-> | ->]]; cbn [bind caught agrees one lossy] in *; exists s4, (mkAv (upd j2 x' (av_states v3)) (av_cap v3)), d4, []; cbn [app length];
    (split; [reflexivity|]; split; [reflexivity|]; split; [exact G4|]; split; [lia|]; split; [lia|]; congruence).
Qed.

Lemma output_place grow s ps v d i k t follow b e : good ps (fm_blks s) v d ->
  exists m, agrees s ps m (fm_defineOutput grow i k t follow b e v s) (caught (f_defineOutput m i k t follow b e (map fst d))).
Proof.
  intros G. unfold fm_defineOutput, f_defineOutput.
  destruct (fm_first_ok grow s ps v d i G) as (m1 & M1 & A1).
  destruct (first_cases i (map fst d) m1) as [(a1 & j1 & E1)|(a1 & E1 & Em)].
  2:{ exists m1. rewrite E1 in *. cbn [bind caught agrees] in *. destruct A1 as (s' & v' & d' & lk & E & M & G' & L & N & R). rewrite E. cbn [bind fst snd]. exists s', v', d', lk. auto 10. }
  assert (m1 = None) as ->. { destruct M1 as [Q| ->]; [exact Q|]. exfalso. destruct (map fst d) eqn:Ed; cbn in E1; [discriminate E1|]. cbn [f_first caught agrees] in A1. destruct A1 as (s' & v' & d' & lk & _ & _ & _ & _ & _ & R). specialize (R ltac:(discriminate)). discriminate R. }
  clear M1. rewrite E1 in A1. cbn [caught] in A1. apply agrees_len in A1. destruct A1 as (s1 & v1 & d1 & F1 & D1 & G1 & N1). rewrite F1. cbn [bind fst snd].
  assert (E1' : forall m, m <> Some PlFirst -> f_first m i (map fst d) = Ret a1 j1) by (intros m Q; rewrite none_first by exact Q; exact E1).
  assert (Ln : length (av_states v1) = length a1) by (rewrite (good_len _ _ _ _ G1), <- (map_length fst d1), D1; reflexivity).
  assert (T : forall r : option (option nat), agrees s ps None (Ret s1 (v1, r)) (Ret a1 r)).
  { intro r. exists s1, v1, d1, []. cbn [app length one lossy]. split; [reflexivity|]. split; [exact D1|]. split; [exact G1|]. split; [lia|]. split; [lia|]. congruence. }
  destruct j1 as [j|]; [|exists None; rewrite E1' by discriminate; apply T].
  rewrite Ln. destruct (Nat.leb (length a1) j) eqn:El; [exists None; rewrite E1' by discriminate; cbn [bind]; rewrite El; apply T|].
  destruct (fm_alt_ok grow s1 ps v1 d1 j G1) as (m2 & M2 & A2 & L2). rewrite D1 in *. exists m2. rewrite E1' by (destruct M2 as [-> | ->]; discriminate). cbn [bind]. rewrite El.
  destruct (alt_cases j a1 m2) as [(a2 & j2 & E4)|[(a2 & E4 & ->)|[E4|E4]]]; rewrite E4 in *; cbn [bind caught agrees] in *.
  - destruct A2 as (s' & v' & d' & lk & E & M & G' & L & N & R). rewrite E. cbn [bind fst snd].
    assert (m2 = None) as -> by (destruct m2; [specialize (R ltac:(discriminate)); discriminate R|reflexivity]).
    eexists s', _, _, lk. split; [reflexivity|]. split; [|split; [apply upd_ok; [exact G'|]; intros; apply output_ok; eassumption|]].
    + rewrite (map_v_upd j2 (st_defineOutput k t follow b e)); [rewrite M; reflexivity|reflexivity].
    + split; [exact L|]. split; [rewrite N1; exact N|]. congruence.
  - destruct A2 as (s' & v' & d' & lk & E & M & G' & L & N & R). rewrite E. cbn [bind fst snd]. exists s', v', d', lk. rewrite N1. auto 10.
  - rewrite A2. reflexivity.
  - rewrite A2. reflexivity.
Qed.

(** ** calls *)
Lemma call_place grow s ps v d c : plain_name c -> good ps (fm_blks s) v d -> exists m, agrees s ps m (m_call grow c v s) (p_call c m (map fst d)).
Proof. intros Z G. destruct c as [i op name follow|i k t follow b e]; cbn [m_call p_call]; [apply next_place; [destruct name as [[]|]; exact Z|exact G]|apply output_place; exact G]. Qed.
Lemma calls_place grow : forall cs s ps v d, Forall plain_name cs -> good ps (fm_blks s) v d ->
  exists ms, length ms = length cs /\
  match p_calls cs ms (map fst d) with
  | Ret a rs => exists s' v' d' lk, m_calls grow cs v s = Ret s' (v', rs) /\ map fst d' = a /\ good (lk ++ ps) (fm_blks s') v' d' /\ (length lk <= total lossy ms)%nat /\
                left_over s = (total one ms + left_over s')%nat /\ Forall2 (fun m r => m <> None -> r = None) ms rs
  | Fuel => m_calls grow cs v s = Fuel
  | _ => m_calls grow cs v s = Undef
  end.
Proof.
  induction cs as [|c cs IH]; intros s ps v d Z G.
  - exists []. split; [reflexivity|]. cbn. exists s, v, d, []. cbn. split; [reflexivity|]. split; [reflexivity|]. split; [exact G|]. split; [lia|]. split; [reflexivity|constructor].
  - apply Forall_cons_iff in Z. destruct Z as [Z1 Z2]. destruct (call_place grow s ps v d c Z1 G) as [m A]. unfold agrees in A.
    destruct (p_call c m (map fst d)) as [a r|a|a| |] eqn:E;
      try (exists (m :: map (fun _ => None) cs); split; [cbn; rewrite map_length; reflexivity|]; cbn [p_calls m_calls hd tl]; rewrite E, A; reflexivity).
    destruct A as (s1 & v1 & d1 & lk1 & E1 & M1 & G1 & L1 & N1 & R1). destruct (IH s1 (lk1 ++ ps) v1 d1 Z2 G1) as (ms & Lm & K). exists (m :: ms). split; [cbn; congruence|].
    cbn [p_calls m_calls hd tl]. rewrite E, E1. cbn [bind fst snd]. subst a. destruct (p_calls cs ms (map fst d1)) as [a rs|a|a| |]; cbn [bind]; try (rewrite K; reflexivity).
    destruct K as (s2 & v2 & d2 & lk2 & E2 & M2 & G2 & L2 & N2 & R2). rewrite E2. cbn [bind fst snd]. exists s2, v2, d2, (lk2 ++ lk1). rewrite app_length, <- app_assoc.
    split; [reflexivity|]. split; [exact M2|]. split; [exact G2|]. assert (T : forall f, total f (m :: ms) = (f m + total f ms)%nat) by reflexivity. rewrite !T. split; [lia|]. split; [lia|]. constructor; assumption.
Qed.
