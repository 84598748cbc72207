(** Automata copied and assigned when allocations fail (proofs). *)
From Coq Require Import Lia Permutation.
From Verif Require Import Base XmlScanner PathAtm AtmMemory AtmValue AtmMemProofs AtmHeapProofs PathProg AtmFail AtmFailMem AtmFailMemSpec AtmFailMemProof AtmFailCopy AtmFailCopySpec.

(** ** the bytes of a block do not change before it is deleted *)
Definition keep (H H' : blocks) : Prop := (length H <= length H')%nat /\ forall p, (p < length H)%nat -> read_block p H' = read_block p H \/ read_block p H' = None.
Lemma keep_refl H : keep H H.
Proof. split; auto. Qed.
Lemma keep_trans H1 H2 H3 : keep H1 H2 -> keep H2 H3 -> keep H1 H3.
Proof.
  intros [L1 K1] [L2 K2]. split; [lia|]. intros p Hp. destruct (K2 p ltac:(lia)) as [E|E]; [rewrite E; apply K1; exact Hp|right; exact E].
Qed.
Lemma keep_new l H : keep H (H ++ [Some l]).
Proof. split; [rewrite app_length; lia|]. intros p Hp. left. unfold read_block. rewrite nth_error_app1 by exact Hp. reflexivity. Qed.
Lemma keep_upd p H : keep H (upd p None H).
Proof.
  assert (L : length (upd p None H) = length H) by (clear; revert p; induction H as [|x H IH]; intros [|p]; cbn; auto).
  split; [lia|]. intros q Hq. unfold read_block. destruct (Nat.eq_dec p q) as [->|D]; [right; rewrite nth_upd_eq by exact Hq; reflexivity|left; rewrite nth_upd_ne by exact D; reflexivity].
Qed.
Lemma keep_same H H' X Y ps : owned H (X ++ ps) -> owned H' (Y ++ ps) -> keep H H' -> same_on ps H H'.
Proof.
  intros O O' [_ K] p Hp. assert (I : In p (X ++ ps)) by (apply in_or_app; auto). assert (I' : In p (Y ++ ps)) by (apply in_or_app; auto).
  destruct (K p (owned_lt _ _ _ O I)) as [E|E]; [exact E|]. apply (proj2 O') in I'. destruct I' as [l Q]. congruence.
Qed.
Definition hk {A} (H0 : blocks) (o : out blocks A) : Prop := forall H' a, o = Ret H' a -> keep H0 H'.
Definition kb {A} (H0 : blocks) (o : out fm A) : Prop := forall s' a, o = Ret s' a -> keep H0 (fm_blks s').
Lemma hk_bind {A B} H0 (o : out blocks A) (f : blocks -> A -> out blocks B) : hk H0 o -> (forall H1 a, keep H0 H1 -> hk H0 (f H1 a)) -> hk H0 (bind o f).
Proof. intros K1 K2 H' a E. destruct o as [H1 b|H1|H1| |]; cbn [bind] in E; try discriminate. exact (K2 H1 b (K1 _ _ eq_refl) _ _ E). Qed.
Lemma kb_bind {A B} H0 (o : out fm A) (f : fm -> A -> out fm B) : kb H0 o -> (forall s1 a, keep H0 (fm_blks s1) -> kb H0 (f s1 a)) -> kb H0 (bind o f).
Proof. intros K1 K2 H' a E. destruct o as [H1 b|H1|H1| |]; cbn [bind] in E; try discriminate. exact (K2 H1 b (K1 _ _ eq_refl) _ _ E). Qed.
Lemma kb_ret {A} H0 s (a : A) : keep H0 (fm_blks s) -> kb H0 (Ret s a).
Proof. intros K s' b E. injection E as <- <-. exact K. Qed.
Lemma kb_undef {A} H0 : kb H0 (@Undef fm A).
Proof. intros s' b E. discriminate E. Qed.
Lemma hk_ret {A} H0 s (a : A) : keep H0 s -> hk H0 (Ret s a).
Proof. intros K s' b E. injection E as <- <-. exact K. Qed.
Lemma hk_undef {A} H0 : hk H0 (@Undef blocks A).
Proof. intros s' b E. discriminate E. Qed.
Lemma hk_fuel {A} H0 : hk H0 (@Fuel blocks A).
Proof. intros s' b E. discriminate E. Qed.
Lemma kb_lift {A} H0 (f : blocks -> out blocks A) s : hk H0 (f (fm_blks s)) -> kb H0 (fm_lift f s).
Proof. intros K s' a E. unfold fm_lift in E. destruct (f (fm_blks s)) as [H1 b|H1|H1| |] eqn:F; try discriminate E. injection E as <- <-. exact (K _ _ eq_refl). Qed.
Lemma hk_delete H0 p H : keep H0 H -> hk H0 (delete_block p H).
Proof. intro K. unfold delete_block. destruct p as [p|]; [|apply hk_ret; exact K]. destruct (read_block p H); [|apply hk_undef]. apply hk_ret. eapply keep_trans; [exact K|apply keep_upd]. Qed.
Lemma hk_new H0 l H : keep H0 H -> hk H0 (new_block l H).
Proof. intro K. apply hk_ret. eapply keep_trans; [exact K|apply keep_new]. Qed.
Lemma hk_destroy H0 : forall l H, keep H0 H -> hk H0 (destroy_all l H).
Proof.
  induction l as [|x l IH]; intros H K; cbn [destroy_all]; [apply hk_ret; exact K|]. apply hk_bind; [|intros; apply IH; assumption].
  unfold as_destroy. apply hk_bind; [apply hk_delete; exact K|]. intros. apply hk_delete. assumption.
Qed.
Lemma hk_last H0 : forall f i v H, keep H0 H -> hk H0 (av_last f i v H).
Proof. induction f as [|f IH]; intros i v H K; cbn [av_last]; [apply hk_fuel|]. destruct (nth_error (av_states v) i) as [x|]; [|apply hk_undef]. destruct (as_link x); [apply IH; exact K|apply hk_ret; exact K]. Qed.
Lemma alloc_blks s s' b : fm_alloc s = (s', b) -> fm_blks s' = fm_blks s.
Proof. unfold fm_alloc. destruct (fm_ans s); intro E; injection E as <- <-; reflexivity. Qed.
Lemma kb_new H0 l s : keep H0 (fm_blks s) -> kb H0 (fm_new l s).
Proof.
  intro K. unfold fm_new. destruct (fm_alloc s) as [s1 b] eqn:E. apply alloc_blks in E. rewrite <- E in K. destruct b; [|apply kb_ret; exact K].
  apply kb_bind; [apply kb_lift, hk_new; exact K|]. intros. apply kb_ret. assumption.
Qed.
Lemma kb_opt H0 o s : keep H0 (fm_blks s) -> kb H0 (fm_opt o s).
Proof. intro K. destruct o as [l|]; cbn [fm_opt]; [|apply kb_ret; exact K]. apply kb_bind; [apply kb_new; exact K|]. intros. apply kb_ret. assumption. Qed.
Lemma kb_defineKey H0 key src x s : keep H0 (fm_blks s) -> kb H0 (fm_defineKey key src x s).
Proof.
  intro K. unfold fm_defineKey. apply kb_bind; [apply kb_lift, hk_delete; exact K|]. clear K. intros s1 _ K. apply kb_bind; [apply kb_lift, hk_delete; exact K|]. clear K. intros s2 _ K.
  apply kb_bind; [apply kb_opt; exact K|]. clear K. intros s3 k K. destruct k as [k|]; [|apply kb_ret; exact K]. apply kb_bind; [apply kb_opt; exact K|]. clear K. intros s4 q K. destruct q; apply kb_ret; exact K.
Qed.
Lemma kb_copy H0 x s : keep H0 (fm_blks s) -> kb H0 (fm_copy x s).
Proof.
  intro K. unfold fm_copy.
  destruct (match as_key x with None => _ | Some _ => _ end); [|apply kb_undef]. destruct (match as_src x with None => _ | Some _ => _ end); [|apply kb_undef].
  apply kb_bind; [apply kb_defineKey; exact K|]. intros. apply kb_ret. assumption.
Qed.
Lemma kb_define H0 op key src n follow x s : keep H0 (fm_blks s) -> kb H0 (fm_define op key src n follow x s).
Proof. intro K. unfold fm_define. apply kb_bind; [apply kb_defineKey; exact K|]. intros s1 [y b] K1. apply kb_ret. exact K1. Qed.
Lemma kb_copy_all H0 : forall l cs s, keep H0 (fm_blks s) -> kb H0 (fm_copy_all l cs s).
Proof.
  induction l as [|x l IH]; intros cs s K; cbn [fm_copy_all]; [apply kb_ret; exact K|]. apply kb_bind; [apply kb_copy; exact K|]. clear K. intros s1 c K. destruct c as [c|]; [apply IH; exact K|].
  apply kb_bind; [apply kb_lift, hk_destroy; exact K|]. intros. apply kb_ret. assumption.
Qed.
Lemma kb_push H0 grow v s : keep H0 (fm_blks s) -> kb H0 (fm_push grow v s).
Proof.
  intro K. unfold fm_push. destruct (Nat.ltb _ _); [apply kb_ret; exact K|]. destruct (fm_alloc s) as [s1 b] eqn:E. apply alloc_blks in E. rewrite <- E in K. destruct b; [|apply kb_ret; exact K].
  apply kb_bind; [apply kb_copy_all; exact K|]. clear K E. intros s2 l K. destruct l as [l|]; [|apply kb_ret; exact K]. apply kb_bind; [apply kb_lift, hk_destroy; exact K|]. intros. apply kb_ret. assumption.
Qed.
Lemma kb_first H0 grow i v s : keep H0 (fm_blks s) -> kb H0 (fm_first grow i v s).
Proof. intro K. unfold fm_first. destruct (av_states v); [|apply kb_ret; exact K]. apply kb_bind; [apply kb_push; exact K|]. intros. apply kb_ret. assumption. Qed.
Lemma kb_alt H0 grow i v s : keep H0 (fm_blks s) -> kb H0 (fm_alt grow i v s).
Proof.
  intro K. unfold fm_alt. destruct (nth_error (av_states v) i); [|apply kb_undef]. destruct (as_isempty _); [apply kb_ret; exact K|].
  apply kb_bind; [apply kb_lift, hk_last; exact K|]. clear K. intros s1 j K. apply kb_bind; [apply kb_push; exact K|]. intros. apply kb_ret. assumption.
Qed.
Lemma hk_find H0 : forall f op key follow ee v H, keep H0 H -> hk H0 (av_find f op key follow ee v H).
Proof.
  induction f as [|f IH]; intros op key follow ee v H K; cbn [av_find]; [apply hk_fuel|]. destruct ee as [i|]; [|apply hk_ret; exact K].
  repeat (match goal with |- hk _ (match ?x with _ => _ end) => destruct x end; try apply hk_undef; try (apply hk_ret; exact K); try (apply IH; exact K)).
Qed.
Lemma kb_call H0 grow c v s : keep H0 (fm_blks s) -> kb H0 (m_call grow c v s).
Proof.
  intro K. destruct c as [i op name follow|i m t follow b e]; cbn [m_call].
  - unfold fm_defineNext. apply kb_bind; [apply kb_first; exact K|]. clear K. intros s1 [v1 r1] K. cbn [fst snd]. destruct r1 as [[j|]|]; [|apply kb_undef|apply kb_ret; exact K].
    apply kb_bind; [apply kb_lift, hk_find; exact K|]. clear K. intros s2 f K. destruct f as [n|]; [apply kb_ret; exact K|].
    apply kb_bind; [apply kb_lift, hk_last; exact K|]. clear K. intros s3 j3 K. apply kb_bind; [apply kb_alt; exact K|]. clear K. intros s4 [v4 r4] K. cbn [fst snd]. destruct r4 as [j4|]; [|apply kb_ret; exact K].
    apply kb_bind; [apply kb_push; exact K|]. clear K. intros s5 [v5 b5] K. cbn [fst snd]. destruct b5; [|apply kb_ret; exact K]. destruct (nth_error (av_states v5) j4); [|apply kb_undef].
    apply kb_bind; [apply kb_define; exact K|]. intros. apply kb_ret. assumption.
  - unfold fm_defineOutput. apply kb_bind; [apply kb_first; exact K|]. clear K. intros s1 [v1 r1] K. cbn [fst snd]. destruct r1 as [[j|]|]; [|apply kb_ret; exact K|apply kb_ret; exact K].
    destruct (Nat.leb _ _); [apply kb_ret; exact K|]. apply kb_bind; [apply kb_alt; exact K|]. clear K. intros s2 [v2 r2] K. cbn [fst snd]. destruct r2; apply kb_ret; exact K.
Qed.

(** ** several automata and blocks that are lost *)
Definition vals (D : list (option vatm)) : list (option atm) := map (option_map (map fst)) D.
Record nrel (g : list (option avec)) (s : fm) (D : list (option vatm)) (lk : list nat) : Prop := mkNrel { nr_owned : owned (fm_blks s) (aptrs g ++ lk); nr_slots : Forall2 (slot (fm_blks s)) g D }.
Lemma vals_get D k : n_get k (vals D) = option_map (map fst) (n_get k D).
Proof. unfold n_get, vals. revert k. induction D as [|x D IH]; intros [|k]; cbn; auto. Qed.
Lemma n_focus g s D lk k : nrel g s D lk -> match n_get k g with
  | None => n_get k D = None
  | Some v => exists d A1 A2 D1 D2, n_get k D = Some d /\ g = A1 ++ Some v :: A2 /\ D = D1 ++ Some d :: D2 /\ length A1 = k /\ length D1 = k /\
      good (aptrs (A1 ++ A2) ++ lk) (fm_blks s) v d /\ Forall2 (slot (fm_blks s)) (A1 ++ A2) (D1 ++ D2)
  end.
Proof.
  intros [O F]. unfold n_get. pose proof (forall2_nth _ _ _ k F) as N.
  destruct (nth_error g k) as [[v|]|] eqn:E, (nth_error D k) as [[d|]|] eqn:E'; cbn [slot] in N; try contradiction; auto.
  destruct (nth_error_split _ _ E) as [A1 [A2 [-> L]]]. destruct (forall2_split _ _ _ _ _ F) as [V1 [x [V2 [-> [L2 [F1 [F2 F3]]]]]]].
  rewrite <- L, <- L2, nth_mid in E'. injection E' as ->. exists d, A1, A2, V1, V2. destruct N as [N C].
  repeat (split; [first [reflexivity|congruence]|]). split; [constructor; auto|apply Forall2_app; assumption].
  rewrite app_assoc. eapply owned_perm; [|exact O]. apply Permutation_app_tail. exact (aptrs_mid A1 (Some v) A2).
Qed.
Lemma n_unfocus H s' A1 A2 D1 D2 o x lk lk' : length A1 = length D1 -> owned (fm_blks s') (vptrs o ++ lk' ++ aptrs (A1 ++ A2) ++ lk) -> slot (fm_blks s') o x ->
  same_on (aptrs (A1 ++ A2)) H (fm_blks s') -> Forall2 (slot H) (A1 ++ A2) (D1 ++ D2) -> nrel (A1 ++ o :: A2) s' (D1 ++ x :: D2) (lk' ++ lk).
Proof.
  intros L O X S K. apply (slots_same _ _ _ _ S) in K. constructor.
  - eapply owned_perm; [|exact O]. symmetry. etransitivity; [apply Permutation_app_tail, aptrs_mid|]. rewrite <- app_assoc. apply Permutation_app_head. rewrite !app_assoc. apply Permutation_app_tail, Permutation_app_comm.
  - apply Forall2_app_inv_l in K. destruct K as [W1 [W2 [K1 [K2 E]]]].
    assert (E2 : D1 = W1 /\ D2 = W2) by (apply app_split; [rewrite <- L; exact (f2_len K1)|exact E]).
    destruct E2 as [-> ->]. apply Forall2_app; [exact K1|]. constructor; [exact X|exact K2].
Qed.
Lemma n_snoc g s s' D o x lk lk' : nrel g s D lk -> owned (fm_blks s') (vptrs o ++ lk' ++ aptrs g ++ lk) -> slot (fm_blks s') o x -> same_on (aptrs g) (fm_blks s) (fm_blks s') -> nrel (g ++ [o]) s' (D ++ [x]) (lk' ++ lk).
Proof. intros [O F] O' X S. apply n_unfocus with (H := fm_blks s); rewrite ?app_nil_r; auto. exact (f2_len F). Qed.
Lemma vals_upd D1 d D2 x k : length D1 = k -> vals (D1 ++ x :: D2) = upd k (option_map (map fst) x) (vals (D1 ++ d :: D2)).
Proof. intros <-. unfold vals. rewrite !map_app. cbn [map]. rewrite <- (map_length (option_map (map fst)) D1), upd_mid. reflexivity. Qed.
Lemma vals_snoc D x : vals (D ++ [x]) = vals D ++ [option_map (map fst) x].
Proof. unfold vals. rewrite map_app. reflexivity. Qed.

(** copy of an automaton *)
Lemma fm_vcopy_ok v d s ps : owned (fm_blks s) ps -> incl (flat_map ptrs (av_states v)) ps -> Forall2 (holds (fm_blks s)) (av_states v) d ->
  exists s' r, fm_vcopy v s = Ret s' r /\ same_on ps (fm_blks s) (fm_blks s') /\
  match r with
  | Some w => good ps (fm_blks s') w d /\ left_over s = left_over s'
  | None => exists lk, (length lk <= 1)%nat /\ owned (fm_blks s') (lk ++ ps) /\ left_over s = S (left_over s')
  end.
Proof.
  intros O Inc F. unfold fm_vcopy. destruct (av_states v) as [|x l] eqn:Ev.
  - inversion F; subst. exists s, (Some av_new). split; [reflexivity|]. split; [apply same_refl|]. split; [|reflexivity]. apply good_new. exact O.
  - rewrite <- Ev in *. clear Ev x l. destruct (alloc_ok s) as (r & b & -> & N). destruct b.
    + destruct (fm_copy_all_ok (av_states v) [] (mkFm (fm_blks s) r) ps d []) as (s1 & r1 & -> & S1 & K); [exact O|exact Inc|exact F|constructor|]. cbn [bind fm_blks fm_ans app] in *.
      exists s1, (option_map (fun l => mkAv l (length l)) r1). split; [reflexivity|]. split; [exact S1|]. destruct r1 as [l|]; cbn [option_map].
      * destruct K as (O1 & F1 & N1). split; [constructor; cbn [av_states av_cap]; auto|lia].
      * destruct K as (lk & L & O1 & N1). exists lk. split; [exact L|]. split; [exact O1|lia].
    + eexists _, None. split; [reflexivity|]. cbn [fm_blks fm_ans] in *. split; [apply same_refl|]. exists []. cbn [app length]. split; [lia|]. split; [exact O|lia].
Qed.

Lemma n_step grow c g s D lk : plain_names c -> nrel g s D lk -> exists m,
  match q_call c m (vals D) with
  | Ret V r => exists g' s' D' lk', n_call grow c (g, s) = Ret (g', s') r /\ vals D' = V /\ nrel g' s' D' (lk' ++ lk) /\ (length lk' <= lossy_in c m)%nat /\ left_over s = (one m + left_over s')%nat /\ (m <> None -> threw r)
  | Fuel => n_call grow c (g, s) = Fuel
  | _ => n_call grow c (g, s) = Undef
  end.
Proof.
  intros Z R. destruct c as [|k c|k|k]; cbn [q_call n_call lossy_in].
  - exists None. exists (g ++ [Some av_new]), s, (D ++ [Some []]), []. split; [reflexivity|]. split; [apply vals_snoc|]. split; [|cbn; split; [lia|split; [lia|congruence]]].
    eapply n_snoc; [exact R|exact (nr_owned _ _ _ _ R)|split; [constructor|cbn; lia]|apply same_refl].
  - pose proof (n_focus _ _ _ _ k R) as K. rewrite vals_get. destruct (n_get k g) as [v|]; [|rewrite K; exists None; reflexivity].
    destruct K as (d & A1 & A2 & D1 & D2 & Ed & -> & -> & L1 & L2 & G & F). rewrite Ed. cbn [option_map].
    destruct (call_place grow s _ v d c Z G) as [m A]. exists m. unfold agrees in A. destruct (p_call c m (map fst d)) as [a r|a|a| |]; try (rewrite A; reflexivity).
    destruct A as (s' & v' & d' & lk' & E & Em & G' & Lk & N & Rr). rewrite E. cbn [n_with fst snd]. eexists _, s', (D1 ++ Some d' :: D2), lk'. split; [reflexivity|].
    split; [rewrite (vals_upd D1 (Some d) D2 (Some d') k L2); cbn [option_map]; rewrite Em; reflexivity|]. rewrite upd_at by exact L1. split; [|split; [exact Lk|split; [exact N|intro Q; right; rewrite (Rr Q); reflexivity]]].
    apply n_unfocus with (H := fm_blks s); [congruence|apply G'|split; [apply G'|apply G']| |exact F].
    assert (KB : keep (fm_blks s) (fm_blks s')) by exact (kb_call _ grow c v s (keep_refl _) _ _ E).
    destruct G as [O _ _], G' as [O' _ _]. rewrite app_assoc in O'. eapply same_incl; [exact (keep_same _ _ _ _ _ O O' KB)|]. apply incl_appl, incl_refl.
  - pose proof (n_focus _ _ _ _ k R) as K. rewrite vals_get. destruct (n_get k g) as [v|] eqn:Ek; [|rewrite K; exists None; reflexivity].
    destruct K as (d & A1 & A2 & D1 & D2 & Ed & Eg & ED & L1 & L2 & G & F). rewrite Ed. cbn [option_map].
    destruct (fm_vcopy_ok v d s (aptrs g ++ lk)) as (s' & r & -> & S & K); [apply R| |apply G|].
    { apply incl_appl. eapply slot_of; [apply R|]. rewrite Eg, <- L1. apply nth_mid. }
    assert (S' : same_on (aptrs g) (fm_blks s) (fm_blks s')) by (eapply same_incl; [exact S|apply incl_appl, incl_refl]).
    cbn [n_with fst snd]. destruct r as [w|].
    + destruct K as (G' & N). exists None. eexists _, s', (D ++ [Some d]), []. split; [reflexivity|]. split; [rewrite vals_snoc; reflexivity|].
      split; [|cbn; split; [lia|split; [lia|congruence]]]. eapply n_snoc; [exact R|apply G'|split; apply G'|exact S'].
    + destruct K as (lk' & L & O' & N). exists (Some PlFirst). eexists _, s', (D ++ [None]), lk'. split; [reflexivity|]. split; [rewrite vals_snoc; reflexivity|].
      split; [|split; [exact L|split; [exact N|intros _; left; reflexivity]]]. eapply n_snoc; [exact R|exact O'|exact I|exact S'].
  - pose proof (n_focus _ _ _ _ k R) as K. rewrite vals_get. destruct (n_get k g) as [v|] eqn:Ek; [|rewrite K; exists None; reflexivity].
    destruct K as (d & A1 & A2 & D1 & D2 & Ed & -> & -> & L1 & L2 & G & F). rewrite Ed. cbn [option_map]. destruct G as [O Fv C].
    destruct (lift_destroy _ _ _ O) as (s' & -> & O' & S & A). cbn [n_with fst snd]. exists None. eexists _, s', (D1 ++ None :: D2), []. split; [reflexivity|].
    split; [apply (vals_upd D1 (Some d) D2 None k L2)|]. rewrite upd_at by exact L1. split; [|cbn; split; [lia|split; [rewrite A; reflexivity|congruence]]].
    apply n_unfocus with (H := fm_blks s); [congruence|exact O'|exact I| |exact F]. eapply same_incl; [exact S|]. apply incl_appl, incl_refl.
Qed.
Lemma n_steps grow : forall cs g s D lk, Forall plain_names cs -> nrel g s D lk -> exists ms, length ms = length cs /\
  match q_calls cs ms (vals D) with
  | Ret V rs => exists g' s' D' lk', n_calls grow cs (g, s) = Ret (g', s') rs /\ vals D' = V /\ nrel g' s' D' (lk' ++ lk) /\ (length lk' <= lost_in cs ms)%nat /\ left_over s = (total one ms + left_over s')%nat /\
                Forall2 (fun m r => m <> None -> threw r) ms rs
  | Fuel => n_calls grow cs (g, s) = Fuel
  | _ => n_calls grow cs (g, s) = Undef
  end.
Proof.
  induction cs as [|c cs IH]; intros g s D lk Z R.
  - exists []. split; [reflexivity|]. cbn. exists g, s, D, []. cbn. auto 10.
  - apply Forall_cons_iff in Z. destruct Z as [Z1 Z2]. destruct (n_step grow c g s D lk Z1 R) as [m A].
    destruct (q_call c m (vals D)) as [V r|V|V| |] eqn:E;
      try (exists (m :: map (fun _ => None) cs); split; [cbn; rewrite map_length; reflexivity|]; cbn [q_calls n_calls hd tl]; rewrite E, A; reflexivity).
    destruct A as (g1 & s1 & D1 & lk1 & E1 & <- & R1 & L1 & N1 & T1). destruct (IH g1 s1 D1 _ Z2 R1) as (ms & Lm & K). exists (m :: ms). split; [cbn; congruence|].
    cbn [q_calls n_calls hd tl]. rewrite E, E1. cbn [bind]. destruct (q_calls cs ms (vals D1)) as [V rs|V|V| |]; cbn [bind]; try (rewrite K; reflexivity).
    destruct K as (g2 & s2 & D2 & lk2 & E2 & M2 & R2 & L2 & N2 & T2). rewrite E2. cbn [bind]. exists g2, s2, D2, (lk2 ++ lk1). rewrite app_length, <- app_assoc.
    split; [reflexivity|]. split; [exact M2|]. split; [exact R2|]. change (total one (m :: ms)) with (one m + total one ms)%nat. cbn [lost_in]. split; [lia|]. split; [lia|]. constructor; assumption.
Qed.
Lemma n_start answers : nrel [] (mkFm [] answers) [] [].
Proof. constructor; cbn; [|constructor]. split; [constructor|]. intros p. split; [intros [l Hl]; destruct p; discriminate|intros []]. Qed.
Lemma n_use g s D lk : nrel g s D lk -> in_use (fm_blks s) = (all_need D + length lk)%nat.
Proof. intros [O F]. rewrite (use_owned _ _ O), app_length, (all_need_ok _ _ _ F). reflexivity. Qed.

(** assignment to another automaton, without states or without place *)
Lemma fm_vassign_ok v w d e s ps : good ps (fm_blks s) v d -> incl (flat_map ptrs (av_states w)) ps -> Forall2 (holds (fm_blks s)) (av_states w) e -> d = [] \/ (av_cap v < length e)%nat ->
  exists s' v' b lk, fm_vassign v w s = Ret s' (v', b) /\ good (lk ++ ps) (fm_blks s') v' (if b then e else d) /\ same_on ps (fm_blks s) (fm_blks s') /\ (length lk <= if b then 0 else 1)%nat /\
    left_over s = ((if b then 0 else 1) + left_over s')%nat /\ (b = false -> v' = v).
Proof.
  intros G Inc F K. pose proof (good_len _ _ _ _ G) as Lv. pose proof (f2_len F) as Lw. pose proof G as [O Fv C]. unfold fm_vassign.
  destruct (Nat.ltb_spec (av_cap v) (length (av_states w))) as [B|B].
  - destruct (alloc_ok s) as (r & b & -> & N). destruct b.
    + destruct (fm_copy_all_ok (av_states w) [] (mkFm (fm_blks s) r) (flat_map ptrs (av_states v) ++ ps) e []) as (s1 & r1 & -> & S1 & K1); [exact O|apply incl_appr; exact Inc|exact F|constructor|]. cbn [bind fm_blks fm_ans app] in *.
      destruct r1 as [l|].
      * destruct K1 as (O1 & F1 & N1).
        assert (O2 : owned (fm_blks s1) (flat_map ptrs (av_states v) ++ flat_map ptrs l ++ ps)) by (eapply owned_perm; [|exact O1]; rewrite !app_assoc; apply Permutation_app_tail, Permutation_app_comm).
        destruct (lift_destroy _ s1 _ O2) as (s2 & -> & O3 & S2 & A2). cbn [bind]. eexists s2, _, true, []. split; [reflexivity|]. rewrite A2. cbn [app length]. split; [|split; [|split; [lia|split; [lia|discriminate]]]].
        -- constructor; cbn [av_states av_cap]; [exact O3|eapply all_same; [exact S2|apply incl_appl, incl_refl|exact F1]|pose proof (f2_len F1); lia].
        -- eapply same_trans; [eapply same_incl; [exact S1|apply incl_appr, incl_refl]|]. eapply same_incl; [exact S2|apply incl_appr, incl_refl].
      * destruct K1 as (lk & L & O1 & N1). exists s1, v, false, lk. split; [reflexivity|]. split; [|split; [|split; [exact L|split; [lia|reflexivity]]]].
        -- constructor; [eapply owned_perm; [|exact O1]; rewrite !app_assoc; apply Permutation_app_tail, Permutation_app_comm|eapply all_same; [exact S1|apply incl_appl, incl_refl|exact Fv]|exact C].
        -- eapply same_incl; [exact S1|apply incl_appr, incl_refl].
    + eexists _, v, false, []. split; [reflexivity|]. cbn [fm_blks fm_ans app length] in *. split; [exact G|]. split; [apply same_refl|]. split; [lia|]. split; [lia|reflexivity].
  - destruct K as [->|K]; [|lia]. destruct v as [[|] c]; [|discriminate Lv]. cbn [av_states av_cap length flat_map app] in *. cbn [skipn firstn].
    destruct (Nat.leb_spec (length (av_states w)) 0) as [Z|Z].
    + assert (W : av_states w = []) by (destruct (av_states w); [reflexivity|cbn in Z; lia]). rewrite W in *. inversion F; subst. unfold fm_lift. cbn [destroy_all bind].
      destruct s as [H an]. eexists _, _, true, []. split; [reflexivity|]. cbn [fm_blks fm_ans app length] in *. split; [constructor; cbn; [exact O|constructor|lia]|]. split; [apply same_refl|]. split; [lia|]. split; [reflexivity|discriminate].
    + destruct (fm_copy_all_ok (av_states w) [] s ps e []) as (s1 & r1 & -> & S1 & K1); [exact O|exact Inc|exact F|constructor|]. cbn [bind app] in *. destruct r1 as [l|].
      * destruct K1 as (O1 & F1 & N1). eexists s1, _, true, []. split; [reflexivity|]. cbn [app length]. split; [constructor; cbn [av_states av_cap]; [exact O1|exact F1|pose proof (f2_len F1); lia]|]. split; [exact S1|]. split; [lia|]. split; [lia|discriminate].
      * destruct K1 as (lk & L & O1 & N1). eexists s1, _, false, lk. split; [reflexivity|]. split; [split; [exact O1|exact (Forall2_nil _)|exact C]|]. split; [exact S1|]. split; [exact L|]. split; [lia|reflexivity].
Qed.
Lemma n_assign_ok g s D lk (k j : nat) v dk dj : nrel g s D lk -> k <> j -> n_get k g = Some v -> n_get k D = Some dk -> n_get j D = Some dj -> dk = [] \/ (av_cap v < length dj)%nat ->
  exists g' s' (b : bool) lk', n_assign k j (g, s) = Ret (g', s') (if b then NDone else NThrew) /\ nrel g' s' (if b then upd k (Some dj) D else D) (lk' ++ lk) /\ (length lk' <= if b then 0 else 1)%nat /\
    left_over s = ((if b then 0 else 1) + left_over s')%nat /\ (b = false -> g' = g).
Proof.
  intros R J Ek Ed Ee P. pose proof (n_focus _ _ _ _ k R) as K. rewrite Ek in K. destruct K as (d & A1 & A2 & D1 & D2 & Ed' & Eg & ED & L1 & L2 & G & F). rewrite Ed in Ed'. injection Ed' as <-.
  unfold n_assign. rewrite Ek. pose proof (n_focus _ _ _ _ j R) as K. destruct (n_get j g) as [w|] eqn:Ej; [clear K|rewrite Ee in K; discriminate K].
  destruct (Nat.eqb_spec k j) as [Q|_]; [contradiction|].
  assert (Nj : nth_error (A1 ++ Some v :: A2) j = Some (Some w)) by (unfold n_get in Ej; rewrite Eg in Ej; destruct (nth_error _ j) as [[|]|]; congruence).
  destruct (other _ A1 A2 D1 D2 (Some v) (Some dk) j ltac:(congruence) F ltac:(congruence) w Nj) as [e [Ee' [Inc [Fe Ce]]]].
  assert (e = dj) as -> by (unfold v_get in Ee'; unfold n_get in Ee; rewrite ED in Ee; congruence).
  destruct (fm_vassign_ok v w dk dj s _ G (incl_appl _ Inc) Fe P) as (s' & v' & b & lk' & -> & G' & S & L & N & V). cbn [n_with fst snd].
  exists (upd k (Some v') g), s', b, lk'. split; [reflexivity|]. split; [|split; [exact L|split; [exact N|]]].
  - rewrite Eg, ED. rewrite !upd_at by congruence.
    assert (Q : nrel (A1 ++ Some v' :: A2) s' (D1 ++ Some (if b then dj else dk) :: D2) (lk' ++ lk)).
    { apply n_unfocus with (H := fm_blks s); [congruence|apply G'|split; apply G'| |exact F]. eapply same_incl; [exact S|apply incl_appl, incl_refl]. }
    destruct b; exact Q.
  - intros Q. rewrite (V Q), Eg, upd_at by exact L1. reflexivity.
Qed.

(** assignment with place: what the automaton assigned to and the other one read as *)
Lemma forall2_skipn {A B} (R : A -> B -> Prop) n : forall l d, Forall2 R l d -> Forall2 R (skipn n l) (skipn n d).
Proof. induction n as [|n IH]; intros l d F; [exact F|]. inversion F; subst; cbn [skipn]; [constructor|auto]. Qed.
Lemma forall2_firstn {A B} (R : A -> B -> Prop) n : forall l d, Forall2 R l d -> Forall2 R (firstn n l) (firstn n d).
Proof. induction n as [|n IH]; intros l d F; [constructor|]. inversion F; subst; cbn [firstn]; constructor; auto. Qed.
Lemma flat_skipn n : forall (l : list astate), incl (flat_map ptrs (skipn n l)) (flat_map ptrs l).
Proof. induction n as [|n IH]; intros [|x l]; cbn [skipn flat_map]; try apply incl_refl. apply incl_appr, IH. Qed.
Lemma flat_firstn n : forall (l : list astate), incl (flat_map ptrs (firstn n l)) (flat_map ptrs l).
Proof. induction n as [|n IH]; intros [|x l]; cbn [firstn flat_map]; try apply incl_nil_l; try apply incl_refl. apply incl_app; [apply incl_appl, incl_refl|apply incl_appr, IH]. Qed.
Lemma fm_vassign_place v w d e s ps : good ps (fm_blks s) v d -> incl (flat_map ptrs (av_states w)) ps -> Forall2 (holds (fm_blks s)) (av_states w) e -> (length e <= av_cap v)%nat ->
  exists s' v' (b : bool), fm_vassign v w s = Ret s' (v', b) /\ av_cap v' = av_cap v /\ same_on ps (fm_blks s) (fm_blks s') /\
    Forall2 (holds (fm_blks s')) (av_states v') (if b then e else firstn (length d) e) /\ (b = false -> length d < length e)%nat /\
    firstn (length d) (av_states v') = firstn (length d) (av_states w).
Proof.
  intros G Inc F K. pose proof (good_len _ _ _ _ G) as Lv. pose proof (f2_len F) as Lw. pose proof G as [O Fv C]. unfold fm_vassign.
  destruct (Nat.ltb_spec (av_cap v) (length (av_states w))) as [B|B]; [lia|].
  destruct (Nat.leb_spec (length (av_states w)) (length (av_states v))) as [M|M].
  - rewrite <- (firstn_skipn (length (av_states w)) (av_states v)), flat_map_app in O.
    assert (O' : owned (fm_blks s) (flat_map ptrs (skipn (length (av_states w)) (av_states v)) ++ flat_map ptrs (firstn (length (av_states w)) (av_states v)) ++ ps))
      by (eapply owned_perm; [|exact O]; rewrite !app_assoc; apply Permutation_app_tail, Permutation_app_comm).
    destruct (lift_destroy _ s _ O') as (s2 & -> & O3 & S2 & A2). cbn [bind]. exists s2, (mkAv (av_states w) (av_cap v)), true. split; [reflexivity|]. split; [reflexivity|].
    assert (S : same_on ps (fm_blks s) (fm_blks s2)) by (eapply same_incl; [exact S2|apply incl_appr, incl_refl]). split; [exact S|]. cbn [av_states].
    split; [eapply all_same; [exact S|exact Inc|exact F]|]. split; [discriminate|reflexivity].
  - assert (Ic : incl (flat_map ptrs (skipn (length (av_states v)) (av_states w))) (flat_map ptrs (av_states v) ++ ps)) by (apply incl_appr; eapply incl_tran; [apply flat_skipn|exact Inc]).
    destruct (fm_copy_all_ok (skipn (length (av_states v)) (av_states w)) [] s (flat_map ptrs (av_states v) ++ ps) (skipn (length (av_states v)) e) []) as (s1 & r1 & -> & S1 & K1);
      [exact O|exact Ic|apply forall2_skipn; exact F|constructor|].
    assert (S : same_on ps (fm_blks s) (fm_blks s1)) by (eapply same_incl; [exact S1|apply incl_appr, incl_refl]).
    assert (F1 : Forall2 (holds (fm_blks s1)) (firstn (length (av_states v)) (av_states w)) (firstn (length (av_states v)) e)).
    { eapply all_same; [exact S|eapply incl_tran; [apply flat_firstn|exact Inc]|apply forall2_firstn; exact F]. }
    assert (FF : forall l, firstn (length d) (firstn (length (av_states v)) (av_states w) ++ l) = firstn (length d) (av_states w)).
    { intro l. rewrite <- Lv. rewrite firstn_app, firstn_firstn, Nat.min_id, firstn_length, Nat.min_l by lia. rewrite Nat.sub_diag. cbn [firstn]. apply app_nil_r. }
    cbn [bind]. destruct r1 as [l|].
    + destruct K1 as (O1 & F2 & N1). eexists s1, _, true. split; [reflexivity|]. cbn [av_states av_cap app] in *. split; [reflexivity|]. split; [exact S|].
      split; [rewrite <- (firstn_skipn (length (av_states v)) e); apply Forall2_app; assumption|]. split; [discriminate|apply FF].
    + eexists s1, _, false. split; [reflexivity|]. cbn [av_states av_cap]. split; [reflexivity|]. split; [exact S|]. rewrite <- Lv in *. split; [exact F1|]. split; [intros _; lia|].
      rewrite firstn_firstn, Nat.min_id. reflexivity.
Qed.
Lemma n_assign_place g s D lk (k j : nat) v w : nrel g s D lk -> k <> j -> n_get k g = Some v -> n_get j g = Some w -> (length (av_states w) <= av_cap v)%nat ->
  exists g' s' (b : bool) e, n_assign k j (g, s) = Ret (g', s') (if b then NDone else NThrew) /\ (b = false -> length (av_states v) < length (av_states w))%nat /\
    n_get j D = Some e /\ Forall2 (slot (fm_blks s')) g' (upd k (Some (if b then e else firstn (length (av_states v)) e)) D).
Proof.
  intros R J Ek Ej P. pose proof (n_focus _ _ _ _ k R) as K. rewrite Ek in K. destruct K as (dk & A1 & A2 & D1 & D2 & Ed & Eg & ED & L1 & L2 & G & F).
  unfold n_assign. rewrite Ek, Ej. destruct (Nat.eqb_spec k j) as [Q|_]; [contradiction|].
  assert (Nj : nth_error (A1 ++ Some v :: A2) j = Some (Some w)) by (unfold n_get in Ej; rewrite Eg in Ej; destruct (nth_error _ j) as [[|]|]; congruence).
  destruct (other _ A1 A2 D1 D2 (Some v) (Some dk) j ltac:(congruence) F ltac:(congruence) w Nj) as [e [Ee [Inc [Fe Ce]]]].
  pose proof (f2_len Fe) as Le. pose proof (good_len _ _ _ _ G) as Lv.
  destruct (fm_vassign_place v w dk e s _ G (incl_appl _ Inc) Fe) as (s' & v' & b & -> & C & S & F' & B & _); [lia|]. cbn [n_with fst snd].
  exists (upd k (Some v') g), s', b, e. split; [reflexivity|]. split; [intro Q; pose proof (B Q); lia|].
  split; [unfold v_get in Ee; unfold n_get; rewrite ED; exact Ee|].
  rewrite Eg, ED. rewrite !upd_at by congruence.
  assert (S' : same_on (aptrs (A1 ++ A2)) (fm_blks s) (fm_blks s')) by (eapply same_incl; [exact S|apply incl_appl, incl_refl]).
  pose proof (slots_same _ _ _ _ S' F) as F2. assert (LL : length A1 = length D1) by congruence. clear -F2 F' LL C Lv Le P B.
  apply Forall2_app_inv_l in F2. destruct F2 as (E1 & E2 & X1 & X2 & X3). pose proof (f2_len X1) as L. rewrite LL in L.
  assert (E1 = D1 /\ E2 = D2) as [-> ->]. { clear -L X3. revert E1 L X3. induction D1 as [|x D1 IH]; intros [|y E1] L X3; try discriminate L; [auto|]. cbn in X3. injection X3 as <- X3. destruct (IH E1); [cbn in L; lia|exact X3|]. subst. auto. }
  apply Forall2_app; [exact X1|]. constructor; [|exact X2]. cbn [slot]. rewrite Lv. split; [exact F'|]. rewrite C, (f2_len F'). destruct b; [lia|]. rewrite firstn_length. lia.
Qed.
