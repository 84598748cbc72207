(** The example programs (proofs). *)
From Coq Require Import Lia ZifyBool ZifyNat.
From Verif Require Import Base Iter CharMap CodePages Charset TextScanner Ideal ReaderSim ScannerSim IterSim CharsetSpec CharsetProofs CharsetMore ReadSpec ReadProofs ChunkRead
  XmlScanner ScanSpec ScanProofs Safety FuelMono Term ChunkScan ChunkTop SourceFwd SourceSim PropsScan PropsSource CstrSim XmlIter Names Examples ExampleSpec.
Ltac Zify.zify_post_hook ::= Z.div_mod_to_equations.

(** ** The loop over the elements *)
Lemma name_of_ok : forall t, getElementTypeName t = Some (name_of t).
Proof. destruct t; reflexivity. Qed.

Definition goes_on (e : etype) : bool := match e with EExit | EErrorOccurred => false | _ => true end.
Definition end_with (e : event) : ended := match ev_type e with EErrorOccurred => Thrown (str "xml error: " ++ before_null (ev_item e)) | _ => EndOfLoop end.

Section Loop.
Context {R : Type} (rops : readerops R) (cfg : config).

(** one element visited, then the loop goes on as from the beginning *)
Lemma print_all_step : forall fuel n (s : @xsc R) put,
  print_all rops cfg fuel (S n) s put =
  match nextItem rops cfg fuel 0xFFFF (fst s) with
  | Ret s1 t => let s1 := (s1, S (snd s)) in
      match t with
      | EExit => Ret (s1, put) EndOfLoop
      | EErrorOccurred => Ret (s1, put) (Thrown (str "xml error: " ++ before_null (sc_getItem (fst s1))))
      | _ => print_all rops cfg fuel n s1 (put ++ element_line (t, sc_getItem (fst s1)))
      end
  | Jump s1 => Jump ((s1, S (snd s)), put)
  | Throw s1 => Throw ((s1, S (snd s)), put)
  | Undef => Undef
  | Fuel => Fuel
  end.
Proof.
  intros fuel n [s k] put. unfold print_all at 1, x_begin, x_next. cbn [fst snd].
  destruct (nextItem rops cfg fuel 65535 s) as [s1 t| | | |]; cbn [omap bind fst snd]; try reflexivity.
  assert (HR : x_elem (mkXi (mkItel t (x_itemPtr (s1, S k)) (x_itemSize (s1, S k))) true) (s1, S k) = Some (sc_getItem s1)).
  { unfold x_elem, x_read, x_itemPtr, x_itemSize, sc_getItem. cbn [fst snd xi_elem ie_content ie_size]. destruct (sc_obuf s1) as [|b l] eqn:E; [reflexivity|].
    rewrite Nat.eqb_refl. replace (Nat.leb (length (b :: l)) (length (b :: l) + 1)) with true by (symmetry; apply Nat.leb_le; lia). cbn [andb].
    rewrite firstn_app, firstn_all, Nat.sub_diag, app_nil_r. reflexivity. }
  cbn [print_loop].
  assert (HM : x_message (mkXi (mkItel EErrorOccurred (x_itemPtr (s1, S k)) (x_itemSize (s1, S k))) true) (s1, S k) = Some (str "xml error: " ++ before_null (sc_getItem s1)) /\
     x_itemPtr (s1, S k) <> PNull).
  { unfold x_message, ie_error, c_string, x_itemPtr, sc_getItem. cbn [xi_elem ie_type ie_content fst snd]. destruct (sc_obuf s1) as [|b l]; [split; [reflexivity|discriminate]|].
    rewrite Nat.eqb_refl. split; [reflexivity|discriminate]. }
  destruct t; unfold x_name; cbn [x_eq xi_elem ie_type x_end ie_end ie_error]; try reflexivity;
    try (rewrite name_of_ok, HR; unfold print_all, element_line, x_preinc, x_skip, x_begin, x_next; cbn [xi_input fst snd xi_elem ie_type];
         repeat rewrite <- app_assoc; reflexivity).
  destruct HM as [HM HN]. rewrite HM. destruct (x_itemPtr (s1, S k)); [congruence| |]; reflexivity.
Qed.

Definition visited (e : event) : etype * list N := (ev_type e, ev_item e).
Lemma print_scan : forall evs ev n fuel s s' k put, (length evs < n)%nat -> scan rops cfg fuel (calls (S (length evs))) s = Ret s' (evs ++ [ev]) ->
  Forall (fun e => goes_on (ev_type e) = true) evs -> goes_on (ev_type ev) = false ->
  print_all rops cfg fuel n (s, k) put = Ret ((s', (S (length evs) + k)%nat), put ++ flat_map element_line (map visited evs)) (end_with ev).
Proof.
  induction evs as [|e evs IH]; intros ev n fuel s s' k put Hn HS He Hv; (destruct n as [|n]; [cbn [length] in Hn; lia|]); rewrite print_all_step; cbn [fst snd].
  - cbn [length calls repeat scan app] in HS. destruct (nextItem rops cfg fuel mask_all s) as [s1 t| | | |] eqn:E1; cbn [bind] in HS; try discriminate.
    change 65535 with mask_all. rewrite E1. injection HS as <- <-. cbn [flat_map map]. rewrite app_nil_r. unfold end_with. cbn [observe ev_type ev_item length].
    destruct t; try discriminate Hv; reflexivity.
  - cbn [length] in *. change (calls (S (S (length evs)))) with (mask_all :: calls (S (length evs))) in HS. cbn [scan app] in HS.
    destruct (nextItem rops cfg fuel mask_all s) as [s1 t| | | |] eqn:E1; cbn [bind] in HS; try discriminate.
    destruct (scan rops cfg fuel (calls (S (length evs))) s1) as [s2 evs2| | | |] eqn:E2; cbn [bind] in HS; try discriminate. injection HS as <- <- ->.
    change 65535 with mask_all. rewrite E1. inversion He as [|? ? He1 He2]; subst. cbn [observe ev_type] in He1.
    assert (G : print_all rops cfg fuel n (s1, S k) (put ++ element_line (t, sc_getItem s1)) =
       Ret ((s2, (S (S (length evs)) + k)%nat), put ++ flat_map element_line (map visited (observe rops t s1 :: evs))) (end_with ev)).
    { rewrite (IH ev n fuel s1 s2 (S k)); [|lia|exact E2|exact He2|exact Hv]. cbn [map flat_map]. rewrite <- app_assoc. unfold visited at 2. cbn [observe ev_type ev_item].
      replace (S (length evs) + S k)%nat with (S (S (length evs)) + k)%nat by lia. reflexivity. }
    destruct t; try discriminate He1; exact G.
Qed.
End Loop.

(** ** Chunks *)
Section Chunks.
Notation cs := UTF8.
Notation cfg := utf8_config.
Notation iops := (ir_ops cs).
Notation cops := (ts_ops src_ops cs).
Notation XX := (X cs false).
Notation VV := (V cs false).
Notation OO := (O cs false).
Lemma u8ok : cs_constructible cs = true. Proof. reflexivity. Qed.

(** the scanner in front of the next call, after an interrupt *)
Definition before_call (w : list N) (T : N * bool) (s : scanner (tscan srcit)) (t : scanner ird) : Prop :=
  exists si, srel eq (srA (fst T) cs) s si /\ (XX w T si t \/ exists k, VV w T k si t /\ swallow mask_all si).
Definition interrupted (w : list N) (T : N * bool) (s : scanner (tscan srcit)) (t : scanner ird) : Prop :=
  exists si, srel eq (srAj (fst T) cs) s si /\ (XX w T si t \/ exists k, OO w T k si t /\ swallow mask_all si).

Lemma chunk_prints : forall evs ev f n w T s t t' k put, (length evs < n)%nat -> before_call w T s t ->
  scan iops cfg f (calls (S (length evs))) t = Ret t' (evs ++ [ev]) -> Forall (fun e => goes_on (ev_type e) = true) evs -> goes_on (ev_type ev) = false ->
  (exists st, print_all cops cfg (f + 9) n (s, k) put = Ret (st, put ++ flat_map element_line (map visited evs)) (end_with ev)) \/
  (exists evs1 evs2 s1 k1 t1, evs = evs1 ++ evs2 /\ print_all cops cfg (f + 9) n (s, k) put = Jump ((s1, k1), put ++ flat_map element_line (map visited evs1)) /\
     interrupted w T s1 t1 /\ scan iops cfg f (calls (S (length evs2))) t1 = Ret t' (evs2 ++ [ev])).
Proof.
  induction evs as [|e evs IH]; intros ev f n w T s t t' k put Hn [si [Hs H]] HS He Hv; (destruct n as [|n]; [cbn [length] in Hn; lia|]); rewrite print_all_step; cbn [fst snd];
    change 65535 with mask_all.
  - cbn [length calls repeat scan app] in HS. destruct (nextItem iops cfg f mask_all t) as [t1 ty| | | |] eqn:E1; cbn [bind] in HS; try discriminate. injection HS as <- <-.
    pose proof (sim_nextItem _ _ cfg _ _ _ _ (srA_rsim (fst T) cs u8ok) (f + 9) mask_all s si Hs) as Hsim.
    destruct (ideal_next cs cfg false _ _ _ _ _ _ _ _ H E1) as [[si' [E HX]]|[si1 [t2 [E [Et Hx]]]]]; rewrite E in Hsim; inversion Hsim as [s1 x1 a1 Hr F1 F2|s1 x1 Hr F1 F2| | |]; subst.
    + left. assert (Eo : sc_getItem s1 = sc_getItem t1).
      { destruct HX as [HX _]. unfold sc_getItem. inversion Hr; subst. inversion HX; subst. reflexivity. }
      exists (s1, S k). cbn [map flat_map]. rewrite app_nil_r. unfold end_with. cbn [observe ev_type ev_item]. rewrite <- Eo. destruct ty; try discriminate Hv; reflexivity.
    + right. exists [], [], s1, (S k), t2. split; [reflexivity|]. split; [cbn [map flat_map]; rewrite app_nil_r; reflexivity|]. split; [exists si1; split; [exact Hr|exact Hx]|].
      cbn [length calls repeat scan app]. rewrite Et. reflexivity.
  - cbn [length] in *. assert (HS0 := HS). change (calls (S (S (length evs)))) with (mask_all :: calls (S (length evs))) in HS. cbn [scan app] in HS.
    destruct (nextItem iops cfg f mask_all t) as [t1 ty| | | |] eqn:E1; cbn [bind] in HS; try discriminate.
    destruct (scan iops cfg f (calls (S (length evs))) t1) as [t2 evs2| | | |] eqn:E2; cbn [bind] in HS; try discriminate. injection HS as <- <- ->.
    inversion He as [|? ? He1 He2]; subst. cbn [observe ev_type] in He1.
    pose proof (sim_nextItem _ _ cfg _ _ _ _ (srA_rsim (fst T) cs u8ok) (f + 9) mask_all s si Hs) as Hsim.
    destruct (ideal_next cs cfg false _ _ _ _ _ _ _ _ H E1) as [[si' [E HX]]|[si1 [t3 [E [Et Hx]]]]]; rewrite E in Hsim; inversion Hsim as [s1 x1 a1 Hr F1 F2|s1 x1 Hr F1 F2| | |]; subst.
    + assert (Eo : sc_getItem s1 = sc_getItem t1).
      { destruct HX as [HX _]. unfold sc_getItem. inversion Hr; subst. inversion HX; subst. reflexivity. }
      assert (Hb : before_call w T s1 t1) by (exists si'; split; [exact Hr|left; exact HX]).
      cbv zeta. replace (match ty with EExit => _ | EErrorOccurred => _ | _ => _ end)
        with (print_all cops cfg (f + 9) n (s1, S k) (put ++ element_line (ty, sc_getItem s1))) by (destruct ty; try discriminate He1; reflexivity).
      assert (El : forall l, (put ++ element_line (ty, sc_getItem s1)) ++ flat_map element_line (map visited l) = put ++ flat_map element_line (map visited (observe iops ty t1 :: l))).
      { intros l. cbn [map flat_map]. rewrite <- app_assoc. unfold visited at 2. cbn [observe ev_type ev_item]. rewrite Eo. reflexivity. }
      destruct (IH ev f n w T s1 t1 t2 (S k) (put ++ element_line (ty, sc_getItem s1)) ltac:(lia) Hb E2 He2 Hv) as [[st G]|[evs1 [evs2 [s2 [k1 [t3 [-> [G [Gi Gs]]]]]]]]].
      * left. exists st. rewrite G, El. reflexivity.
      * right. exists (observe iops ty t1 :: evs1), evs2, s2, k1, t3. split; [reflexivity|]. split; [rewrite G, El; reflexivity|]. split; assumption.
    + right. exists [], (observe iops ty t1 :: evs), s1, (S k), t3. split; [reflexivity|]. split; [cbn [map flat_map]; rewrite app_nil_r; reflexivity|]. split; [exists si1; split; [exact Hr|exact Hx]|].
      cbn [length]. change (calls (S (S (length evs)))) with (mask_all :: calls (S (length evs))). cbn [scan app]. rewrite Et. cbn [bind]. rewrite E2. reflexivity.
Qed.

(** the next chunk, the last one without interrupt *)
Lemma feed_next : forall c w A b s t, Forall isByte c -> (b = false -> w = []) -> interrupted (c ++ w) (A, true) s t -> exists A2, before_call w (A2, b) (sc_feed feed_new s c b) t.
Proof.
  intros c w A b s t Hc Hw [si [Hr Hx]].
  assert (Hsrc : exists a p, sc_src si = mkIr a EndJump p).
  { destruct Hx as [Hx|[k [Hx _]]]; [eapply X_jumped; eauto; reflexivity|eapply O_jumped; eauto]. }
  destruct Hsrc as [a [p Hsrc]].
  assert (Hfeed : exists p2 A2, srel eq (srA A2 cs) (sc_feed feed_new s c b) (set_src si (mkIr (a ++ c) (emode_of b) p2))).
  { clear Hx. destruct Hr as [st er r t0 ob tp tp' tk Hr Htp]. cbn [sc_src fst] in *. subst t0.
    destruct (feed_resume false A cs r a p c b Hc Hr) as [p2 [A2 [G1 _]]]. exists p2, A2. unfold sc_feed, sc_setSource, set_src. cbn [sc_src sc_state sc_err sc_obuf sc_tokpos sc_tok]. constructor; auto. }
  destruct Hfeed as [p2 [A2 G1]]. exists A2. exists (set_src si (mkIr (a ++ c) (emode_of b) p2)). split; [exact G1|].
  destruct Hx as [Hx|[k [Hx Hsw]]].
  - left. eapply feed_X; eauto; discriminate.
  - right. exists k. split; [|exact Hsw]. eapply feed_O; eauto; discriminate.
Qed.


(** *** The last chunk, with the terminating null character *)
Lemma ideal_scan : forall masks f A s si t t' evs, srel eq (srA A cs) s si ->
  (XX [] (A, false) si t \/ exists k, VV [] (A, false) k si t /\ swallow mask_all si) -> Forall (eq mask_all) masks ->
  scan iops cfg f masks t = Ret t' evs -> exists si' evs', scan iops cfg (f + 9) masks si = Ret si' evs' /\ map element evs' = map element evs.
Proof.
  induction masks as [|m masks IH]; intros f A s si t t' evs Hs H Hm HS; cbn [scan] in *; [injection HS as <- <-; eauto|].
  inversion Hm as [|? ? <- Hm2]; subst.
  destruct (nextItem iops cfg f mask_all t) as [t1 ty| | | |] eqn:E1; cbn [bind] in HS; try discriminate.
  destruct (scan iops cfg f masks t1) as [t2 evs2| | | |] eqn:E2; cbn [bind] in HS; try discriminate. injection HS as <- <-.
  pose proof (sim_nextItem _ _ cfg _ _ _ _ (srA_rsim A cs u8ok) (f + 9) mask_all s si Hs) as Hsim.
  destruct (ideal_next cs cfg false _ _ _ _ _ _ _ _ H E1) as [[si' [E HX]]|[si1 [t3 [E [Et Hx]]]]]; rewrite E in Hsim; inversion Hsim as [s1 x1 a1 Hr F1 F2|s1 x1 Hr F1 F2| | |]; subst.
  - destruct (IH f A s1 si' t1 t2 evs2 Hr (or_introl HX) Hm2 E2) as [si2 [evs' [G1 G2]]]. rewrite E. cbn [bind]. rewrite G1. cbn [bind]. do 2 eexists. split; [reflexivity|].
    cbn [map]. rewrite G2. f_equal. destruct HX as [HX _]. inversion HX; subst. reflexivity.
  - exfalso. assert (Hj : ir_m (sc_src si1) = EndJump).
    { destruct Hr as [? ? r t0 ? ? ? ? [ts [_ [_ [Hj _]]]]]. exact Hj. }
    destruct Hx as [[Hx _]|[k [[Hx _] _]]]; destruct Hx as [? ? r t0 ? ? ? ? Hx].
    + pose proof (x_mode _ _ _ _ _ _ Hx) as Hm3. cbn in Hj, Hm3. congruence.
    + pose proof (o_mode _ _ _ _ _ _ _ Hx) as Hm3. cbn in Hj, Hm3. congruence.
Qed.

Lemma elements_visited : forall evs evs', map element evs' = map element evs -> map visited evs' = map visited evs.
Proof.
  induction evs as [|e evs IH]; intros [|e' evs'] H; try discriminate; [reflexivity|]. cbn [map] in *. injection H as H1 H2 H3 H4. rewrite (IH _ H4). f_equal.
  unfold visited. congruence.
Qed.
Lemma elements_end : forall e e', element e' = element e -> end_with e' = end_with e.
Proof. intros e e' H. unfold element in H. injection H as H1 H2 H3. unfold end_with. rewrite H1, H2. reflexivity. Qed.
Lemma elements_go : forall evs evs', map element evs' = map element evs -> Forall (fun e => goes_on (ev_type e) = true) evs -> Forall (fun e => goes_on (ev_type e) = true) evs'.
Proof.
  induction evs as [|e evs IH]; intros [|e' evs'] H He; try discriminate; [constructor|]. inversion He; subst. cbn [map] in H. injection H as K1 K2 K3 K4.
  constructor; [congruence|eauto].
Qed.

Lemma last_prints : forall evs ev f n A s2 si l p q t' k put, (length evs < n)%nat ->
  srel eq (srA A cs) s2 (set_src si (mkIr (l ++ [0]) EndJump p)) -> whole cs l -> tk_base (sc_tok si) <= 16 ->
  scan iops cfg f (calls (S (length evs))) (set_src si (mkIr l EndZero q)) = Ret t' (evs ++ [ev]) ->
  Forall (fun e => goes_on (ev_type e) = true) evs -> goes_on (ev_type ev) = false ->
  exists st, print_all cops cfg f n (s2, k) put = Ret (st, put ++ flat_map element_line (map visited evs)) (end_with ev).
Proof.
  intros evs ev f n A s2 si l p q t' k put Hn Hs Hw Htk HS He Hv.
  pose proof (rsim_psim _ _ _ _ _ _ _ _ _ _ _ (srA_rsim A cs u8ok) (zero_psim cs u8ok)) as Hp.
  destruct (f_scan _ _ cfg _ _ _ _ (psim_fsim _ _ _ _ _ _ Hp) (calls (S (length evs))) f s2 (set_src si (mkIr l EndZero q)) t' (evs ++ [ev])) as [s' [evs' [H1 [_ H2]]]].
  - left. inversion Hs as [st er r t ob tp tp' tk Hr Htp E1 E2]; subst. unfold set_src. constructor; [|exact Htk].
    exists (mkIr (l ++ [0]) EndJump p). split; [exact Hr|]. split; [discriminate|]. split; [reflexivity|]. split; [reflexivity|exact Hw].
  - exact HS.
  - rewrite map_app in H2. apply map_eq_app in H2. destruct H2 as [evs1 [evs2 [-> [H2 H3]]]]. destruct evs2 as [|e2 [|? ?]]; try discriminate. cbn [map] in H3.
    assert (H3' : element e2 = element ev) by congruence.
    assert (Hl : length evs1 = length evs) by (rewrite <- (map_length element evs1), H2, map_length; reflexivity).
    rewrite <- Hl in H1, Hn. eexists. rewrite (print_scan _ _ evs1 e2 n f s2 s' k put Hn H1).
    + rewrite (elements_visited _ _ H2), (elements_end _ _ H3'). reflexivity.
    + eapply elements_go; eauto.
    + unfold element in H3'. congruence.
Qed.

Lemma complete_whole : forall l, Forall isByte l -> complete_text cs l -> whole cs l.
Proof. intros l Hb H. apply whole_text_whole; [exact Hb|]. apply H. reflexivity. Qed.
Lemma conts_whole : forall conts l, forallb continuation conts = true -> whole cs l -> whole cs (conts ++ l).
Proof.
  induction conts as [|b conts IH]; intros l Hc Hl; [exact Hl|]. cbn [forallb] in Hc. apply andb_prop in Hc. destruct Hc as [Hc1 Hc2]. pose proof (continuation_low _ Hc1).
  cbn [app]. apply whole_char; rewrite utf8_clen; destruct (N.ltb_spec b 0xC0); try lia; cbn [length skipn]; [lia|auto].
Qed.

Lemma feed_last : forall evs ev f n A s t t' c k put, (length evs < n)%nat -> Forall isByte c -> interrupted c (A, true) s t ->
  scan iops cfg f (calls (S (length evs))) t = Ret t' (evs ++ [ev]) -> Forall (fun e => goes_on (ev_type e) = true) evs -> goes_on (ev_type ev) = false ->
  exists st, print_all cops cfg (f + 9) n (sc_feed feed_new s (c ++ [0]) true, k) put = Ret (st, put ++ flat_map element_line (map visited evs)) (end_with ev).
Proof.
  intros evs ev f n A s t t' c k put Hn Hc [si [Hr Hx]] HS He Hv. cbn [fst] in Hr.
  assert (Hsrc : exists a p, sc_src si = mkIr a EndJump p).
  { destruct Hx as [Hx|[k0 [Hx _]]]; [eapply X_jumped; eauto; reflexivity|eapply O_jumped; eauto]. }
  destruct Hsrc as [a [p Hsrc]].
  assert (Hfeed : forall c b, Forall isByte c -> exists p2 A2, srel eq (srA A2 cs) (sc_feed feed_new s c b) (set_src si (mkIr (a ++ c) (emode_of b) p2))).
  { clear - Hr Hsrc. intros c b Hc. destruct Hr as [st er r t0 ob tp tp' tk Hr Htp]. cbn [sc_src fst] in *. subst t0.
    destruct (feed_resume false A cs r a p c b Hc Hr) as [p2 [A2 [G1 _]]]. exists p2, A2. unfold sc_feed, sc_setSource, set_src. cbn [sc_src sc_state sc_err sc_obuf sc_tokpos sc_tok]. constructor; auto. }
  assert (Hc0 : Forall isByte (c ++ [0])) by (apply Forall_app; split; [exact Hc|constructor; [unfold isByte; lia|constructor]]).
  destruct (Hfeed (c ++ [0]) true Hc0) as [p2 [A2 G]]. destruct (Hfeed c false Hc) as [p3 [A3 G3]].
  assert (Hx3 : XX [] (A3, false) (set_src si (mkIr (a ++ c) EndZero p3)) t \/ exists k, VV [] (A3, false) k (set_src si (mkIr (a ++ c) EndZero p3)) t /\ swallow mask_all (set_src si (mkIr (a ++ c) EndZero p3))).
  { rewrite <- (app_nil_r c) in Hx. destruct Hx as [Hx|[k0 [Hx Hsw]]].
    - left. eapply (feed_X cs false [] (A, true) si t a p c false); eauto; discriminate.
    - right. exists k0. split; [|exact Hsw]. eapply (feed_O cs false [] (A, true) k0 si t a p c false); eauto; discriminate. }
  destruct (ideal_scan (calls (S (length evs))) f A3 _ _ t t' (evs ++ [ev]) G3 Hx3) as [si' [evs' [S1 S2]]]; [|exact HS|].
  { unfold calls. apply Forall_forall. intros x Hi. apply repeat_spec in Hi. auto. }
  rewrite map_app in S2. apply map_eq_app in S2. destruct S2 as [evs1 [evs2 [-> [S2 S3]]]]. destruct evs2 as [|e2 [|? ?]]; try discriminate. cbn [map] in S3.
  assert (S3' : element e2 = element ev) by congruence.
  assert (Hl : length evs1 = length evs) by (rewrite <- (map_length element evs1), S2, map_length; reflexivity).
  rewrite <- Hl in S1, Hn. rewrite <- (elements_visited _ _ S2), <- (elements_end _ _ S3').
  rewrite app_assoc in G.
  assert (Hw : whole cs (a ++ c) /\ tk_base (sc_tok si) <= 16).
  { destruct Hx3 as [[Hx3 Hk]|[k0 [[Hx3 Hk] _]]]; (split; [|exact Hk]); inversion Hx3 as [st er r t0 ob tp tp' tk Hxr Htp E1 E2]; subst; cbn [sc_src set_src] in *.
    - pose proof (x_l _ _ _ _ _ _ Hxr) as El. cbn [ir_l] in El. rewrite app_nil_r in El. rewrite <- El. apply complete_whole; [apply (x_b _ _ _ _ _ _ Hxr)|apply (x_ok _ _ _ _ _ _ Hxr)].
    - destruct (v_conts _ _ _ _ _ _ _ Hxr) as [conts [_ [Hcc El]]]. cbn [ir_l] in El. rewrite app_nil_r in El. rewrite El. apply conts_whole; [exact Hcc|].
      apply complete_whole; [apply (v_b _ _ _ _ _ _ _ Hxr)|apply (v_ok _ _ _ _ _ _ _ Hxr)]. }
  destruct Hw as [Hw Htk].
  eapply (last_prints evs1 e2 (f + 9) n A2 _ si (a ++ c) p2 p3 si'); [exact Hn|exact G|exact Hw|exact Htk|exact S1| |].
  - eapply elements_go; eauto.
  - unfold element in S3'. congruence.
Qed.

(** *** All calls *)
Lemma calls_print : forall chunks c evs ev f n A s t t' k put, (length evs < n)%nat -> Forall (Forall isByte) chunks -> Forall isByte c -> interrupted (concat chunks ++ c) (A, true) s t ->
  scan iops cfg f (calls (S (length evs))) t = Ret t' (evs ++ [ev]) -> Forall (fun e => goes_on (ev_type e) = true) evs -> goes_on (ev_type ev) = false ->
  exists m st, (m <= length chunks)%nat /\
    chunk_calls (f + 9) n (chunks ++ [c ++ [0]]) (s, k) put = Ret (st, put ++ flat_map element_line (map visited evs)) (repeat None m ++ [Some (end_with ev)]).
Proof.
  induction chunks as [|c1 chunks IH]; intros c evs ev f n A s t t' k put Hn Hb Hc Hi HS He Hv.
  - destruct (feed_last evs ev f n A s t t' c k put Hn Hc Hi HS He Hv) as [st G]. exists 0%nat, st. split; [cbn; lia|].
    cbn [app chunk_calls repeat]. unfold chunk_call. cbn [fst snd]. rewrite G. reflexivity.
  - inversion Hb as [|? ? Hb1 Hb2]; subst. cbn [concat] in Hi. rewrite <- app_assoc in Hi.
    destruct (feed_next c1 (concat chunks ++ c) A true s t Hb1 ltac:(discriminate) Hi) as [A2 Hf].
    cbn [app chunk_calls]. unfold chunk_call. cbn [fst snd].
    destruct (chunk_prints evs ev f n _ _ _ t t' k put Hn Hf HS He Hv) as [[st G]|[evs1 [evs2 [s1 [k1 [t1 [-> [G [Gi Gs]]]]]]]]]; rewrite G; cbn [bind].
    + exists 0%nat, st. split; [lia|]. reflexivity.
    + apply Forall_app in He. destruct He as [He1 He2]. rewrite app_length in Hn.
      destruct (IH c evs2 ev f n A2 s1 t1 t' k1 (put ++ flat_map element_line (map visited evs1)) ltac:(lia) Hb2 Hc Gi Gs He2 Hv) as [m [st [Hm Gc]]].
      exists (S m), st. split; [cbn [length]; lia|]. cbn [fst snd]. rewrite Gc. cbn [bind repeat app]. rewrite map_app, flat_map_app, app_assoc. reflexivity.
Qed.

Lemma example_chunks : forall chunks c evs ev f n t', (length evs < n)%nat -> Forall isByte (concat chunks ++ c) -> complete_text cs (concat chunks ++ c) ->
  scan iops cfg f (calls (S (length evs))) (sc_make (mkIr (concat chunks ++ c) EndZero 0)) = Ret t' (evs ++ [ev]) ->
  Forall (fun e => goes_on (ev_type e) = true) evs -> goes_on (ev_type ev) = false ->
  exists m st, (m <= length chunks)%nat /\
    chunk_example (f + 9) n (chunks ++ [c ++ [0]]) = Ret (st, flat_map element_line (map visited evs)) (repeat None m ++ [Some (end_with ev)]).
Proof.
  intros chunks c evs ev f n t' Hn Hb Hok HS He Hv.
  assert (Hini : forall l b, Forall isByte l -> srel eq (srA (N.of_nat (length l)) cs) (sc_feed feed_new (sc_make (ts_make (src_make [] false))) l b) (sc_make (mkIr l (emode_of b) 0))).
  { intros l b Hl. change (sc_feed feed_new (sc_make (ts_make (src_make [] false))) l b) with (sc_make (ts_make (src_make l b))). constructor; auto. apply src_make_relA. exact Hl. }
  destruct chunks as [|c1 chunks].
  - cbn [concat app] in *. assert (Hc0 : Forall isByte (c ++ [0])) by (apply Forall_app; split; [exact Hb|constructor; [unfold isByte; lia|constructor]]).
    destruct (last_prints evs ev (f + 9) n _ _ (sc_make (mkIr c EndZero 0)) c 0 0 t' 0%nat [] Hn (Hini _ true Hc0)) as [st G].
    + apply complete_whole; assumption.
    + cbn. lia.
    + eapply fle_ret; [apply mono_scan|exact HS]. lia.
    + exact He.
    + exact Hv.
    + exists 0%nat, st. split; [lia|]. unfold chunk_example. cbn [app chunk_calls repeat]. unfold chunk_call. cbn [fst snd]. rewrite G. reflexivity.
  - assert (Hb' := Hb). apply Forall_app in Hb'. destruct Hb' as [Hb1 Hc]. assert (Hbs : Forall (Forall isByte) (c1 :: chunks)) by (apply Forall_concat; exact Hb1).
    inversion Hbs as [|? ? Hc1 Hcs]; subst. cbn [concat] in *. rewrite <- app_assoc in *.
    assert (Hf : before_call (concat chunks ++ c) (N.of_nat (length c1), true) (sc_feed feed_new (sc_make (ts_make (src_make [] false))) c1 true) (sc_make (mkIr (c1 ++ concat chunks ++ c) EndZero 0))).
    { exists (sc_make (mkIr c1 EndJump 0)). split; [apply (Hini c1 true Hc1)|]. left. split; [|cbn; unfold tokok; cbn; lia]. constructor; [|discriminate].
      constructor; cbn [ir_l ir_m ir_p fst snd]; auto; discriminate. }
    unfold chunk_example. cbn [app chunk_calls]. unfold chunk_call. cbn [fst snd].
    destruct (chunk_prints evs ev f n _ _ _ _ t' 0%nat [] Hn Hf HS He Hv) as [[st G]|[evs1 [evs2 [s1 [k1 [t1 [-> [G [Gi Gs]]]]]]]]]; rewrite G; cbn [bind].
    + exists 0%nat, st. split; [lia|]. reflexivity.
    + apply Forall_app in He. destruct He as [He1 He2]. rewrite app_length in Hn. cbn [fst snd].
      destruct (calls_print chunks c evs2 ev f n _ s1 t1 t' k1 ([] ++ flat_map element_line (map visited evs1)) ltac:(lia) Hcs Hc Gi Gs He2 Hv) as [m [st [Hm Gc]]].
      exists (S m), st. split; [cbn [length]; lia|]. rewrite Gc. cbn [bind repeat app]. rewrite map_app, flat_map_app. reflexivity.
Qed.
End Chunks.

(** ** Numbers and the text example *)
Lemma hex_digit_ok : forall v, v < 16 -> hex_digit (nth (N.to_nat v) (str "0123456789abcdef") 0) = Some v.
Proof.
  assert (H : forallb (fun n => match hex_digit (nth n (str "0123456789abcdef") 0) with Some v => v =? N.of_nat n | None => false end) (seq 0 16) = true) by (vm_compute; reflexivity).
  intros v Hv. rewrite forallb_forall in H. specialize (H (N.to_nat v)). rewrite in_seq in H. specialize (H ltac:(lia)).
  destruct (hex_digit _); [|discriminate]. apply N.eqb_eq in H. rewrite N2Nat.id in H. congruence.
Qed.
Lemma digits_hex : forall f n, n < 16 ^ N.of_nat f -> (1 <= f)%nat -> hex_number (digits f 16 n) n.
Proof.
  induction f as [|f IH]; intros n Hn Hf; [lia|]. cbn [digits]. pose proof (N.mod_lt n 16 ltac:(lia)) as Hm. pose proof (N.div_mod n 16 ltac:(lia)) as Hd.
  destruct (N.ltb_spec n 16) as [H|H].
  - cbn [app]. rewrite N.mod_small by exact H. constructor. apply hex_digit_ok. exact H.
  - assert (Hq : n / 16 < 16 ^ N.of_nat f).
    { replace (N.of_nat (S f)) with (N.succ (N.of_nat f)) in Hn by lia. rewrite N.pow_succ_r' in Hn. apply N.div_lt_upper_bound; lia. }
    assert (Hf1 : (1 <= f)%nat) by (destruct f; [cbn in Hn; lia|lia]).
    rewrite Hd at 3. apply hx_more; [apply IH; auto| |apply hex_digit_ok; exact Hm].
    intros E. rewrite E in Hd. lia.
Qed.
Lemma show_hex : forall n, n < 2 ^ 32 -> hex_number (show_unsigned 16 n) n.
Proof. intros n Hn. apply digits_hex; [|lia]. eapply N.lt_trans; [exact Hn|]. vm_compute. reflexivity. Qed.

Definition text_line (c : N) : list N := show_unsigned 16 c ++ [10].
Lemma text_loop_ok : forall f src p t l put, N.of_nat (length src) + 16 < 2 ^ 32 -> creads UTF8 src p t l -> p + N.of_nat (length l) <= N.of_nat (length src) \/ (l = [] /\ p <= N.of_nat (length src) + 7) -> (length l < f)%nat ->
  exists t', text_loop cstr_ops UTF8 f t put = Ret (t', put ++ flat_map text_line (until_null (map u_val (units UTF8 l)))) tt.
Proof.
  induction f as [|f IH]; intros src p t l put Hs H Hp Hf; [lia|]. change (2 ^ 32) with 4294967296 in Hs. assert (Hs' : N.of_nat (length src) < 2 ^ 32) by (change (2 ^ 32) with 4294967296; lia).
  assert (Hp' : p + 8 < 2 ^ 32) by (change (2 ^ 32) with 4294967296; destruct Hp as [Hp|[_ Hp]]; lia).
  assert (Hw : forall t, creadsp UTF8 src p t l -> creads UTF8 src p t l).
  { intros t0 [u [H1 H2]]. exists u. split; [exact H1|]. eapply (rs_weak _ _ _ _ _ _ (ts_rsim UTF8 eq_refl)). exact H2. }
  cbn [text_loop]. destruct (creads_chr UTF8 src p t l eq_refl Hs' Hp' H) as [t1 [E1 H1]]. rewrite E1. cbn [omap bind].
  destruct l as [|b l].
  - rewrite cval_nil. cbn [N.eqb]. exists t1. rewrite units_nil. cbn [map until_null flat_map]. rewrite app_nil_r. reflexivity.
  - rewrite units_cons. cbn [map until_null]. change (u_val (dec UTF8 (b :: l))) with (cval UTF8 (b :: l)).
    destruct (N.eqb_spec (cval UTF8 (b :: l)) 0) as [E0|E0].
    + exists t1. cbn [flat_map]. rewrite app_nil_r. reflexivity.
    + cbn [fst]. destruct (creads_chr UTF8 src p t1 (b :: l) eq_refl Hs' Hp' (Hw _ H1)) as [t2 [E2 H2]]. rewrite E2. cbn [omap bind fst].
      destruct (creads_skip UTF8 src p t2 (b :: l) eq_refl Hs' Hp' H2) as [t3 [E3 H3]]. rewrite E3. cbn [omap bind fst].
      pose proof (clen_bounds UTF8 (b :: l)) as Hc.
      destruct (IH src (p + N.of_nat (clen UTF8 (b :: l))) t3 (skipn (clen UTF8 (b :: l)) (b :: l)) (put ++ show_unsigned 16 (cval UTF8 (b :: l)) ++ endl)) as [t4 E4];
        [change (2 ^ 32) with 4294967296; lia|exact H3| | |].
      * destruct Hp as [Hp|[Hp _]]; [|discriminate]. destruct (Nat.le_gt_cases (clen UTF8 (b :: l)) (length (b :: l))).
        -- left. rewrite skipn_length. cbn [length] in *. lia.
        -- right. split; [apply skipn_all2; lia|]. cbn [length] in *. lia.
      * rewrite skipn_length. cbn [length] in *. lia.
      * exists t4. rewrite E4. cbn [flat_map]. rewrite <- app_assoc. reflexivity.
Qed.
