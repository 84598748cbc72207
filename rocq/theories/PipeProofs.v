(** Selecting from documents with expressions given as text (proofs). *)
From Coq Require Import Lia ZifyBool ZifyNat.
From Verif Require Import Base Charset CharsetSpec CharsetProofs XmlScanner XmlPrinter PathAtm PathSelect DocSpec ParseSpec PathSpec PathProg PathMatch PathNames PathTags PipeSpec.


(** ** The order of elements *)
Definition enc_event (cs : charset) (ev : event) : event := (fst ev, flat_map (cs_print cs) (snd ev)).
Lemma ordered_enc cs : forall evs p n, ordered p n (map (enc_event cs) evs) = ordered p n evs.
Proof. induction evs as [|ev l IH]; intros p n; [reflexivity|]. cbn [map ordered]. unfold enc_event at 1 2. cbn [fst]. destruct (phase_after _ _); [|reflexivity]. destruct (level_after _ _); [|reflexivity]. apply IH. Qed.
Lemma attrs_ordered : forall l n rest, ordered PAttr n (attrs_elements ETagAttribName ETagAttribValue l ++ rest) = ordered PAttr n rest.
Proof. induction l as [|a l IH]; intros n rest; [reflexivity|]. cbn. apply IH. Qed.
Lemma parts_ordered : forall (l : list (list N * dpart)) p n rest, ordered p n (flat_map (fun p => dpart_elements (snd p)) l ++ rest) = (match p with PVal => match flat_map (fun p => dpart_elements (snd p)) l with [] => ordered p n rest | _ => false end | _ => ordered p n rest end).
Proof.
  induction l as [|[ws d] l IH]; intros p n rest; cbn [flat_map snd]; [destruct p; reflexivity|]. destruct d; cbn [dpart_elements app ordered fst kind_of]; try apply IH; destruct p; cbn; try reflexivity; rewrite IH; reflexivity.
Qed.
Lemma items_ordered : forall l seek p n rest, nested n l -> p <> PVal -> (forall p n, p <> PVal -> ordered p n rest = true) -> ordered p n (items_elements seek l ++ rest) = true.
Proof.
  induction l as [|it l IH]; intros seek p n rest Hn Hp Hr; cbn [items_elements app]; [apply Hr; exact Hp|]. rewrite <- app_assoc.
  destruct it as [t|nm attrs ws|nm attrs ws ws2|nm ws|c|c|c|nm parts ws]; cbn [item_elements item_seek nested] in *.
  - destruct (tok_src _) eqn:E; [apply IH; assumption|]. cbn [app ordered fst kind_of]. destruct p; try congruence; cbn; apply IH; try assumption; discriminate.
  - cbn [app ordered fst kind_of]. destruct p; try congruence; cbn [phase_after level_after]; rewrite attrs_ordered; apply IH; try assumption; discriminate.
  - destruct Hn as [-> Hn]. cbn [app ordered fst kind_of length repeat]. destruct p; try congruence; cbn [phase_after level_after]; rewrite <- app_assoc, attrs_ordered; cbn; apply IH; try assumption; discriminate.
  - destruct n as [|n]; [destruct Hn|]. cbn [app ordered fst kind_of]. destruct p; try congruence; cbn; apply IH; try assumption; discriminate.
  - apply IH; assumption.
  - apply IH; assumption.
  - apply IH; assumption.
  - cbn [app ordered fst kind_of]. destruct p; try congruence; cbn [phase_after level_after]; rewrite <- app_assoc, parts_ordered; cbn; apply IH; try assumption; discriminate.
Qed.
Lemma doc_ordered d : d_header d = None -> nested 0 (d_items d) -> ordered PStart 0 (doc_elements d) = true.
Proof. intros Hh Hn. unfold doc_elements, doc_body. rewrite Hh. apply items_ordered; [exact Hn|discriminate|]. intros p n Hp. destruct p; try congruence; reflexivity. Qed.
Lemma hattrs_ordered : forall l n rest, ordered PAttr n (attrs_elements EHeaderAttribName EHeaderAttribValue l ++ rest) = ordered PAttr n rest.
Proof. induction l as [|a l IH]; intros n rest; [reflexivity|]. cbn. apply IH. Qed.
Lemma doc_ordered_header d : nested 0 (d_items d) -> ordered PStart 0 (doc_elements d) = true.
Proof.
  intros Hn. destruct (d_header d) as [h|] eqn:Hh; [|apply doc_ordered; assumption]. unfold doc_elements, doc_body. rewrite Hh. unfold header_elements. cbn [app ordered fst kind_of phase_after level_after].
  rewrite <- !app_assoc, hattrs_ordered. cbn [app ordered fst kind_of phase_after level_after]. apply items_ordered; [exact Hn|discriminate|]. intros p n Hp. destruct p; try congruence; reflexivity.
Qed.
Lemma no_header_app a b : no_header (a ++ b) = no_header a && no_header b. Proof. apply forallb_app. Qed.
Lemma items_no_header : forall l seek, no_header (items_elements seek l) = true.
Proof.
  assert (HA : forall l, no_header (attrs_elements ETagAttribName ETagAttribValue l) = true) by (induction l as [|a l IH]; [reflexivity|exact IH]).
  induction l as [|it l IH]; intro seek; cbn [items_elements]; [reflexivity|]. rewrite no_header_app, IH, andb_true_r.
  destruct it as [t|nm attrs ws|nm attrs ws ws2|nm ws|c|c|c|nm parts ws]; cbn [item_elements]; try reflexivity.
  - destruct (tok_src _); reflexivity.
  - exact (HA attrs).
  - cbn [no_header forallb fst kind_of andb]. fold (no_header (attrs_elements ETagAttribName ETagAttribValue attrs ++ (repeat (ECloseTagIm, []) (S (length ws2))))). rewrite no_header_app, HA. cbn [andb].
    induction (S (length ws2)); [reflexivity|]. cbn. exact IHn.
  - cbn [no_header forallb fst kind_of andb]. fold (no_header (flat_map (fun p => dpart_elements (snd p)) parts ++ [(EDocAttribEnd, [])])). rewrite no_header_app. cbn. rewrite andb_true_r.
    induction parts as [|[w []] parts IHp]; cbn; try reflexivity; exact IHp.
Qed.
Lemma doc_no_header d : d_header d = None -> no_header (doc_elements d) = true.
Proof. intros Hh. unfold doc_elements, doc_body. rewrite Hh, no_header_app, items_no_header. reflexivity. Qed.

(** ** The text of paths *)
Definition opt_enc (cs : charset) (n : option (list N)) : option (list N) := option_map (encoded cs) n.
Definition enc_rep (cs : charset) (r : treport) : treport := match r with TAttr n => TAttr (opt_enc cs n) | r => r end.
Definition enc_path (cs : charset) (p : tagpath) : tagpath := mkTagpath (map (fun s => (fst s, opt_enc cs (snd s))) (tp_steps p)) (enc_rep cs (tp_rep p)) (tp_type p).
Definition name_item (n : option (list N)) : item := match n with Some n => IName n | None => IEvery end.
Definition step_items (s : tstep) : list item := [if fst s then IDeep else ISlash; name_item (snd s)].
Definition report_items (r : treport) : list item :=
  match r with
  | TOpen => []
  | TContent deep => (if deep then [IDeep] else []) ++ [IContent]
  | TClose _ => [IClose]
  | TAttr n => [IAt; name_item n]
  end.
Definition path_items (p : tagpath) : list item := flat_map step_items (tp_steps p) ++ report_items (tp_rep p).

Lemma writes_one st it st' l its l' : next_stage st it = Some st' -> writes_item it l -> writes st' its l' -> writes st (it :: its) (l ++ l').
Proof. intros H1 H2 H3. exact (ws_item st it st' l [] its l' H1 H2 (Forall_nil _) H3). Qed.
Lemma writes_nm cs n : text_name cs n -> writes_item (name_item n) (name_text n).
Proof. destruct n as [n|]; intro H; [apply wi_name, H|apply wi_every]. Qed.
Lemma next_nm_slash n : next_stage AfterSlash (name_item n) = Some AfterTag. Proof. destruct n; reflexivity. Qed.
Lemma next_nm_at n : next_stage AfterAt (name_item n) = Some AfterAttribute. Proof. destruct n; reflexivity. Qed.
Lemma path_writes cs p : text_path cs p -> writes AtStart (path_items p) (path_text p).
Proof.
  intros [_ Hs Ha Ho Hc]. unfold path_items, path_text.
  assert (G : forall st, st = AtStart \/ st = AfterTag -> writes st (flat_map step_items (tp_steps p) ++ report_items (tp_rep p)) (flat_map step_text (tp_steps p) ++ report_text (tp_rep p))); [|apply G; auto].
  clear Ho. induction Hs as [|[f n] steps Hn Hs IH]; intros st Hst.
  - cbn [flat_map app]. destruct (tp_rep p) as [|deep|deep|n]; cbn [report_items report_text].
    + constructor.
    + destruct deep; cbn [app].
      * change (str "//" ++ str "()") with ([47; 47] ++ (40 :: [] ++ [41]) ++ []). eapply writes_one; [destruct Hst as [-> | ->]; reflexivity|constructor|]. eapply writes_one; [reflexivity|apply wi_content; constructor|constructor].
      * change (str "()") with ((40 :: [] ++ [41]) ++ []). eapply writes_one; [destruct Hst as [-> | ->]; reflexivity|apply wi_content; constructor|constructor].
    + change (str "~") with ([126] ++ []). eapply writes_one; [destruct Hst as [-> | ->]; reflexivity|constructor|constructor].
    + eapply writes_one; [destruct Hst as [-> | ->]; reflexivity|constructor|]. rewrite <- (app_nil_r (name_text n)). eapply writes_one; [apply next_nm_at|apply (writes_nm cs), Ha|constructor].
  - cbn [flat_map]. rewrite <- !app_assoc. cbn [step_items app]. unfold step_text. cbn [fst snd]. rewrite <- app_assoc.
    eapply writes_one; [destruct f; destruct Hst as [-> | ->]; reflexivity|destruct f; constructor|]. eapply writes_one; [apply next_nm_slash|apply (writes_nm cs), Hn|]. apply IH. right. reflexivity.
Qed.
Lemma calls_nm cs st n : item_calls cs st (name_item n) = [[step_call st (opt_enc cs n)]]. Proof. destruct n; reflexivity. Qed.
Lemma path_programs cs p : tp_rep p <> TClose true -> programs_for cs (tp_type p) (path_items p) = [tag_calls (enc_path cs p)].
Proof.
  intro Hc. unfold programs_for, path_items, tag_calls, enc_path. cbn [tp_steps tp_rep tp_type].
  assert (G : forall steps st, st = AtStart \/ st = AfterTag -> programs cs st (flat_map step_items steps ++ report_items (tp_rep p)) =
    [flat_map (fun s => follow_call (fst s) ++ [BTag (snd s)]) (map (fun s => (fst s, opt_enc cs (snd s))) steps) ++
      match enc_rep cs (tp_rep p) with TOpen => [] | TContent deep => follow_call deep ++ [BContent] | TClose deep => follow_call deep ++ [BClose] | TAttr n => [BAttr n] end]).
  { induction steps as [|[f n] steps IH]; intros st Hst.
    - cbn [flat_map app map]. destruct (tp_rep p) as [|deep|deep|n]; cbn [report_items enc_rep].
      + reflexivity.
      + destruct deep; destruct Hst as [-> | ->]; reflexivity.
      + destruct deep; [contradiction|]. destruct Hst as [-> | ->]; reflexivity.
      + cbn [programs]. destruct Hst as [-> | ->]; cbn [next_stage]; rewrite next_nm_at, calls_nm; reflexivity.
    - cbn [flat_map step_items app map fst snd]. cbn [programs]. assert (Ns : next_stage st (if f then IDeep else ISlash) = Some AfterSlash) by (destruct f; destruct Hst as [-> | ->]; reflexivity). rewrite Ns.
      rewrite next_nm_slash, calls_nm, (IH AfterTag) by auto. destruct f; cbn [item_calls flat_map map app follow_call step_call]; rewrite <- ?app_assoc; reflexivity. }
  rewrite (G _ AtStart) by auto. cbn [map]. rewrite app_assoc. reflexivity.
Qed.
Lemma path_good cs p : text_path cs p -> good_path cs (enc_path cs p).
Proof.
  intros [Ht Hs Ha Ho Hc].
  assert (Hn : forall n, text_name cs n -> opt_good cs (opt_enc cs n)).
  { intros [n|] H; [|exact Logic.I]. destruct H as ([Hne _] & H2 & H3 & H4). exists n. auto. }
  constructor; cbn [enc_path tp_type tp_steps tp_rep].
  - exact Ht.
  - apply Forall_map. cbn [snd]. eapply Forall_impl; [|exact Hs]. intros s. apply Hn.
  - destruct (tp_rep p); cbn [enc_rep]; try exact Logic.I. apply Hn, Ha.
  - intros E E'. destruct (tp_rep p); cbn [enc_rep] in E; try discriminate E. apply Ho; [reflexivity|]. destruct (tp_steps p); [reflexivity|discriminate E'].
Qed.

(** ** Names are the same if they have the same bytes *)
Lemma print_inj cs : cs_constructible cs = true -> forall a b, Forall (representable cs) a -> Forall (representable cs) b -> flat_map (cs_print cs) a = flat_map (cs_print cs) b -> a = b.
Proof.
  intros Hcs. induction a as [|x a IH]; intros [|y b] Ha Hb E.
  - reflexivity.
  - exfalso. inversion Hb; subst. cbn [flat_map] in E. pose proof (print_nonempty cs y Hcs H1). destruct (cs_print cs y); [contradiction|discriminate E].
  - exfalso. inversion Ha; subst. cbn [flat_map] in E. pose proof (print_nonempty cs x Hcs H1). destruct (cs_print cs x); [contradiction|discriminate E].
  - inversion Ha as [|? ? Hx Ha']; inversion Hb as [|? ? Hy Hb']; subst. cbn [flat_map] in E.
    pose proof (dec_print cs x (flat_map (cs_print cs) a) Hcs Hx) as D1. pose proof (dec_print cs y (flat_map (cs_print cs) b) Hcs Hy) as D2. rewrite E, D2 in D1.
    assert (Exy : x = y) by (unfold uchr_of in D1; congruence). subst y. apply app_inv_head in E. f_equal. apply IH; assumption.
Qed.

Lemma same_name_eq : forall a b, same_name a b = true <-> a = b.
Proof.
  induction a as [|x a IH]; intros [|y b]; cbn [same_name]; try (split; congruence). rewrite andb_true_iff, N.eqb_eq, IH. split; [intros [-> ->]; reflexivity|intro E; injection E as -> ->; auto].
Qed.
Section Same.
Context (cs : charset).
Hypothesis Hcs : cs_constructible cs = true.
Definition rep_name (n : option (list N)) : Prop := match n with Some n => Forall (representable cs) n | None => True end.
Lemma names_enc n k : rep_name n -> Forall (representable cs) k -> names (opt_enc cs n) (flat_map (cs_print cs) k) = names n k.
Proof.
  intros Hn Hk. destruct n as [n|]; [|reflexivity]. cbn [opt_enc option_map names]. unfold encoded. apply Bool.eq_iff_eq_true. rewrite !same_name_eq. split; [|intros ->; reflexivity]. apply print_inj; assumption.
Qed.
Lemma ways_enc : forall tr steps deep, Forall (fun s : tstep => rep_name (snd s)) steps -> Forall (Forall (representable cs)) tr ->
  ways (map (fun s => (fst s, opt_enc cs (snd s))) steps) deep (map (flat_map (cs_print cs)) tr) = ways steps deep tr.
Proof.
  induction tr as [|n tr IH]; intros steps deep Hs Ht; cbn [map ways]; [destruct steps; reflexivity|]. inversion Ht as [|? ? Hn Ht']; subst. destruct steps as [|[f m] steps]; cbn [map fst snd]; [reflexivity|].
  inversion Hs as [|? ? Hm Hs']; subst. cbn [snd] in Hm. rewrite names_enc by assumption. rewrite IH by assumption. f_equal. destruct f; [|reflexivity].
  exact (IH ((true, m) :: steps) deep Hs Ht').
Qed.
Definition key_ok (ev : event) : Prop := match kind_of (fst ev) with KOpen | KName => Forall (representable cs) (snd ev) | _ => True end.
Lemma removelast_map {A B} (f : A -> B) l : removelast (map f l) = map f (removelast l).
Proof. induction l as [|x [|y l] IH]; [reflexivity|reflexivity|]. cbn [map removelast] in *. f_equal. exact IH. Qed.
Lemma trail_enc : forall evs i open, trail (map (flat_map (cs_print cs)) open) (map (enc_event cs) evs) i = map (flat_map (cs_print cs)) (trail open evs i).
Proof.
  induction evs as [|ev l IH]; intros i open; cbn [map trail]; [reflexivity|]. change (fst (enc_event cs ev)) with (fst ev). change (snd (enc_event cs ev)) with (flat_map (cs_print cs) (snd ev)).
  set (o := match kind_of (fst ev) with KOpen => open ++ [snd ev] | _ => open end).
  assert (E : match kind_of (fst ev) with KOpen => map (flat_map (cs_print cs)) open ++ [flat_map (cs_print cs) (snd ev)] | _ => map (flat_map (cs_print cs)) open end = map (flat_map (cs_print cs)) o).
  { unfold o. destruct (kind_of (fst ev)); try reflexivity. rewrite map_app. reflexivity. }
  rewrite E. destruct i as [|i]; [reflexivity|]. rewrite <- IH. f_equal. destruct (kind_of (fst ev)); try reflexivity. apply removelast_map.
Qed.
Lemma trail_rep : forall evs i open, Forall key_ok evs -> Forall (Forall (representable cs)) open -> Forall (Forall (representable cs)) (trail open evs i).
Proof.
  induction evs as [|ev l IH]; intros i open He Ho; cbn [trail]; [exact Ho|]. inversion He as [|? ? Hev Hl]; subst.
  set (o := match kind_of (fst ev) with KOpen => open ++ [snd ev] | _ => open end).
  assert (Hoo : Forall (Forall (representable cs)) o).
  { unfold o, key_ok in *. destruct (kind_of (fst ev)); try exact Ho. apply Forall_app. split; [exact Ho|]. constructor; [exact Hev|constructor]. }
  destruct i as [|i]; [exact Hoo|]. apply IH; [exact Hl|]. destruct (kind_of (fst ev)); try exact Hoo. clear -Hoo. induction Hoo as [|x [|y o] Hx Ho IH]; [constructor|constructor|]. cbn [removelast] in *. constructor; assumption.
Qed.
Lemma matching_enc steps r evs i : Forall (fun s : tstep => rep_name (snd s)) steps -> match r with TAttr n => rep_name n | _ => True end -> Forall key_ok evs ->
  matching (map (fun s => (fst s, opt_enc cs (snd s))) steps) (enc_rep cs r) (map (enc_event cs) evs) i = matching steps r evs i.
Proof.
  intros Hs Hr He. assert (K : forall j, kind_at (map (enc_event cs) evs) j = kind_at evs j).
  { intro j. unfold kind_at. rewrite nth_error_map. destruct (nth_error evs j) as [[e k]|]; reflexivity. }
  assert (W : forall deep, ways (map (fun s => (fst s, opt_enc cs (snd s))) steps) deep (trail [] (map (enc_event cs) evs) i) = ways steps deep (trail [] evs i)).
  { intro deep. change (@nil (list N)) with (map (flat_map (cs_print cs)) []) at 1. rewrite trail_enc. apply ways_enc; [exact Hs|]. apply trail_rep; [exact He|constructor]. }
  unfold matching. rewrite !K. destruct r as [|deep|deep|n]; cbn [enc_rep]; rewrite ?W; try reflexivity.
  destruct (kind_at evs i); try reflexivity. destruct i as [|j]; [reflexivity|]. rewrite K. destruct (kind_at evs j) eqn:Kj; try reflexivity.
  replace (names (opt_enc cs n) (key_at (map (enc_event cs) evs) j)) with (names n (key_at evs j)); [reflexivity|]. unfold key_at, kind_at in *. rewrite nth_error_map.
  destruct (nth_error evs j) as [ev|] eqn:Ej; [|discriminate Kj]. cbn [option_map]. unfold enc_event. cbn [snd]. symmetry. apply names_enc; [exact Hr|].
  rewrite Forall_forall in He. specialize (He ev (nth_error_In _ _ Ej)). unfold key_ok in He. rewrite Kj in He. exact He.
Qed.
Lemma matches_enc t P evs i : Forall (text_path cs) P -> Forall key_ok evs -> matches_of t (map (enc_path cs) P) (map (enc_event cs) evs) i = matches_of t P evs i.
Proof.
  intros HP He. unfold matches_of. rewrite map_map. f_equal. apply map_ext_in. intros p Hp. cbn [enc_path tp_type tp_steps tp_rep]. destruct (_ =? _)%Z; [|reflexivity].
  rewrite Forall_forall in HP. destruct (HP p Hp) as [_ Hs Ha _ _].
  assert (Hn : forall n, text_name cs n -> rep_name n) by (intros [n|] H; [apply H|exact Logic.I]).
  apply matching_enc; [eapply Forall_impl; [|exact Hs]; intros s; apply Hn|destruct (tp_rep p); try exact Logic.I; apply Hn, Ha|exact He].
Qed.
End Same.
