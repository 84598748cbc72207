(** Properties of automata built with too little memory: C91. *)
From Coq Require Import Lia ZifyBool ZifyNat.
From Verif Require Import Base Charset CharsetSpec XmlScanner PathAtm PathSelect PathSpec PathProg PathRun1 PathRun3 PathRun8 PathRun9 PathBuild2 PathBuild3 PathNames PathMatch PathTags PathContext PathAfter
  PropsPath AtmFail AtmFailProof.

(** Places where a failing allocation does no harm *)
Definition safe_place (m : option place) : Prop := m = None \/ m = Some PlFirst \/ m = Some PlNext \/ m = Some PlKey.
(** The calls of the paths that returned, when of each path the given number of calls returned *)
Definition returned (ns : list nat) (ps : list (list pathop)) : list (list pathop) := map (fun x => firstn (fst x) (snd x)) (combine ns ps).
(** the number of paths that were not defined to the end; the number of failing allocations *)
Definition broken (ns : list nat) (ps : list (list pathop)) : nat := length (filter (fun x => negb (Nat.eqb (fst x) (length (snd x)))) (combine ns ps)).
Definition failures (l : list (option place)) : nat := length (filter (fun m => match m with Some _ => true | None => false end) l).

Lemma safe_harmless l : Forall safe_place l -> Forall harmless l.
Proof. apply Forall_impl. intros m [->|[->|[->| ->]]]; split; discriminate. Qed.

(** ** With enough memory the automaton is the one of the other properties, and all calls return *)
Theorem C91_enough : forall cs ps a ans, Forall (fun m => m = None) ans -> add_paths cs ps [] = Ret a tt ->
  exists s, f_paths cs ps (mkFw [] ans) = Ret s (map (@length _) ps) /\ fw_atm s = a.
Proof. intros cs ps a ans Hp H. destruct (paths_enough cs ps [] a ans Hp H) as (r & E & _). eauto. Qed.
Print Assumptions C91_enough.

(** ** Failing allocations at these places: no undefined behaviour, and the automaton selects what the calls that returned define. Not more paths are broken
    than allocations failed. *)
Theorem C91_kept_partial : forall cs ps E ans evs, (forall m, In m (prog_names ps) -> usable cs m) -> paths_of ps = Some E -> Forall (fun x => wf_expr x = true) E ->
  Forall safe_place ans -> ordered PStart 0 evs = true ->
  exists s ns E' rs, f_paths cs ps (mkFw [] ans) = Ret s ns /\ length ns = length ps /\ (broken ns ps <= failures ans)%nat /\
    paths_of (returned ns ps) = Some E' /\ selects (fw_atm s) evs rs /\ length rs = length evs /\
    forall t i, (i < length evs)%nat -> reported t rs i = hits_of t E' 0 evs i.
Proof.
  intros cs ps E ans evs Hn HE Hw Ha Ho.
  destruct (f_paths_spec cs ps E (mkFw [] ans) good_new Hn HE (safe_harmless _ Ha)) as (s & ns & E' & F1 & F2 & F3 & F4 & F5 & F6 & F7 & F8).
  assert (Hw' : Forall (fun x => wf_expr x = true) E') by (rewrite Forall_forall in *; intros x Hx; apply Hw, F4, Hx).
  destruct (select_sums (fw_atm s) E' evs F5 F6 Hw' Ho) as (n & s' & rs & H1 & H2 & H3).
  exists s, ns, E', rs. split; [exact F1|]. split; [exact F2|]. split; [change (unfinished ns ps <= somes ans)%nat; cbn [fw_ans] in F8; lia|]. split; [exact F3|].
  split; [exists n, s'; exact H1|]. split; [exact H2|exact H3].
Qed.
Print Assumptions C91_kept_partial.

(** ["/a/b"] and ["//c()"], each of them tried three times *)
Definition fail_prog : list (list pathop) :=
  let p := [BTag (nm "a"); BTag (nm "b"); BOut 1] in let q := [BFollow; BTag (nm "c"); BContent; BOut 2] in [p; q; p; q; p; q].
Definition fail_ans : list (option place) :=
  [Some PlFirst; Some PlKey; None; Some PlNext; Some PlNext; None; None; None; None; None].
Definition fail_doc : list event :=
  [(EOpenTag, str "a"); (EOpenTag, str "b"); (EOpenTag, str "c"); (EContent, str "u"); (ECloseTag, str "c"); (ECloseTag, str "b"); (ECloseTag, str "a")].
Example C91_kept_case : (exists E, paths_of fail_prog = Some E /\ Forall (fun x => wf_expr x = true) E) /\ (forall m, In m (prog_names fail_prog) -> usable UTF8 m) /\
  Forall safe_place fail_ans /\ ordered PStart 0 fail_doc = true /\
  match f_paths UTF8 fail_prog (mkFw [] fail_ans) with
  | Ret s ns => ns = [0; 1; 1; 1; 3; 4]%nat /\ length (fw_atm s) = 13%nat /\
      match select 100 100 (fw_atm s) fail_doc with Ret _ rs => rs = [[]; [1%Z]; []; [2%Z]; []; []; []] | _ => False end
  | _ => False
  end.
Proof.
  split; [eexists; split; [vm_compute; reflexivity|repeat constructor]|]. split.
  { intros m Hm. cbn in Hm. repeat (destruct Hm as [<-|Hm]; [apply good_usable; [reflexivity|apply good_nameb_ok; vm_compute; reflexivity]|]). destruct Hm. }
  split; [repeat (constructor; [unfold safe_place; tauto|]); constructor|]. split; [reflexivity|]. vm_compute. repeat split.
Qed.

(** ** The link to a state that could not be added. After this the list of states that the state belongs to cannot be used: any further output of the same path element, and any
    further step that is not there already, reads behind the states, and if it is the list of the root, the constructor of a selector does. *)
Theorem C91_link : forall cs ps E ans s ns i, (forall m, In m (prog_names ps) -> usable cs m) -> paths_of ps = Some E -> Forall safe_place ans -> f_paths cs ps (mkFw [] ans) = Ret s ns ->
  (i < length (fw_atm s))%nat -> forall k t fo b e,
  exists a', f_defineOutput (Some PlLink) (Some i) k t fo b e (fw_atm s) = Throw a' /\
    (forall m k' t' fo' b' e', f_defineOutput m (Some i) k' t' fo' b' e' a' = Undef) /\
    (forall m op key fo', f_defineNext m (Some i) op key fo' a' = Undef \/ exists n, f_defineNext m (Some i) op key fo' a' = Ret a' n) /\
    (i = O -> sel_new a' = Undef).
Proof.
  intros cs ps E ans s ns i Hn HE Ha HF Hi k t fo b e.
  destruct (f_paths_spec cs ps E (mkFw [] ans) good_new Hn HE (safe_harmless _ Ha)) as (s1 & ns1 & E' & F1 & _ & _ & _ & G & _).
  rewrite HF in F1. injection F1 as <- <-. set (a := fw_atm s) in *. assert (Ne : a <> []) by (intros Q; rewrite Q in Hi; cbn in Hi; lia). rewrite (norm_ne a Ne) in G. clearbody a. clear HF.
  destruct (ends_spec a G (length a) i (S (length a))) as (L & stL & L1 & L2 & L3 & L4); try lia.
  destruct (nth_error a i) as [sti|] eqn:Ei; [|apply nth_error_None in Ei; lia].
  assert (Fst : forall m (d : atm), d <> [] -> f_first m (Some i) d = Ret d (Some i)) by (intros m [|x d] Hd; [contradiction|reflexivity]).
  set (d := dangling a L). assert (Hd : length d = length a) by apply dang_len.
  assert (Nd : d <> []) by (intros Q; rewrite Q in Hd; cbn [length] in Hd; lia).
  exists d. splits.
  - unfold f_defineOutput. rewrite (Fst _ a Ne). cbn [bind]. replace (Nat.leb (length a) i) with false by lia. unfold f_alt. rewrite Ei, (isempty_never a i sti G Ei), L1. reflexivity.
  - intros m k' t' fo' b' e'. unfold f_defineOutput. rewrite (Fst _ d Nd). cbn [bind]. replace (Nat.leb (length d) i) with false by lia. unfold f_alt.
    destruct (nth_error d i) as [std|] eqn:Ed; [|apply nth_error_None in Ed; lia]. rewrite (dang_isempty a L stL G L2 i std L4 Ed). unfold d. rewrite (dang_last a L stL G L2 i L4) by (fold d; lia). reflexivity.
  - intros m op key fo'. unfold f_defineNext. rewrite (Fst _ d Nd). cbn [bind].
    destruct (dang_find a L stL G L2 op key fo' i L4 (S (length d))) as [Q|[n Q]]; [lia|left|right]; fold d in Q; rewrite Q; cbn [bind]; [reflexivity|eauto].
  - intros ->. unfold sel_new. destruct d as [|x d'] eqn:Ed; [contradiction|]. unfold sel_expand. rewrite <- Ed in *. apply (dang_expand a L stL G L2 0 L4). fold d. lia.
Qed.
Print Assumptions C91_link.

(** ** The state with key, but without the state that follows. The same step, tried again, is found, and its result is the path element with the state -1: the next step from it
    reads before the states, and an output of it is always refused. *)
Theorem C91_name : forall cs ps E ans s ns i k op, (forall m, In m (prog_names ps) -> usable cs m) -> paths_of ps = Some E -> Forall safe_place ans -> f_paths cs ps (mkFw [] ans) = Ret s ns ->
  (i < length (fw_atm s))%nat -> k <> [] -> (forall st, In st (fw_atm s) -> st_key st <> Some k) ->
  exists a', f_defineNext (Some PlName) (Some i) op (Some k) false (fw_atm s) = Throw a' /\
    (forall m, f_defineNext m (Some i) op (Some k) false a' = Ret a' None) /\
    (forall m op' key fo, f_defineNext m None op' key fo a' = Undef) /\
    (forall m k' t fo b e, f_defineOutput m None k' t fo b e a' = Throw a').
Proof.
  intros cs ps E ans s ns i k op Hn HE Ha HF Hi Hk Hnew.
  destruct (f_paths_spec cs ps E (mkFw [] ans) good_new Hn HE (safe_harmless _ Ha)) as (s1 & ns1 & E' & F1 & _ & _ & _ & G & _).
  rewrite HF in F1. injection F1 as <- <-. set (a := fw_atm s) in *. assert (Ne : a <> []) by (intros Q; rewrite Q in Hi; cbn in Hi; lia). rewrite (norm_ne a Ne) in G. clearbody a. clear HF.
  destruct (ends_spec a G (length a) i (S (length a))) as (L & stL & L1 & L2 & L3 & L4); try lia.
  assert (Fst : forall m j (d : atm), d <> [] -> f_first m j d = Ret d j) by (intros m j [|x d] Hd; [contradiction|reflexivity]).
  set (x := mkSt (mkCore (m_op op) false 0 0 (-1)) (Some k) None None). set (d := PathBuild.grown a L [x; st_new]).
  assert (Nd : d <> []) by (apply grown_ne; discriminate).
  assert (Hd : length d = S (S (length a))) by (unfold d; rewrite (PathBuild.grown_len a L stL _ L2); cbn [length]; lia).
  exists d. splits.
  - unfold f_defineNext. rewrite (Fst _ _ a Ne). cbn [bind]. rewrite (find_none a op k false G Hnew Hk i Hi). cbn [bind]. rewrite L1. cbn [bind].
    unfold f_alt. rewrite L2, (isempty_never a L stL G L2). cbn [atm_last]. rewrite L2, L3. cbn [bind]. unfold f_push. cbn [fails bind]. unfold f_define. cbn [fails bind]. f_equal.
    rewrite <- app_assoc. cbn [app]. unfold d, PathBuild.grown. rewrite <- (atm_upd_len L (st_setLink (length a)) a) at 1. rewrite atm_upd_snoc. reflexivity.
  - intro m. unfold f_defineNext. rewrite (Fst _ _ d Nd). cbn [bind]. unfold d. rewrite (find_grown a L stL op k x [st_new] G L2 L3 Hnew Hk eq_refl eq_refl i L4) by (fold d; lia). reflexivity.
  - intros m op' key fo. unfold f_defineNext. rewrite (Fst _ _ d Nd). reflexivity.
  - intros m k' t fo b e. unfold f_defineOutput. rewrite (Fst _ _ d Nd). reflexivity.
Qed.
Print Assumptions C91_name.
Example C91_link_case : exists s ns, f_paths UTF8 [[BTag (nm "a"); BOut 1]] (mkFw [] []) = Ret s ns /\ (2 < length (fw_atm s))%nat /\ (forall st, In st (fw_atm s) -> st_key st <> Some (str "b")).
Proof. eexists. eexists. split; [vm_compute; reflexivity|]. split; [cbn; lia|]. intros st [<-|[<-|[<-|[<-|[]]]]]; discriminate. Qed.

(** ** Programs with well-formed paths and one failing allocation that end in undefined behaviour: in the constructor of the selector, or when the path that could not be defined is
    tried again *)
Theorem C91_link_refuted : exists ps ans E s ns, failures ans = 1%nat /\ (forall m, In m (prog_names ps) -> usable UTF8 m) /\ paths_of ps = Some E /\ Forall (fun x => wf_expr x = true) E /\
  f_paths UTF8 ps (mkFw [] ans) = Ret s ns /\ sel_new (fw_atm s) = Undef.
Proof.
  exists [[BTag (nm "a"); BOut 1]; [BTag (nm "b"); BOut 2]], [None; None; Some PlLink]. eexists. eexists. eexists. split; [reflexivity|]. split.
  { intros m Hm. cbn in Hm. repeat (destruct Hm as [<-|Hm]; [apply good_usable; [reflexivity|apply good_nameb_ok; vm_compute; reflexivity]|]). destruct Hm. }
  split; [vm_compute; reflexivity|]. split; [repeat constructor|]. split; vm_compute; reflexivity.
Qed.
Print Assumptions C91_link_refuted.
Theorem C91_name_refuted : exists os ans E, failures ans = 1%nat /\ (forall m, In m (prog_names [os; os]) -> usable UTF8 m) /\ paths_of [os; os] = Some E /\ Forall (fun x => wf_expr x = true) E /\
  (exists s, f_paths UTF8 [os] (mkFw [] ans) = Ret s [0%nat] /\ failures (fw_ans s) = O) /\ f_paths UTF8 [os; os] (mkFw [] ans) = Undef.
Proof.
  exists [BTag (nm "a"); BTag (nm "b"); BOut 1], [Some PlName]. eexists. split; [reflexivity|]. split.
  { intros m Hm. cbn in Hm. repeat (destruct Hm as [<-|Hm]; [apply good_usable; [reflexivity|apply good_nameb_ok; vm_compute; reflexivity]|]). destruct Hm. }
  split; [vm_compute; reflexivity|]. split; [repeat constructor|]. split; [eexists; split; vm_compute; reflexivity|vm_compute; reflexivity].
Qed.
Print Assumptions C91_name_refuted.
