(** Copies of selectors: C53. *)
From Coq Require Import Lia ZifyBool.
From Verif Require Import Base Charset XmlScanner PathAtm PathSelect PathExtra PathSpec PathProg PathContext PathCopy PropsPath PathInspect.

(** ** C53: A copy of a selector continues like the original.
    Wrong: the context with the masks of the scope is not copied. With every element that is not an open tag a copy reports nothing, whatever the original does. *)
Theorem C53_silent : forall f ff a e k s s' l, e <> EOpenTag -> sel_element f ff a e k (sel_copy s) = Ret s' l -> l = [].
Proof.
  intros f ff a e k s s' l He E. unfold sel_element in E. apply bind_ret in E. destruct E as (s1 & l1 & E1 & E2). apply bind_ret in E2. destruct E2 as (s2 & u & E2 & E3). injection E3 as _ <-.
  destruct f as [|f]; cbn [fetch_all] in E1; [discriminate E1|]. unfold sel_fetch in E1.
  assert (X : m_matches (sc_mask (s_scope (sel_init e k (sel_copy s)))) (s_type (sel_init e k (sel_copy s))) = false) by (destruct e; try reflexivity; contradiction).
  rewrite X in E1. cbn [bind Z.eqb] in E1. injection E1 as _ <-. reflexivity.
Qed.
Print Assumptions C53_silent.
(** A copy is outside of every element: fetching from it or closing its element before the first one is passed to it reports and changes nothing but the key. *)
Theorem C53_idle : forall fuel a s, sel_ops fuel a [PFetch; PClose] (sel_copy s) = Ret (sel_copy s) [[0%Z]; []].
Proof. intros fuel a s. reflexivity. Qed.
Print Assumptions C53_idle.
(** [//()] in <a>x</a>; the copy is made at the beginning *)
Theorem C53_refuted : exists a s0 s1 s2, add_paths UTF8 [[BFollow; BContent; BOut 1]] [] = Ret a tt /\ sel_new a = Ret s0 tt /\
  sel_run 100 100 a [(EOpenTag, str "a"); (EContent, str "x"); (ECloseTag, str "a")] s0 = Ret s1 [[]; [1]; []]%Z /\
  sel_run 100 100 a [(EOpenTag, str "a"); (EContent, str "x"); (ECloseTag, str "a")] (sel_copy s0) = Ret s2 [[]; []; []]%Z.
Proof. eexists. eexists. eexists. eexists. split; [vm_compute; reflexivity|]. split; [vm_compute; reflexivity|]. split; vm_compute; reflexivity. Qed.
Print Assumptions C53_refuted.
(** The copy is right, if it is made outside of all tags and the selector waits for nothing but open tags there, and for nothing in all descendants.
    It is missing: copies made elsewhere, which are wrong in general. [T]: the types of the elements that follow *)
Theorem C53_copy_partial : forall (T : etype -> Prop) f ff a evs s s' rs, (forall e k, In (e, k) evs -> T e) ->
  s_type s <> EOpenTag -> sc_from (s_scope s) = O ->
  (forall e, T e -> e <> EOpenTag -> m_matches (sc_mask (s_scope s)) e = false /\ m_matches (sc_fmask (s_scope s)) e = false) ->
  sel_run f ff a evs s = Ret s' rs -> exists t', sel_run f ff a evs (sel_copy s) = Ret t' rs.
Proof.
  intros T f ff a evs s s' rs HT Ht Hf Hm E. assert (H : like0 T s (sel_copy s)).
  { split; cbn [sel_copy s_stk s_follows s_trig s_toks s_scope s_type scope_new sc_mask sc_fmask sc_from sc_to]; auto.
    - induction (s_stk s) as [|sc l IH]; constructor; [|exact IH]. split; try reflexivity; intros e _ _; reflexivity.
    - intros e He Hn. rewrite matches_zero. apply Hm; assumption.
    - intros e He Hn. rewrite matches_zero. apply Hm; assumption.
    - destruct (s_type s); try exact Hf. contradiction. }
  destruct (like_run T f ff a evs s (sel_copy s) s' rs HT H E) as (t' & X & _). exists t'. exact X.
Qed.
Print Assumptions C53_copy_partial.
(** [/a/b], [/a//c@x], [/a()] before <a>x<b/><c x="1"/></a> *)
Definition copied : list (list pathop) := [[BTag (nm "a"); BTag (nm "b"); BOut 1]; [BTag (nm "a"); BFollow; BTag (nm "c"); BAttr (nm "x"); BOut 2]; [BTag (nm "a"); BContent; BOut 3]].
Definition copied_doc : list event := [(EOpenTag, str "a"); (EContent, str "x"); (EOpenTag, str "b"); (ECloseTagIm, []); (EOpenTag, str "c"); (ETagAttribName, str "x"); (ETagAttribValue, str "1"); (ECloseTagIm, []); (ECloseTag, str "a")].
Example C53_case : exists a s0 s1, add_paths UTF8 copied [] = Ret a tt /\ sel_new a = Ret s0 tt /\ s_type s0 <> EOpenTag /\ sc_from (s_scope s0) = O /\
  (forall e, In e (map fst copied_doc) -> e <> EOpenTag -> m_matches (sc_mask (s_scope s0)) e = false /\ m_matches (sc_fmask (s_scope s0)) e = false) /\
  sel_run 100 100 a copied_doc s0 = Ret s1 [[]; [3]; [1]; []; []; []; [2]; []; []]%Z.
Proof.
  eexists. eexists. eexists. split; [vm_compute; reflexivity|]. split; [vm_compute; reflexivity|]. split; [discriminate|]. split; [reflexivity|]. split; [|vm_compute; reflexivity].
  intros e He Hn. assert (X : forall e, In e (map fst copied_doc) -> (etype_idx e =? etype_idx EOpenTag) || (negb (m_matches (mkMask (2 ^ etype_idx EOpenTag + 2 ^ etype_idx EHeaderStart) 0) e)) = true) by (apply forallb_forall; vm_compute; reflexivity).
  specialize (X e He). destruct e; try contradiction; split; vm_compute; reflexivity || (vm_compute in X; discriminate X).
Qed.
