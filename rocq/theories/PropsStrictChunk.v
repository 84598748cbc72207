(** C79, chunks that are not the last one: the pointer of a SrcIterator does not get further than one behind its memory. *)
From Coq Require Import Lia.
From Verif Require Import Base Iter CharMap Charset TextScanner XmlScanner ScannerSim ReadSpec ScanSpec PropsScan StrictIter RetrySpec RetryRead StrictChunk.

(** [scanChunked] with the iterator of StrictIter, for which increments beyond the memory are undefined *)
Fixpoint scanStrict (incs : charset) (cfg : config) (fuel : nat) (masks : list N) (st : scanner (tscan srcit) * list (list N)) : out (scanner (tscan srcit) * list (list N)) (list event) :=
  match masks with
  | [] => Ret st []
  | m :: masks =>
      let! (st1, t) := resume (sc_feed feed_new) (nextItem (ts_ops srcs_ops incs) cfg fuel m) (snd st) (fst st) in
      let! (st2, evs) := scanStrict incs cfg fuel masks st1 in
      Ret st2 (observe (ts_ops srcs_ops incs) t (fst st1) :: evs)
  end.
Lemma resume_keeps {A} (op : scanner (tscan srcit) -> out (scanner (tscan srcit)) A) : forall chunks s st t, resume (sc_feed feed_new) op chunks s = Ret st t -> chunks = [] -> snd st = [].
Proof. intros chunks s st t E ->. cbn [resume] in E. destruct (op s); try discriminate E. injection E as <- _. reflexivity. Qed.
Lemma chunked_keeps incs cfg fuel : forall masks s st evs, scanChunked incs cfg feed_new fuel masks (s, []) = Ret st evs -> snd st = [].
Proof.
  induction masks as [|m masks IH]; intros s st evs E; cbn [scanChunked fst snd] in E; [injection E as <- _; reflexivity|].
  destruct (resume _ _ _ _) as [[s1 c1] t| | | |] eqn:E1; try discriminate E. apply resume_keeps in E1; [|reflexivity]. cbn [snd] in E1. subst c1. cbn [bind] in E.
  destruct (scanChunked _ _ _ _ _ _) as [st2 evs2| | | |] eqn:E2; try discriminate E. injection E as <- _. exact (IH _ _ _ E2).
Qed.

(** ** As long as the last chunk has not been supplied, no pointer leaves the memory of a chunk: for all character sets, of UTF-8 with one byte per character, characters may be cut *)
Theorem C79_chunks_partial : forall incs cfg fuel masks c0 chunks st evs, at_once incs (concat (c0 :: chunks)) ->
  scanChunked incs cfg feed_new fuel masks (sc_make (ts_make (src_make c0 true)), chunks) = Ret st evs -> snd st <> [] ->
  scanStrict incs cfg fuel masks (sc_make (ts_make (src_make c0 true)), chunks) = Ret st evs.
Proof.
  intros incs cfg fuel masks c0 chunks st evs A E NE. set (okb := fun b : N => incs = UTF8 -> b < 128).
  assert (Q : Forall okb c0 /\ Forall (Forall okb) chunks).
  { assert (Q : Forall okb (concat (c0 :: chunks))) by (unfold okb; destruct incs; cbn [at_once] in A; try (apply Forall_forall; intros; discriminate); eapply Forall_impl; [|exact A]; auto).
    cbn [concat] in Q. apply Forall_app in Q. destruct Q as [Q1 Q2]. split; [exact Q1|]. apply Forall_concat. exact Q2. }
  destruct Q as [Q0 Q].
  assert (H : srel (@eq N) (Tq incs (inside okb)) (sc_make (ts_make (src_make c0 true))) (sc_make (ts_make (src_make c0 true)))).
  { constructor; [|reflexivity]. split; [reflexivity|]. split; [|left; reflexivity]. split; cbn; [reflexivity|lia|intros; lia|lia|exact Q0|reflexivity]. }
  revert H E Q. generalize (sc_make (ts_make (src_make c0 true))). clear A Q0. intro s. revert s chunks evs.
  induction masks as [|m masks IH]; intros s chunks evs H E Q; cbn [scanChunked scanStrict fst snd] in *; [exact E|].
  destruct (resume (sc_feed feed_new) (nextItem (ts_ops src_ops incs) cfg fuel m) chunks s) as [[s1 c1] t| | | |] eqn:E1; try discriminate E. cbn [bind] in E.
  destruct (scanChunked incs cfg feed_new fuel masks (s1, c1)) as [st2 evs2| | | |] eqn:E2; try discriminate E. injection E as <- <-.
  assert (N1 : c1 <> []) by (intros ->; apply NE; exact (chunked_keeps _ _ _ _ _ _ _ E2)).
  destruct (resume_same okb incs (fun X b K => K X) cfg fuel m chunks s _ _ Q H E1 N1) as (R1 & R2 & R3). rewrite R1. cbn [bind fst snd] in *.
  rewrite (IH s1 c1 evs2 R2 E2 R3). reflexivity.
Qed.
Print Assumptions C79_chunks_partial.
(** in UTF-16 with a character cut, and in UTF-8 with a tag cut; the last chunk is still to come *)
Example C79_chunks_case : exists st evs, scanStrict (UTF16 true) (xml_config (UTF16 true) UTF8 None 0) 100 (calls 2)
    (sc_make (ts_make (src_make [0; 60; 0] true)), [[97; 0; 62; 0]; [104; 0; 60; 0; 47]; [0; 97]]) = Ret st evs /\ snd st <> [] /\ map element evs = [(EOpenTag, str "a", Ok); (EContent, str "h", Ok)].
Proof. do 2 eexists. split; [vm_compute; reflexivity|]. split; [discriminate|vm_compute; reflexivity]. Qed.
Example C79_chunks_ascii : at_once UTF8 (concat [str "<to"; str "p>x"; str "</top>"]) /\ exists st evs, scanStrict UTF8 (xml_config UTF8 UTF8 None 0) 100 (calls 1)
    (sc_make (ts_make (src_make (str "<to") true)), [str "p>x"; str "</top>"]) = Ret st evs /\ snd st = [str "</top>"] /\ map element evs = [(EOpenTag, str "top", Ok)].
Proof. split; [repeat constructor|]. do 2 eexists. split; [vm_compute; reflexivity|]. split; vm_compute; reflexivity. Qed.
