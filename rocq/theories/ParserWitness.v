(** Witnesses for the parser properties, from concrete texts, for every lawful segmenter. *)
From Coq Require Import String List NArith Arith Bool Lia.
From Verif Require Import Base Tokens Graphemes UAX29 Tokenizer CST SpecTok SpecCST Parser
  TokenizerProofs TokenizerWitness ParserProofs ParserTotal ParserAccepts ParserProofs2 ParserLocations.
Import ListNotations.

(** The text to CST part of the pipeline. *)
Definition front (seg : str -> list str) (s : str) : res cst :=
  let! ts := tokenize_str seg s in parse ts.

Lemma front_gseg : forall seg s, seg_laws seg -> ascii s = true -> front seg s = front gseg s.
Proof. intros seg s L A. unfold front. rewrite (tokenize_gseg seg s L A). reflexivity. Qed.

Lemma front_ok_or_err : forall seg, seg_laws seg -> forall s,
  (exists c, front seg s = Ok c) \/ (exists e, front seg s = Err e).
Proof.
  intros seg L s. unfold front. destruct (tokenize_total seg L s) as [ts E]. rewrite E. cbn [bind].
  destruct (cut_eof_last _ _ _ _ (tokenize_cut seg L s ts E)) as (body & e & -> & _).
  destruct (parse_accepts_eof (body ++ [mktok TkEOF e])) as [[H _]|[H _]]; auto.
  unfold has_eof. rewrite map_app, in_app_iff. right. left. reflexivity.
Qed.

Lemma front_lossless : forall seg, seg_laws seg -> forall s ts c,
  tokenize_str seg s = Ok ts -> parse ts = Ok c -> leaf_toks c = ts.
Proof.
  intros seg L s ts c E H.
  destruct (cut_eof_last _ _ _ _ (tokenize_cut seg L s ts E)) as (body & e & -> & F).
  apply (parse_lossless_exact _ _ _ H). eapply Forall_impl; [|exact F]. intros t [A _]. exact A.
Qed.

Lemma final_backslash_panics : exists l e, parse [mktok TkBackSlash l] = Panic e.
Proof. exists mock_location. eexists. vm_compute. reflexivity. Qed.

(** Texts rejected or accepted against expectation. *)
Lemma stray_examples : forall seg, seg_laws seg ->
  (exists e, front seg (lit "a > b") = Err e) /\
  (exists e, front seg ([10%N] ++ lit "a") = Err e) /\
  (exists c, front seg (lit "{m.f [m.g a }") = Ok c) /\
  (exists c, front seg (lit "a" ++ [10%N] ++ lit ">" ++ [10%N] ++ lit "b") = Ok c).
Proof.
  intros seg L. rewrite !(front_gseg seg _ L) by reflexivity.
  repeat split; eexists; vm_compute; reflexivity.
Qed.

Definition end_text : str := lit "a" ++ [10;10;10;10;10]%N ++ lit "\[".

Lemma document_end_refuted : forall seg, seg_laws seg ->
  exists s c cs l z, front seg s = Ok c /\ c = CInner CDocument cs l /\
    nth_error cs (length cs - 1) = Some z /\ lend l <> lend (cst_location z).
Proof.
  intros seg L. exists end_text. rewrite (front_gseg seg _ L) by reflexivity.
  destruct (front gseg end_text) as [c|?|?|] eqn:E; vm_compute in E; try discriminate E.
  injection E as <-. eexists _, _, _, _. split; [reflexivity|]. split; [reflexivity|].
  split; [reflexivity|]. discriminate.
Qed.

Lemma start_refuted : forall seg, seg_laws seg ->
  exists s c cs l x, front seg s = Ok c /\ node_of (CInner CStmt (x :: cs) l) c /\
    lstart l <> lstart (cst_location x).
Proof.
  intros seg L. exists end_text. rewrite (front_gseg seg _ L) by reflexivity.
  destruct (front gseg end_text) as [c|?|?|] eqn:E; vm_compute in E; try discriminate E.
  injection E as <-. eexists _, _, _, _. split; [reflexivity|]. split.
  - eapply N_child; [do 6 right; left; reflexivity|]. apply N_self.
  - discriminate.
Qed.

(** An expression ending in an escape ends at the backslash. *)
Lemma expr_end_refuted : forall seg, seg_laws seg ->
  exists s c cs l t, front seg s = Ok c /\ node_of (CInner CExpr cs l) c /\
    In t (leaf_toks (CInner CExpr cs l)) /\ ~ pos_le (lend (tl t)) (lend l).
Proof.
  intros seg L. exists (lit "a\["). rewrite (front_gseg seg _ L) by reflexivity.
  destruct (front gseg (lit "a\[")) as [c|?|?|] eqn:E; vm_compute in E; try discriminate E.
  injection E as <-. eexists _, _, _, _. split; [reflexivity|]. split.
  - eapply N_child; [left; reflexivity|]. eapply N_child; [left; reflexivity|]. apply N_self.
  - split; [right; right; left; reflexivity|]. unfold pos_le. cbn. lia.
Qed.
