(** Witnesses for the transformer properties, from concrete texts, for every lawful segmenter. *)
From Coq Require Import String List NArith Arith Bool Lia.
From Verif Require Import Base Tokens Graphemes UAX29 Tokenizer CST SpecTok SpecCST Parser
  TokenizerProofs TokenizerWitness ParserProofs ParserTotal ParserAccepts ParserProofs2 ParserWitness
  AST TransformError Transform SpecTransform SpecStrip.
Import ListNotations.

(** The text to AST part of the pipeline. *)
Definition to_ast (seg : str -> list str) (uuid : nat -> str) (s : str) : res (ast * list terror) :=
  let! c := front seg s in transform uuid c.

Lemma to_ast_gseg : forall seg uuid s, seg_laws seg -> ascii s = true -> to_ast seg uuid s = to_ast gseg uuid s.
Proof. intros seg uuid s L A. unfold to_ast. rewrite (front_gseg seg s L A). reflexivity. Qed.

Lemma uuid_panics : forall seg uuid, seg_laws seg ->
  (exists e, to_ast seg uuid (lit "\[ a") = Panic e) /\
  (exists e, to_ast seg uuid (lit "{m.f [m.g a } b") = Panic e).
Proof.
  intros seg uuid L. rewrite !(fun s => to_ast_gseg seg uuid s L) by reflexivity. split; eexists; vm_compute; reflexivity.
Qed.

(** [m.f \[x z]: the word x comes out as an identifier among the arguments. *)
Lemma ident_argument : forall seg uuid, seg_laws seg ->
  exists a, to_ast seg uuid (lit "[m.f \[x z]") = Ok (a, []) /\ In (WIdent (lit "x")) (ast_words a) /\
    ~ ag_document text_only a.
Proof.
  intros seg uuid L. rewrite (to_ast_gseg seg uuid _ L) by reflexivity. eexists. split; [vm_compute; reflexivity|].
  split; [cbn; tauto|].
  assert (G : forall P, ~ ag_item text_only (ALeaf FIdent (uuid 3) (Some (lit "x")) P)).
  { intros P H. inversion H as [k i s l K|c K]; [inversion K|inversion K]. }
  intros (i & xs & l & [= <- <- <-] & F). apply Forall_inv in F as (i1 & xs1 & l1 & [= <- <- <-] & F).
  apply Forall_inv in F. inversion F as [i2 xs2 l2 _ F2]; subst. apply Forall_inv in F2.
  inversion F2 as [|c F3]; subst. inversion F3 as [k3 i3 m3 f3 args l3 _ _ _ FA]; subst.
  apply Forall_inv in FA. inversion FA as [i4 xs4 l4 _ F4]; subst.
  apply Forall_inv_tail, Forall_inv in F4. eapply G; exact F4.
Qed.

(** A closing bracket alone on its line is dropped. *)
Lemma lone_close : forall seg uuid, seg_laws seg ->
  exists a, to_ast seg uuid (lit "a" ++ [10%N] ++ lit ">" ++ [10%N] ++ lit "b") = Ok (a, []) /\
    ast_words a = [WText (lit "a"); WText (lit "b")].
Proof.
  intros seg uuid L. rewrite (to_ast_gseg seg uuid _ L) by reflexivity. eexists. split; vm_compute; reflexivity.
Qed.

Lemma mismatched : forall seg uuid, seg_laws seg ->
  exists a e, to_ast seg uuid (lit "{m.f [m.g a }") = Ok (a, [e]) /\ fst e = ESquareNotClosed.
Proof.
  intros seg uuid L. rewrite (to_ast_gseg seg uuid _ L) by reflexivity. eexists _, _. split; vm_compute; reflexivity.
Qed.

Lemma dot_twice : forall seg uuid, seg_laws seg ->
  exists a e, to_ast seg uuid (lit "[m.f a.b]") = Ok (a, [e; e]) /\ fst e = EUnexpectedDot.
Proof.
  intros seg uuid L. rewrite (to_ast_gseg seg uuid _ L) by reflexivity. eexists _, _. split; vm_compute; reflexivity.
Qed.

Lemma spaces_dropped : forall seg uuid, seg_laws seg ->
  exists a b c, to_ast seg uuid (lit "[m.f a b]") = Ok (a, []) /\ to_ast seg uuid (lit "[m.f a   b]") = Ok (b, []) /\
    to_ast seg uuid (lit "[m.f a" ++ [10%N] ++ lit "b]") = Ok (c, []) /\ bare a = bare b /\ bare a = bare c.
Proof.
  intros seg uuid L. rewrite !(fun s => to_ast_gseg seg uuid s L) by reflexivity. eexists _, _, _.
  do 3 (split; [vm_compute; reflexivity|]). split; vm_compute; reflexivity.
Qed.

Lemma argument_range : forall seg uuid, seg_laws seg ->
  exists a i k i' m f x l l' y, to_ast seg uuid (lit "aa [m.f b]") = Ok (a, []) /\
    In (AInner k i [m; f; AInner NExpr i' [ALeaf FText x (Some y) l] l'] (mkloc (mkpos 0 3) (mkpos 0 10))) (ast_nodes a) /\
    lstart l = mkpos 0 8 /\ lstart l' = mkpos 0 0.
Proof.
  intros seg uuid L. rewrite (to_ast_gseg seg uuid _ L) by reflexivity. eexists _, _, _, _, _, _, _, _, _, _.
  split; [vm_compute; reflexivity|]. split; [|split].
  - cbn [ast_nodes flat_map app]. do 4 right. left. reflexivity.
  - reflexivity.
  - reflexivity.
Qed.
