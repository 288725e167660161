(** What a document without errors and macros can be blamed for when it does not compile. *)
From Coq Require Import String List NArith ZArith Bool.
From Verif Require Import Base Tokens Graphemes UAX29 Tokenizer SpecTok CST SpecCST Parser ParserProofs ParserWitness AST SpecTransform TransformError Transform
  TransformIds TransformProofs TransformGrammar TransformWitness TransformShape TransformMeans Plugin Expander Codegen SpecGen PluginProofs ExpanderProofs GenProofs Compile SpecCompile CompileProofs SpecRefuse RefuseProofs.
Import ListNotations.

Lemma node_angle : forall a i cs l, In (AInner NAngle i cs l) (ast_nodes a) -> In (WCommand NAngle) (ast_words a).
Proof.
  induction a as [k i v l|k i cs l IH] using ast_ind'; intros j ds m I.
  - destruct I as [I|[]]. discriminate I.
  - cbn [ast_words]. apply in_or_app. destruct I as [I|I]; [inversion I; subst; left; left; reflexivity|right].
    apply in_flat_map in I as (c & Ic & I). rewrite Forall_forall in IH. apply in_flat_map. eauto.
Qed.

Theorem compile_blame : forall seg, seg_laws seg -> forall uuid checks w ps s ts a h m h', tokenize_str seg s = Ok ts ->
  to_ast seg uuid s = Ok (a, []) -> ~ In (WCommand NAngle) (tok_words (map tk ts)) ->
  (forall lv n f t, hook ps lv = (Some n, f, t) -> exists md, provides ps n f t md) ->
  compile seg uuid checks w ps s h = (Err m, h') -> blame checks ps a m.
Proof.
  intros seg L uuid checks w ps s ts a h m h' T A NW HK E. unfold to_ast, front in A. rewrite T in A. cbn [bind] in A.
  apply bind_ok in A as (c & P & X). unfold compile, mbind, ret in E. rewrite T, P, X in E.
  pose proof (proj1 (parse_sound ts c P)) as G.
  pose proof (ast_tok_words seg L uuid s ts c a [] T P X) as W. rewrite <- W in NW.
  rewrite no_words_expander in E; [|intro I; rewrite (transform_words uuid c a [] G X) in I; destruct (invalid_reported uuid c a [] G X I) as (l & [])|exact NW].
  pose proof (document_shape c a G (transform_means uuid c a G X)) as D.
  apply generate_refuses in E as [(N & _)|[_ R]]; [destruct D as (i & xs & l & -> & _); exfalso; eapply N; reflexivity|].
  eapply document_blame; [exact D| |exact HK|exact R]. intros i cs l I. apply NW. eapply node_angle. exact I.
Qed.
