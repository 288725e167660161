(** The pipeline from a text to the generated text. *)
From Coq Require Import String List NArith Bool.
From Verif Require Import Base Tokens Tokenizer Parser AST TransformError Transform Plugin Expander Codegen.
Import ListNotations.

(** brack-project-manager/src/project.rs 137-141 and src/main.rs 113-117: the same five stages. The
    errors of the third stage are dropped. Reading the file is left out: [s] is its content. The uuids
    that [transform] draws are those of [uuid]. *)
Definition compile (seg : str -> list str) (uuid : nat -> str) (checks : bool) (w : world) (ps : plugins)
    (s : str) : M str :=
  do! tokenized := ret (tokenize_str seg s) in
  do! parsed := ret (parse tokenized) in
  do! (ast, _errors) := ret (transform uuid parsed) in
  do! expanded := expander w ps ast in
  generate checks w ps expanded.
