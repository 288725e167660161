(** Vocabulary for documents that stand one after the other. Nothing here uses a model. *)
From Coq Require Import String List NArith Bool.
From Verif Require Import Base Tokens SpecTok AST TransformError SpecTransform.
Import ListNotations.

(** [n] lines further down. *)
Definition lower_loc (n : nat) (l : loc) : loc := mkloc (shift_pos n 0 (lstart l)) (shift_pos n 0 (lend l)).
Definition lower_error (n : nat) (e : terror) : terror := (fst e, lower_loc n (snd e)).

(** An error; of a missing closing bracket only where it starts. *)
Definition sight (e : terror) : ekind * pos * option pos :=
  (fst e, lstart (snd e),
   if of_kind [EAngleNotClosed; ECurlyNotClosed; ESquareNotClosed] e then None else Some (lend (snd e))).

(** The children of a tree. *)
Definition parts (a : ast) : list ast := match a with AInner _ _ cs _ => cs | ALeaf _ _ _ _ => [] end.
