(** Vocabulary for trees that are compared or displayed. Nothing here uses a model. *)
From Coq Require Import String List NArith.
From Verif Require Import Base Tokens CST AST SpecTransform.
Import ListNotations.

(** What [Display] shows of a CST: everything but the ids, the places, what is in an escape, and what is written at leaves
    other than names and texts. *)
Fixpoint outline (c : cst) : cst :=
  match c with
  | CInner CBackSlash _ _ => CInner CBackSlash [] mock_location
  | CInner k cs _ => CInner k (map outline cs) mock_location
  | CLeaf ((LModule | LIdent | LText) as k) v _ => CLeaf k v mock_location
  | CLeaf k _ _ => CLeaf k None mock_location
  end.

(** The variant of a node. *)
Definition cst_kind (c : cst) : ckind + clkind := match c with CInner k _ _ => inl k | CLeaf k _ _ => inr k end.
Definition ast_kind (a : ast) : akind + alkind := match a with AInner k _ _ _ => inl k | ALeaf k _ _ _ => inr k end.

(** What [Display] shows of an AST: everything but the ids and the places. *)
Fixpoint shape (a : ast) : ast :=
  match a with
  | AInner k _ cs _ => AInner k [] (map shape cs) mock_location
  | ALeaf ((FIdent | FModule | FText) as k) _ v _ => ALeaf k [] v mock_location
  | ALeaf k _ _ _ => ALeaf k [] None mock_location
  end.

(** No line feed in the names and texts of a tree. *)
Definition one_line (a : ast) : Prop := forall k i v l, In (ALeaf k i (Some v) l) (ast_nodes a) -> ~ In 10%N v.
(** Nothing wrong in a tree. *)
Definition faultless (a : ast) : Prop := forall b, In b (ast_nodes a) -> ast_kind b <> inr FInvalid /\ ast_kind b <> inr FIgnored.
