(** Which tree belongs to which tokens. Nothing here uses the parser model. *)
From Coq Require Import String List NArith Bool.
From Verif Require Import Base Tokens CST SpecTok SpecCST.
Import ListNotations.

Definition is_expr (c : cst) : bool := match c with CInner CExpr _ _ => true | _ => false end.

(** Two expressions next to each other. *)
Fixpoint two_exprs (cs : list cst) : bool :=
  match cs with
  | [] => false
  | a :: r => match r with b :: _ => is_expr a && is_expr b | [] => false end || two_exprs r
  end.

(** Inside brackets, expressions are as long as possible. *)
Definition apart (c : cst) : Prop :=
  forall k cs l, node_of (CInner k cs l) c -> bracket_of k <> None -> two_exprs cs = false.

(** The location of a statement or document is the default location merged with those of the
    children. *)
Definition merged (c : cst) : Prop :=
  forall k cs l, node_of (CInner k cs l) c -> k = CStmt \/ k = CDocument ->
    l = fold_left merge_location (map cst_location cs) mock_location.

(** [c] is a tree of the tokens [ts]: its leaves are a prefix of them and it follows the grammar. *)
Definition tree_of (ts : list token) (c : cst) : Prop :=
  g_document c /\ apart c /\ merged c /\ exists rest, ts = leaf_toks c ++ rest /\ spans_ok c rest.
