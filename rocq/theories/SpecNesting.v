(** How deep the brackets of a tree are nested. *)
From Coq Require Import List Arith.
From Verif Require Import Tokens CST.
Import ListNotations.

Definition is_bracket (k : ckind) : bool := match k with CAngle | CCurly | CSquare => true | _ => false end.
Fixpoint levels (c : cst) : nat :=
  match c with
  | CLeaf _ _ _ => 0
  | CInner k cs _ => (if is_bracket k then 1 else 0) + list_max (map levels cs)
  end.

(** The number of opening brackets *)
Definition is_open (t : token) : bool := match tk t with TkAngleOpen | TkCurlyOpen | TkSquareOpen => true | _ => false end.
Definition opens (ts : list token) : nat := length (filter is_open ts).
