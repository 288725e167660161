(** Nodes to which children are added one after the other. Nothing here uses [merge_location]. *)
From Coq Require Import List Arith.
From Verif Require Import Base Tokens SpecTok SpecCST.
Import ListNotations.

(** [p] is the earliest of the positions [ps]. *)
Definition earliest (p : pos) (ps : list pos) : Prop := In p ps /\ Forall (pos_le p) ps.

(** [p] is one of the positions [ps] and none of them is on a later line. *)
Definition on_last_line (p : pos) (ps : list pos) : Prop :=
  In p ps /\ Forall (fun q => pline q <= pline p) ps.

(** [add] applied to the children [xs] in turn. *)
Fixpoint grow {A} (add : A -> A -> res A) (a : A) (xs : list A) : res A :=
  match xs with
  | [] => Ok a
  | x :: xs' => let! a' := add a x in grow add a' xs'
  end.
