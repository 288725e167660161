(** Properties of JSON values used to state the round trip. *)
From Coq Require Import List NArith ZArith Bool Lia.
From Verif Require Import Base Json.
Import ListNotations.

(** How deep arrays and objects are nested. *)
Fixpoint nesting (j : json) : nat :=
  match j with
  | JArr l => S (fold_right (fun x n => Nat.max (nesting x) n) 0 l)
  | JObj fs => S (fold_right (fun kv n => let '(_, x) := kv in Nat.max (nesting x) n) 0 fs)
  | _ => 0
  end.

(** Integers that fit a Rust [i64] or [u64], and no other numbers. *)
Fixpoint plain (j : json) : Prop :=
  match j with
  | JInt z => (-9223372036854775808 <= z <= 18446744073709551615)%Z
  | JFloat _ => False
  | JArr l => fold_right (fun x p => plain x /\ p) True l
  | JObj fs => fold_right (fun kv p => let '(_, x) := kv in plain x /\ p) True fs
  | _ => True
  end.
