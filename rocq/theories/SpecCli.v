(** The pattern of plugin files, `([[:alpha:]]+)_[[:alnum:]]+.wasm`. Nothing here uses a model. *)
From Coq Require Import String List NArith.
From Verif Require Import Base.
Import ListNotations.

Definition letter (c : N) : Prop := In c (lit "ABCDEFGHIJKLMNOPQRSTUVWXYZabcdefghijklmnopqrstuvwxyz").
Definition digit (c : N) : Prop := In c (lit "0123456789").

(** The text starts with a match whose group is [a]. *)
Definition matches (a s : str) : Prop := exists h x r, s = a ++ lit "_" ++ h ++ x :: lit "wasm" ++ r /\
  a <> [] /\ Forall letter a /\ h <> [] /\ Forall (fun c => letter c \/ digit c) h /\ x <> 10%N.

(** The leftmost match of the text has the group [a]. *)
Definition found_as (s a : str) : Prop := exists p t, s = p ++ t /\ matches a t /\
  forall q u b, s = q ++ u -> matches b u -> length p <= length q.
