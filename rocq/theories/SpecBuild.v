(** What is printed. *)
From Coq Require Import String List.
From Verif Require Import Base Project.
Import ListNotations.

Definition says (os : list op) : list str := flat_map (fun o => match o with Print s => [s] | _ => [] end) os.
