(** brack-expander/src/expand.rs *)
From Coq Require Import String List NArith Bool.
From Verif Require Import Base Tokens AST Plugin.
Import ListNotations.

(** expand.rs 6-25: the names; the last module and the last identifier child win *)
Fixpoint angle_names (cs : list ast) (module_name ident_name : str) : res (str * str) :=
  match cs with
  | [] => Ok (module_name, ident_name)
  | ALeaf FModule _ v _ :: cs' => let! n := ok_or v "No value found" in angle_names cs' n ident_name
  | ALeaf FIdent _ v _ :: cs' => let! n := ok_or v "No value found" in angle_names cs' module_name n
  | _ :: cs' => angle_names cs' module_name ident_name
  end.

Section Expand.
  Variable w : world.
  Variable ps : plugins.
  Variable overall : ast.

  (** expand.rs 5-30 *)
  Definition expand_angle (a : ast) : M ast :=
    do! cs := ret (ast_children a) in
    do! (m, i) := ret (angle_names cs [] []) in
    do! new_ast := call_macro_command w ps m i overall (ast_id a) in
    ret (Ok new_ast).

  (** expand.rs 32-53. The expanded children are collected in a vector that nothing reads. *)
  Fixpoint expand_other (a : ast) : M ast :=
    match a with
    | ALeaf (FText | FModule | FIdent) _ _ _ => ret (Ok a)
    | ALeaf _ _ _ _ => do! _ := ret (ast_children a) in ret (Ok a)
    | AInner _ _ cs _ =>
      do! _ :=
        (fix go (cs : list ast) : M (list ast) :=
           match cs with
           | [] => ret (Ok [])
           | c :: cs' =>
             do! x := match c with AInner NAngle _ _ _ => expand_angle c | _ => expand_other c end in
             do! xs := go cs' in
             ret (Ok (x :: xs))
           end) cs in
      ret (Ok a)
    end.
End Expand.

(** expand.rs 55-58 *)
Definition expander (w : world) (ps : plugins) (a : ast) : M ast := expand_other w ps a a.
