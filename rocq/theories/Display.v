(** [Display] of CSTs (cst.rs) and of errors (error.rs); that of ASTs is [ast_display] in AST.v. *)
From Coq Require Import String List NArith Bool.
From Verif Require Import Base Tokens CST AST TransformError Show.
Import ListNotations.

(** cst.rs 181-275, [display_with_indent] (and, at level 0, [Display], 47-51). The children of a [BackSlash] are not shown. As in Show.v, [ids] gives
    the ids of the nodes. *)
Fixpoint cst_display (shown : N -> bool) (ids : list nat -> str) (n : nat) (c : cst) : str :=
  match c with
  | CInner CBackSlash _ _ => indent n ++ lit "BackSlash(id: " ++ ids [] ++ lit ")"
  | CInner k cs _ =>
      indent n ++ cinner_name k ++ lit "(id: " ++ ids [] ++ lit ") [" ++ [10%N]
      ++ (fix go i cs := match cs with
                         | [] => []
                         | x :: cs' => cst_display shown (fun p => ids (i :: p)) (S n) x ++ lit "," ++ [10%N] ++ go (S i) cs'
                         end) O cs
      ++ indent n ++ lit "]"
  | CLeaf ((LModule | LIdent | LText) as k) v _ =>
      indent n ++ cleaf_name k ++ lit "(id: " ++ ids [] ++ lit ", value: " ++ debug_option shown v ++ lit ")"
  | CLeaf k _ _ => indent n ++ cleaf_name k ++ lit "(id: " ++ ids [] ++ lit ")"
  end.

(** error.rs 66-80 *)
Definition error_display (e : terror) : str :=
  let l := snd e in
  lit "Error at line " ++ debug_usize (pline (lstart l)) ++ lit ", column " ++ debug_usize (pchar (lstart l))
  ++ lit " to line " ++ debug_usize (pline (lend l)) ++ lit ", column " ++ debug_usize (pchar (lend l))
  ++ lit ": " ++ get_message e.
