(** brack-transformer: simplify.rs, document.rs, stmt.rs, expr.rs, angle.rs, curly.rs, square.rs,
    backslash.rs, utils.rs, error.rs and transform.rs. *)
From Coq Require Import String List NArith Bool.
From Verif Require Import Base Tokens CST AST TransformError.
Import ListNotations.

(** utils.rs 5-15 *)
Definition check_if_module_or_angle_bracket (cs : list cst) : list terror :=
  match nth_error cs 1 with
  | None => []
  | Some (CLeaf LModule _ _) => []
  | Some (CInner CAngle _ _) => []
  | Some c => [(EModuleNotFound, cst_location c)]
  end.

(** utils.rs 17-26 *)
Definition check_if_dot (cs : list cst) : list terror :=
  match nth_error cs 2 with
  | None => []
  | Some (CLeaf LDot _ _) => []
  | Some c => [(EDotNotFound, cst_location c)]
  end.

(** utils.rs 28-38 *)
Definition check_if_ident_or_angle_bracket (cs : list cst) : list terror :=
  match nth_error cs 3 with
  | None => []
  | Some (CLeaf LIdent _ _) => []
  | Some (CInner CAngle _ _) => []
  | Some c => [(EIdentifierNotFound, cst_location c)]
  end.

(** utils.rs 43-55: the patterns that are dropped *)
Definition not_in_ast (c : cst) : bool :=
  match c with
  | CLeaf (LWhitespace | LNewline | LComma | LDot | LAngleOpen | LAngleClose | LCurlyOpen
          | LCurlyClose | LSquareOpen | LSquareClose | LEOF) _ _ => true
  | _ => false
  end.

(** utils.rs 40-59 *)
Fixpoint remove_elements_not_included_ast (cs : list cst) : list cst :=
  match cs with
  | [] => []
  | c :: cs' => if not_in_ast c then remove_elements_not_included_ast cs'
                else c :: remove_elements_not_included_ast cs'
  end.

(** [expr.children().is_empty()], utils.rs 72, 81, 100 *)
Definition no_children (c : cst) : res bool :=
  let! cs := cst_children c in Ok (match cs with [] => true | _ => false end).

(** utils.rs 69-103: the loop from index [i] on; [prev] is [csts[i - 1]], [rest] is [csts[i..]].
    The two pushes after a [break] (line 100) see the fresh expression of line 86. *)
Fixpoint args_loop (prev : cst) (rest : list cst) (new_csts : list cst) (expr : cst)
    (previous_comma : bool) (errors : list terror) : res (list cst * list terror) :=
  match rest with
  | [] =>
    let! e := no_children expr in
    Ok ((if e then new_csts else new_csts ++ [expr]), errors)
  | c :: rest' =>
    match c with
    | CLeaf LComma _ _ =>
      let! e := no_children expr in
      if e then args_loop c rest' new_csts expr previous_comma (errors ++ [(EUnexpectedComma, cst_location c)])
      else args_loop c rest' (new_csts ++ [expr]) new_expr true errors
    | CLeaf (LAngleClose | LCurlyClose | LSquareClose) _ _ =>
      let! e := no_children expr in
      let (ncs, errors) :=
        if e then
          if previous_comma then (new_csts, errors ++ [(EUnexpectedComma, cst_location prev)])
          else (new_csts, errors)
        else (new_csts ++ [expr], errors) in
      Ok (ncs ++ [c], errors)
    | CLeaf LDot _ _ => args_loop c rest' new_csts expr previous_comma (errors ++ [(EUnexpectedDot, cst_location c)])
    | _ => let! expr' := cst_add expr c in args_loop c rest' new_csts expr' false errors
    end
  end.

(** utils.rs 61-104 *)
Definition check_valid_arguments (cs : list cst) : res (list cst * list terror) :=
  match cs with
  | c0 :: c1 :: c2 :: c3 :: rest => args_loop c3 rest [c0; c1; c2; c3] new_expr false []
  | _ => Ok (cs, [])
  end.

(** utils.rs 106-114 *)
Definition check_unexpected_dot (cs : list cst) : list terror :=
  flat_map (fun c => match c with CLeaf LDot _ _ => [(EUnexpectedDot, cst_location c)] | _ => [] end)
           (skipn 3 cs).

(** utils.rs 116-125 *)
Fixpoint remove_whitespaces_and_newlines (cs : list cst) : list cst :=
  match cs with
  | [] => []
  | (CLeaf (LWhitespace | LNewline) _ _) :: cs' => remove_whitespaces_and_newlines cs'
  | c :: cs' => c :: remove_whitespaces_and_newlines cs'
  end.

(** angle.rs 14-30, curly.rs 14-30, square.rs 14-30. The three functions differ in the bracket;
    the model takes the node kind as parameter. An empty slice panics at [csts[0]]. *)
Definition check_if_the_first_and_last_node_are_brackets (k : ckind) (cs : list cst) : res (list terror) :=
  match cs with
  | [] => Panic (lit "index out of bounds")
  | first :: _ =>
    let final := last cs first in
    match k, first, final with
    | CAngle, CLeaf LAngleOpen _ _, CLeaf LAngleClose _ _ => Ok []
    | CAngle, CLeaf LAngleOpen _ l, CLeaf (LCurlyClose | LSquareClose) _ r =>
      Ok [(EMismatchedBracket, merge_location l r)]
    | CAngle, CLeaf LAngleOpen _ l, _ => Ok [(EAngleNotClosed, merge_location l (cst_location final))]
    | CCurly, CLeaf LCurlyOpen _ _, CLeaf LCurlyClose _ _ => Ok []
    | CCurly, CLeaf LCurlyOpen _ l, CLeaf (LAngleClose | LSquareClose) _ r =>
      Ok [(EMismatchedBracket, merge_location l r)]
    | CCurly, CLeaf LCurlyOpen _ l, _ => Ok [(ECurlyNotClosed, merge_location l (cst_location final))]
    | CSquare, CLeaf LSquareOpen _ _, CLeaf LSquareClose _ _ => Ok []
    | CSquare, CLeaf LSquareOpen _ l, CLeaf (LAngleClose | LCurlyClose) _ r =>
      Ok [(EMismatchedBracket, merge_location l r)]
    | CSquare, CLeaf LSquareOpen _ l, _ => Ok [(ESquareNotClosed, merge_location l (cst_location final))]
    | _, _, _ => Panic (lit "Maybe cst parser is broken because it must have bracket-open node first.")
    end
  end.

(** angle.rs 41-44, curly.rs 41-44, square.rs 41-44: a simplified child, with an Expr spliced *)
Definition splice (c : cst) : list cst :=
  match c with CInner CExpr cs _ => cs | _ => [c] end.

(** angle.rs 39-65, curly.rs 39-65, square.rs 39-65, after the children have been simplified to
    [done] with errors [errors]. *)
Definition bracket_finish (k : ckind) (done : list cst) (errors : list terror) (l : loc)
    : res (cst * list terror) :=
  let csts := flat_map splice done in
  let! e0 := check_if_the_first_and_last_node_are_brackets k csts in
  let errors := errors ++ e0 ++ check_if_module_or_angle_bracket csts ++ check_if_dot csts
                ++ check_if_ident_or_angle_bracket csts ++ check_unexpected_dot csts in
  let csts := remove_whitespaces_and_newlines csts in
  let! (csts, new_errors) := check_valid_arguments csts in
  Ok (CInner k (remove_elements_not_included_ast csts) l, errors ++ new_errors).

(** simplify.rs 5-16 with document.rs 6-30, stmt.rs 6-30, expr.rs 6-28, angle.rs 32-67,
    curly.rs 32-67, square.rs 32-67 and backslash.rs 5-18 inlined (the node passed always has
    the kind the callee expects, so the panics of their [_] arms cannot be reached). *)
Fixpoint simplify (c : cst) : res (cst * list terror) :=
  match c with
  | CLeaf _ _ _ => Ok (c, [])
  | CInner CBackSlash cs l =>
    match cs with
    | [] => Ok (new_invalid l, [(EInvalidBackslash, l)])
    | x :: _ => Ok (x, [])
    end
  | CInner k cs l =>
    let! (done, errors) :=
      (fix go (cs : list cst) : res (list cst * list terror) :=
         match cs with
         | [] => Ok ([], [])
         | x :: cs' =>
           let! (c, e) := simplify x in
           let! (r, es) := go cs' in
           Ok (c :: r, e ++ es)
         end) cs in
    match k with
    | CDocument | CStmt => Ok (CInner k (remove_elements_not_included_ast done) l, errors)
    | CExpr => Ok (CInner k done l, errors)
    | _ => bracket_finish k done errors l
    end
  end.

(** transform.rs 17-64: the variant of an inner node *)
Definition aux_inner (k : ckind) : option akind :=
  match k with
  | CDocument => Some NDocument | CStmt => Some NStmt | CExpr => Some NExpr
  | CAngle => Some NAngle | CCurly => Some NCurly | CSquare => Some NSquare
  | CBackSlash => None
  end.

(** transform.rs 59-63: the variant and the value of a leaf *)
Definition aux_leaf (k : clkind) (v : option str) : option (alkind * option str) :=
  match k with
  | LIdent => Some (FIdent, v) | LModule => Some (FModule, v)
  | LInvalid => Some (FInvalid, None) | LText => Some (FText, v)
  | _ => None
  end.

(** transform.rs 15-65, [aux]. [uuid n] is the [n]-th identifier drawn by [Uuid::new_v4]
    (ast.rs 203-291); the counter is threaded in evaluation order, children first. *)
Fixpoint aux (uuid : nat -> str) (c : cst) (n : nat) : res (ast * nat) :=
  match c with
  | CInner k cs l =>
    match aux_inner k with
    | Some k' =>
      let! (r, n') :=
        (fix go (cs : list cst) (n : nat) : res (list ast * nat) :=
           match cs with
           | [] => Ok ([], n)
           | x :: cs' =>
             let! (a, n1) := aux uuid x n in
             let! (r, n2) := go cs' n1 in
             Ok (a :: r, n2)
           end) cs n in
      Ok (AInner k' (uuid n') r l, S n')
    | None => Panic (lit "Cannot pass non-ast node to transform::aux")
    end
  | CLeaf k v l =>
    match aux_leaf k v with
    | Some (k', v') => Ok (ALeaf k' (uuid n) v' l, S n)
    | None => Panic (lit "Cannot pass non-ast node to transform::aux")
    end
  end.

(** transform.rs 12-68 *)
Definition transform (uuid : nat -> str) (c : cst) : res (ast * list terror) :=
  let! (s, errors) := simplify c in
  let! (a, _) := aux uuid s 0 in
  Ok (a, errors).
