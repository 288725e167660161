(** The functions of cst.rs and ast.rs that compare trees (the unit tests use them). *)
From Coq Require Import String List NArith Bool.
From Verif Require Import Base Tokens CST AST.
Import ListNotations.

(** brack-parser/src/cst.rs 278-304, [matches_kind]: [Invalid] is not in the list. *)
Definition cst_matches_kind (c kind : cst) : bool :=
  match c, kind with
  | CInner CDocument _ _, CInner CDocument _ _ | CInner CStmt _ _, CInner CStmt _ _ | CInner CExpr _ _, CInner CExpr _ _
  | CInner CAngle _ _, CInner CAngle _ _ | CInner CCurly _ _, CInner CCurly _ _ | CInner CSquare _ _, CInner CSquare _ _
  | CLeaf LAngleOpen _ _, CLeaf LAngleOpen _ _ | CLeaf LAngleClose _ _, CLeaf LAngleClose _ _
  | CLeaf LSquareOpen _ _, CLeaf LSquareOpen _ _ | CLeaf LSquareClose _ _, CLeaf LSquareClose _ _
  | CLeaf LCurlyOpen _ _, CLeaf LCurlyOpen _ _ | CLeaf LCurlyClose _ _, CLeaf LCurlyClose _ _
  | CLeaf LModule _ _, CLeaf LModule _ _ | CLeaf LIdent _ _, CLeaf LIdent _ _ | CLeaf LText _ _, CLeaf LText _ _
  | CLeaf LWhitespace _ _, CLeaf LWhitespace _ _ | CLeaf LNewline _ _, CLeaf LNewline _ _
  | CInner CBackSlash _ _, CInner CBackSlash _ _
  | CLeaf LDot _ _, CLeaf LDot _ _ | CLeaf LComma _ _, CLeaf LComma _ _ | CLeaf LEOF _ _, CLeaf LEOF _ _ => true
  | _, _ => false
  end.

(** brack-transformer/src/ast.rs 317-332, [matches_kind] *)
Definition ast_matches_kind (a b : ast) : bool :=
  match a, b with
  | AInner NDocument _ _ _, AInner NDocument _ _ _ | AInner NStmt _ _ _, AInner NStmt _ _ _ | AInner NExpr _ _ _, AInner NExpr _ _ _
  | AInner NAngle _ _ _, AInner NAngle _ _ _ | AInner NCurly _ _ _, AInner NCurly _ _ _ | AInner NSquare _ _ _, AInner NSquare _ _ _
  | ALeaf FModule _ _ _, ALeaf FModule _ _ _ | ALeaf FIdent _ _ _, ALeaf FIdent _ _ _ | ALeaf FText _ _ _, ALeaf FText _ _ _
  | ALeaf FInvalid _ _ _, ALeaf FInvalid _ _ _ | ALeaf FIgnored _ _ _, ALeaf FIgnored _ _ _ => true
  | _, _ => false
  end.

Definition ostr_eqb (a b : option str) : bool :=
  match a, b with Some s, Some t => str_eqb s t | None, None => true | _, _ => false end.

(** [assert_eq!]. (Simplification here and below: the texts of the panics leave out the values.) *)
Definition assert_that (b : bool) : res unit := if b then Ok tt else Panic (lit "assertion `left == right` failed").

(** ast.rs 299-315, [assert_ast_eq], with 288-293, [assert_inner_node_eq], and 295-297, [assert_leaf_node_eq], inlined: first the
    numbers of children, then the children in order. *)
Fixpoint assert_ast_eq (a b : ast) : res unit :=
  match a, b with
  | AInner NDocument _ cs _, AInner NDocument _ ds _ | AInner NStmt _ cs _, AInner NStmt _ ds _
  | AInner NExpr _ cs _, AInner NExpr _ ds _ | AInner NAngle _ cs _, AInner NAngle _ ds _
  | AInner NSquare _ cs _, AInner NSquare _ ds _ | AInner NCurly _ cs _, AInner NCurly _ ds _ =>
      let! _ := assert_that (Nat.eqb (length cs) (length ds)) in
      (fix go (cs ds : list ast) : res unit :=
         match cs, ds with
         | c :: cs', d :: ds' => let! _ := assert_ast_eq c d in go cs' ds'
         | _, _ => Ok tt
         end) cs ds
  | ALeaf FIdent _ v _, ALeaf FIdent _ u _ | ALeaf FModule _ v _, ALeaf FModule _ u _ | ALeaf FText _ v _, ALeaf FText _ u _ =>
      assert_that (ostr_eqb v u)
  | _, _ => Panic (lit "Mismatched AST node types or unexpected AST node")
  end.
