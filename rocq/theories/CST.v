(** brack-parser/src/cst.rs *)
From Coq Require Import String List NArith Bool.
From Verif Require Import Base Tokens.
Import ListNotations.

(** cst.rs 22-45: the variants that carry an [InnerNode]. *)
Inductive ckind := CDocument | CStmt | CExpr | CAngle | CCurly | CSquare | CBackSlash.

(** cst.rs 22-45: the variants that carry a [LeafNode]. *)
Inductive clkind :=
| LAngleOpen | LAngleClose | LSquareOpen | LSquareClose | LCurlyOpen | LCurlyClose
| LModule | LIdent | LText | LWhitespace | LNewline | LDot | LComma | LEOF | LInvalid.

(** cst.rs 7-45: [InnerNode] and [LeafNode]. (Simplification: the random [id] of CST
    nodes is dropped; it is only printed, see Show.v.) *)
Inductive cst :=
| CInner (k : ckind) (children : list cst) (l : loc)
| CLeaf (k : clkind) (value : option str) (l : loc).

(** cst.rs 54-65; panics on leaves *)
Definition cst_children (c : cst) : res (list cst) :=
  match c with
  | CInner _ cs _ => Ok cs
  | CLeaf _ _ _ => Panic (lit "This node does not have children")
  end.

(** cst.rs 67-92 *)
Definition cst_location (c : cst) : loc :=
  match c with CInner _ _ l => l | CLeaf _ _ l => l end.

(** cst.rs 94-121 *)
Definition cst_set_location (c : cst) (l : loc) : cst :=
  match c with CInner k cs _ => CInner k cs l | CLeaf k v _ => CLeaf k v l end.

(** cst.rs 123-141: panics on inner nodes and on [Invalid] *)
Definition cst_value (c : cst) : res (option str) :=
  match c with
  | CLeaf LInvalid _ _ | CInner _ _ _ => Panic (lit "This node does not have a value")
  | CLeaf _ v _ => Ok v
  end.

(** cst.rs 143-181, on an inner node: push the child and merge the locations. The parser only
    calls it on inner nodes; on a leaf it panics, which the model represents by [None]. *)
Definition cst_add_opt (c child : cst) : option cst :=
  match c with
  | CInner k cs l => Some (CInner k (cs ++ [child]) (merge_location l (cst_location child)))
  | CLeaf _ _ _ => None
  end.

(** [expr.add(cst)] as a statement of the parser, with the panic of cst.rs 179. *)
Definition cst_add (c child : cst) : res cst :=
  match cst_add_opt c child with
  | Some c' => Ok c'
  | None => Panic (lit "This node does not have children")
  end.

Definition new_document : cst := CInner CDocument [] mock_location.   (* cst.rs 305-311 *)
Definition new_stmt : cst := CInner CStmt [] mock_location.           (* cst.rs 313-319 *)
Definition new_expr : cst := CInner CExpr [] mock_location.           (* cst.rs 321-327 *)
Definition new_eof (l : loc) : cst := CLeaf LEOF None l.              (* cst.rs 329-335 *)
Definition new_invalid (l : loc) : cst := CLeaf LInvalid None l.      (* cst.rs 337-343 *)
Definition new_whitespace (l : loc) : cst := CLeaf LWhitespace None l. (* cst.rs 345-351 *)
Definition new_newline (l : loc) : cst := CLeaf LNewline None l.      (* cst.rs 353-359 *)
Definition new_backslash (l : loc) : cst := CInner CBackSlash [] l.   (* cst.rs 361-367 *)
Definition new_text (v : str) (l : loc) : cst := CLeaf LText (Some v) l.     (* cst.rs 369-375 *)
Definition new_ident (v : str) (l : loc) : cst := CLeaf LIdent (Some v) l.   (* cst.rs 377-383 *)
Definition new_module (v : str) (l : loc) : cst := CLeaf LModule (Some v) l. (* cst.rs 385-391 *)
Definition new_angle : cst := CInner CAngle [] mock_location.         (* cst.rs 393-399 *)
Definition new_curly : cst := CInner CCurly [] mock_location.         (* cst.rs 401-407 *)
Definition new_square : cst := CInner CSquare [] mock_location.       (* cst.rs 409-415 *)
Definition new_comma (l : loc) : cst := CLeaf LComma None l.          (* cst.rs 417-423 *)
Definition new_dot (l : loc) : cst := CLeaf LDot None l.              (* cst.rs 425-431 *)
Definition new_angle_open (l : loc) : cst := CLeaf LAngleOpen None l.     (* cst.rs 433-439 *)
Definition new_angle_close (l : loc) : cst := CLeaf LAngleClose None l.   (* cst.rs 441-447 *)
Definition new_square_open (l : loc) : cst := CLeaf LSquareOpen None l.   (* cst.rs 449-455 *)
Definition new_square_close (l : loc) : cst := CLeaf LSquareClose None l. (* cst.rs 457-463 *)
Definition new_curly_open (l : loc) : cst := CLeaf LCurlyOpen None l.     (* cst.rs 465-471 *)
Definition new_curly_close (l : loc) : cst := CLeaf LCurlyClose None l.   (* cst.rs 473-479 *)
