(** brack-transformer/src/ast.rs *)
From Coq Require Import String List NArith Bool.
From Verif Require Import Base Tokens.
Import ListNotations.

(** ast.rs 22-34: the variants that carry an [InnerNode]. *)
Inductive akind := NDocument | NStmt | NExpr | NAngle | NSquare | NCurly.

(** ast.rs 22-34: the variants that carry a [LeafNode]. *)
Inductive alkind := FIdent | FModule | FText | FInvalid | FIgnored.

(** ast.rs 7-34: [InnerNode], [LeafNode], [AST]. *)
Inductive ast :=
| AInner (k : akind) (id : str) (children : list ast) (l : loc)
| ALeaf (k : alkind) (id : str) (value : option str) (l : loc).

(** Two spaces per level: ["  ".repeat(ident)] *)
Fixpoint indent (n : nat) : str := match n with O => [] | S n => lit "  " ++ indent n end.

(** ast.rs 152-205, [display_with_ident] (and, at level 0, [Display], 36-40): a leaf without a value
    panics. *)
Fixpoint ast_display (n : nat) (a : ast) : res str :=
  match a with
  | AInner k _ cs _ =>
    let! s :=
      (fix go (cs : list ast) : res str :=
         match cs with
         | [] => Ok []
         | c :: cs' => let! x := ast_display (S n) c in let! y := go cs' in Ok (x ++ y)
         end) cs in
    Ok (indent n ++
        match k with
        | NDocument => lit "Document" | NStmt => lit "Stmt" | NExpr => lit "Expr"
        | NAngle => lit "Angle" | NSquare => lit "Square" | NCurly => lit "Curly"
        end ++ [10%N] ++ s)
  | ALeaf ((FIdent | FModule | FText) as k) _ v _ =>
    match v with
    | Some s => Ok (indent n ++
                    match k with FIdent => lit "Ident: " | FModule => lit "Module: " | _ => lit "Text: " end
                    ++ s ++ [10%N])
    | None => Panic (lit "called `Option::unwrap()` on a `None` value")
    end
  | ALeaf FInvalid _ _ _ => Ok (indent n ++ lit "Invalid" ++ [10%N])
  | ALeaf FIgnored _ _ _ => Ok (indent n ++ lit "Ignored" ++ [10%N])
  end.

(** ast.rs 43-57; the message for a leaf shows the leaf, and a leaf that cannot be shown panics first. *)
Definition ast_children (a : ast) : res (list ast) :=
  match a with
  | AInner _ _ cs _ => Ok cs
  | ALeaf (FIdent | FModule | FText) _ _ _ =>
    let! s := ast_display 0 a in Panic (lit "Leaf node has no children: " ++ s)
  | ALeaf FInvalid _ _ _ => Panic (lit "This node is broken")
  | ALeaf FIgnored _ _ _ => Panic (lit "This node has to be ignored")
  end.

(** ast.rs 59-71 *)
Definition ast_value (a : ast) : res (option str) :=
  match a with
  | ALeaf (FIdent | FModule | FText) _ v _ => Ok v
  | AInner _ _ _ _ => Panic (lit "Inner node has no value")
  | ALeaf FInvalid _ _ _ => Panic (lit "This node is broken")
  | ALeaf FIgnored _ _ _ => Panic (lit "This node has to be ignored")
  end.

(** ast.rs 73-87 *)
Definition ast_id (a : ast) : str :=
  match a with AInner _ i _ _ => i | ALeaf _ i _ _ => i end.

(** The [location] field of either variant; ast.rs 10-19. *)
Definition ast_location (a : ast) : loc :=
  match a with AInner _ _ _ l => l | ALeaf _ _ _ l => l end.

(** ast.rs 89-120 *)
Definition ast_add (a child : ast) : res ast :=
  match a with
  | AInner k i cs l => Ok (AInner k i (cs ++ [child]) (merge_location l (ast_location child)))
  | ALeaf (FIdent | FModule | FText) _ _ _ => Panic (lit "Cannot add child to leaf node")
  | ALeaf FInvalid _ _ _ => Panic (lit "This node is broken")
  | ALeaf FIgnored _ _ _ => Panic (lit "This node has to be ignored")
  end.

(** ast.rs 122-151 *)
Fixpoint ast_get (a : ast) (id : str) : option ast :=
  match a with
  | AInner _ i cs _ =>
    if str_eqb i id then Some a
    else (fix go (cs : list ast) : option ast :=
            match cs with
            | [] => None
            | x :: cs' => match ast_get x id with Some r => Some r | None => go cs' end
            end) cs
  | ALeaf _ i _ _ => if str_eqb i id then Some a else None
  end.
