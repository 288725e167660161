(** What the transformer makes of any parsed tree, well formed or not. Nothing here uses the
    transformer model. *)
From Coq Require Import String List NArith Bool.
From Verif Require Import Base Tokens CST AST SpecCST TransformError SpecTransform.
Import ListNotations.

Definition bracket_leaf (c : cst) : bool :=
  match c with
  | CLeaf (LAngleOpen | LAngleClose | LCurlyOpen | LCurlyClose | LSquareOpen | LSquareClose) _ _ => true
  | _ => false
  end.

(** The items of a command without its brackets, spaces and newlines. *)
Definition inside (cs : list cst) : list cst :=
  filter (fun c => visible c && negb (bracket_leaf c)) (flat cs).

(** Neither a dot nor a comma. *)
Definition stands (c : cst) : bool := negb (good_dot c) && negb (is_comma c).

(** What stands between commas; [g] has been seen since the last one. *)
Fixpoint between_commas (g cs : list cst) : list (list cst) :=
  match cs with
  | [] => [g]
  | c :: r => if is_comma c then g :: between_commas [] r else between_commas (g ++ [c]) r
  end.
Definition some_item (g : list cst) : bool := match g with [] => false | _ => true end.

(** The arguments of a command: dots and empty arguments do not count. *)
Definition given (cs : list cst) : list (list cst) :=
  filter some_item (between_commas [] (filter (fun c => negb (good_dot c)) cs)).

(** How a tree is read. Of the first three items inside a command, whatever they are, dots and
    commas are forgotten and the others become children; all further items are arguments. A
    missing closing bracket makes no difference. A backslash that escapes nothing is an invalid
    leaf. A closing bracket alone on its line is forgotten. A space, dot or comma outside all
    brackets has no reading. *)
Inductive reads : cst -> ast -> Prop :=
| Re_name : forall k k' s i l, name_kind k = Some k' ->
    reads (CLeaf k (Some s) l) (ALeaf k' i (Some s) l)
| Re_escape : forall s i l l',
    reads (CInner CBackSlash [CLeaf LText (Some s) l'] l) (ALeaf FText i (Some s) l')
| Re_nothing : forall i l, reads (CInner CBackSlash [] l) (ALeaf FInvalid i None l)
| Re_command : forall k o c k' cs l i hs aas,
    command_kind k = Some (o, c, k') ->
    Forall2 reads (filter stands (firstn 3 (inside cs))) hs ->
    Forall2 (fun g a => exists i' as', a = AInner NExpr i' as' (group_loc g) /\ Forall2 reads g as')
      (given (skipn 3 (inside cs))) aas ->
    reads (CInner k cs l) (AInner k' i (hs ++ aas) l)
| Re_expr : forall xs ys i l, Forall2 reads xs ys -> reads (CInner CExpr xs l) (AInner NExpr i ys l)
| Re_stmt : forall xs ys i l, Forall2 reads (filter inner xs) ys ->
    reads (CInner CStmt xs l) (AInner NStmt i ys l)
| Re_document : forall xs ys i l, Forall2 reads (filter inner xs) ys ->
    reads (CInner CDocument xs l) (AInner NDocument i ys l).
