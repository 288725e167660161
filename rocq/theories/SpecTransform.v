(** Specification vocabulary for the CST to AST transformation. Nothing here uses the
    transformer model except the names of the error kinds. *)
From Coq Require Import String List NArith Bool.
From Verif Require Import Base Tokens CST AST SpecCST TransformError.
Import ListNotations.

(** The items of a command: the children of its node, with the expressions opened up. *)
Definition flat (cs : list cst) : list cst :=
  flat_map (fun c => match c with CInner CExpr xs _ => xs | _ => [c] end) cs.

Definition is_leaf (k : clkind) (c : cst) : Prop := exists v l, c = CLeaf k v l.
Definition is_angle (c : cst) : Prop := exists cs l, c = CInner CAngle cs l.

Definition visible (c : cst) : bool :=
  match c with CLeaf (LWhitespace | LNewline) _ _ => false | _ => true end.

(** Non-empty groups separated by single commas. *)
Inductive comma_separated : list cst -> list (list cst) -> Prop :=
| CS_one : forall g, g <> [] -> (forall c, In c g -> ~ is_leaf LComma c) -> comma_separated g [g]
| CS_more : forall g c rest gs, g <> [] -> (forall x, In x g -> ~ is_leaf LComma x) ->
    is_leaf LComma c -> comma_separated rest gs -> comma_separated (g ++ c :: rest) (g :: gs).

Definition arguments (args : list cst) (gs : list (list cst)) : Prop :=
  (filter visible args = [] /\ gs = []) \/ comma_separated (filter visible args) gs.

Definition command_kind (k : ckind) : option (clkind * clkind * akind) :=
  match k with
  | CAngle => Some (LAngleOpen, LAngleClose, NAngle)
  | CCurly => Some (LCurlyOpen, LCurlyClose, NCurly)
  | CSquare => Some (LSquareOpen, LSquareClose, NSquare)
  | _ => None
  end.

Definition name_kind (k : clkind) : option alkind :=
  match k with LModule => Some FModule | LIdent => Some FIdent | LText => Some FText | _ => None end.

Definition inner (c : cst) : bool := match c with CInner _ _ _ => true | _ => false end.

(** Where the transformer sees an item: an escape stands where the escaped character is. *)
Definition item_loc (c : cst) : loc :=
  match c with CInner CBackSlash (x :: _) _ => cst_location x | _ => cst_location c end.

Definition group_loc (g : list cst) : loc := fold_left merge_location (map item_loc g) mock_location.

(** What a well-formed tree means: the published grammar of commands (brack.ast.ebnf) as a relation
    from CST to AST. Identifiers of nodes are free. An argument expression is a new node; its range
    is the default range 0:0-0:0 merged with those of its items. *)
Inductive means : cst -> ast -> Prop :=
| Me_name : forall k k' s i l, name_kind k = Some k' ->
    means (CLeaf k (Some s) l) (ALeaf k' i (Some s) l)
| Me_escape : forall s i l l',
    means (CInner CBackSlash [CLeaf LText (Some s) l'] l) (ALeaf FText i (Some s) l')
| Me_command : forall k o c k' cs l lo m ld f args lc gs am af aas i,
    command_kind k = Some (o, c, k') ->
    flat cs = CLeaf o None lo :: m :: CLeaf LDot None ld :: f :: args ++ [CLeaf c None lc] ->
    (is_leaf LModule m \/ is_angle m) -> (is_leaf LIdent f \/ is_angle f) ->
    arguments args gs -> means m am -> means f af ->
    Forall2 (fun g a => exists i' as' l', a = AInner NExpr i' as' l' /\ l' = group_loc g /\
                                          Forall2 means g as') gs aas ->
    means (CInner k cs l) (AInner k' i (am :: af :: aas) l)
| Me_expr : forall xs ys i l, Forall2 means xs ys -> means (CInner CExpr xs l) (AInner NExpr i ys l)
| Me_stmt : forall xs ys i l, Forall2 means (filter inner xs) ys ->
    means (CInner CStmt xs l) (AInner NStmt i ys l)
| Me_document : forall xs ys i l, Forall2 means (filter inner xs) ys ->
    means (CInner CDocument xs l) (AInner NDocument i ys l).

(** The lines of a document and the items that stand directly on them, outside all commands. *)
Definition lines (c : cst) : list cst :=
  match c with
  | CInner CDocument ss _ => flat_map (fun s => match s with CInner CStmt es _ => es | _ => [] end) ss
  | _ => []
  end.
Definition top_items (c : cst) : list cst :=
  flat_map (fun e => match e with CInner CExpr xs _ => xs | _ => [] end) (lines c).
Definition mark (c : cst) : Prop := is_leaf LDot c \/ is_leaf LComma c \/ is_leaf LWhitespace c.

(** The words of a tree: its names and texts, where its commands begin, and the backslashes that
    escape nothing. [WMissing] is a name or text without value. *)
Inductive word := WModule (s : str) | WIdent (s : str) | WText (s : str) | WCommand (k : akind) | WInvalid | WMissing.

Definition cst_marks (k : ckind) (cs : list cst) : list word :=
  match k with
  | CAngle => [WCommand NAngle] | CCurly => [WCommand NCurly] | CSquare => [WCommand NSquare]
  | CBackSlash => match cs with [] => [WInvalid] | _ => [] end
  | _ => []
  end.
Fixpoint cst_words (c : cst) : list word :=
  match c with
  | CLeaf LModule (Some s) _ => [WModule s]
  | CLeaf LIdent (Some s) _ => [WIdent s]
  | CLeaf LText (Some s) _ => [WText s]
  | CLeaf (LModule | LIdent | LText) None _ => [WMissing]
  | CLeaf LInvalid _ _ => [WInvalid]
  | CLeaf _ _ _ => []
  | CInner k cs _ => cst_marks k cs ++ flat_map cst_words cs
  end.
Definition ast_marks (k : akind) : list word :=
  match k with NAngle | NCurly | NSquare => [WCommand k] | _ => [] end.
Fixpoint ast_words (a : ast) : list word :=
  match a with
  | ALeaf FModule _ (Some s) _ => [WModule s]
  | ALeaf FIdent _ (Some s) _ => [WIdent s]
  | ALeaf FText _ (Some s) _ => [WText s]
  | ALeaf (FModule | FIdent | FText) _ None _ => [WMissing]
  | ALeaf (FInvalid | FIgnored) _ _ _ => [WInvalid]
  | AInner k _ cs _ => ast_marks k ++ flat_map ast_words cs
  end.

(** A tree without its identifiers. *)
Fixpoint erase (a : ast) : ast :=
  match a with
  | AInner k _ cs l => AInner k [] (map erase cs) l
  | ALeaf k _ v l => ALeaf k [] v l
  end.

(** All nodes of an AST, the parent before its children. *)
Fixpoint ast_nodes (a : ast) : list ast :=
  a :: match a with AInner _ _ cs _ => flat_map ast_nodes cs | ALeaf _ _ _ _ => [] end.

(** All nodes of a CST, children before their parent, left to right. *)
Fixpoint cst_nodes (c : cst) : list cst :=
  match c with CInner _ cs _ => flat_map cst_nodes cs ++ [c] | CLeaf _ _ _ => [c] end.

(** ** The defects of one node, by kind *)

(** A bracket node whose last item is not its closing bracket. The range goes from the
    opening bracket to the last item. *)
Definition not_closed (k : ckind) : option ekind :=
  match k with
  | CAngle => Some EAngleNotClosed | CCurly => Some ECurlyNotClosed
  | CSquare => Some ESquareNotClosed | _ => None
  end.
Definition closes (k : ckind) (c : cst) : bool :=
  match k, c with
  | CAngle, CLeaf LAngleClose _ _ | CCurly, CLeaf LCurlyClose _ _
  | CSquare, CLeaf LSquareClose _ _ => true
  | _, _ => false
  end.
Definition unclosed (c : cst) : list terror :=
  match c with
  | CInner k cs _ =>
    match not_closed k, flat cs with
    | Some e, o :: _ =>
      if closes k (last (flat cs) o) then []
      else [(e, merge_location (cst_location o) (item_loc (last (flat cs) o)))]
    | _, _ => []
    end
  | _ => []
  end.

(** The item at position [n] of a command is there, but is not one of the [good] ones. *)
Definition misplaced (e : ekind) (n : nat) (good : cst -> bool) (c : cst) : list terror :=
  match c with
  | CInner k cs _ =>
    match not_closed k, nth_error (flat cs) n with
    | Some _, Some x => if good x then [] else [(e, item_loc x)]
    | _, _ => []
    end
  | _ => []
  end.
Definition good_module (c : cst) : bool :=
  match c with CLeaf LModule _ _ | CInner CAngle _ _ => true | _ => false end.
Definition good_dot (c : cst) : bool := match c with CLeaf LDot _ _ => true | _ => false end.
Definition good_ident (c : cst) : bool :=
  match c with CLeaf LIdent _ _ | CInner CAngle _ _ => true | _ => false end.

(** A backslash that escapes nothing. *)
Definition bad_escape (c : cst) : list terror :=
  match c with CInner CBackSlash [] l => [(EInvalidBackslash, l)] | _ => [] end.

(** The dots among the items of a command from position [n] on. *)
Definition dots_from (n : nat) (items : list cst) : list terror :=
  map (fun d => (EUnexpectedDot, cst_location d)) (filter good_dot (skipn n items)).

(** A command with the head [open module . name]. *)
Definition good_head (c : cst) : Prop :=
  forall k cs l, c = CInner k cs l -> not_closed k <> None ->
  exists o m d f rest, flat cs = o :: m :: d :: f :: rest /\
    good_module m = true /\ good_dot d = true /\ good_ident f = true.

Definition stray_dots (c : cst) : list terror :=
  match c with
  | CInner k cs _ => match not_closed k with Some _ => dots_from 4 (flat cs) | None => [] end
  | _ => []
  end.

(** The kind of an error. *)
Definition of_kind (ks : list ekind) (e : terror) : bool :=
  existsb (fun k => if ekind_dec k (fst e) then true else false) ks.

(** ** Commas *)
(** The items of a command after its head, without spaces, newlines and the closing bracket. *)
Definition arg_items (k : ckind) (cs : list cst) : list cst :=
  filter (fun c => negb (closes k c)) (skipn 4 (filter visible (flat cs))).
Definition is_comma (c : cst) : bool := match c with CLeaf LComma _ _ => true | _ => false end.

(** Commas with nothing but dots between them and the previous comma or the head. *)
Fixpoint empty_args (fresh : bool) (args : list cst) : list terror :=
  match args with
  | [] => []
  | c :: r =>
    if good_dot c then empty_args fresh r
    else if is_comma c then
      (if fresh then [(EUnexpectedComma, cst_location c)] else []) ++ empty_args true r
    else empty_args false r
  end.

(** A closed command whose last argument is empty although there are others: reported at the
    last item before the closing bracket. *)
Definition trailing_comma (k : ckind) (cs : list cst) : list terror :=
  match flat cs with
  | [] => []
  | o :: _ =>
    let args := arg_items k cs in
    let solid := filter (fun c => negb (good_dot c)) args in
    if closes k (last (flat cs) o) && is_comma (last solid o) && negb (forallb is_comma solid)
    then [(EUnexpectedComma, item_loc (last args o))] else []
  end.

Definition bad_commas (c : cst) : list terror :=
  match c with
  | CInner k cs _ =>
    match not_closed k with
    | Some _ => empty_args true (arg_items k cs) ++ trailing_comma k cs
    | None => []
    end
  | _ => []
  end.

Definition doubled_dots (c : cst) : list terror :=
  match c with
  | CInner k cs _ =>
    match not_closed k with
    | Some _ => dots_from 3 (flat cs) ++ dots_from 4 (filter visible (flat cs))
    | None => []
    end
  | _ => []
  end.

(** ** Spaces, commas and dots outside brackets *)
(** Whether the token kinds [ks] have a space, comma or dot that is not escaped, outside all brackets,
    if the brackets [open] are open before them. An escaped bracket does not count. A closing
    bracket closes the innermost open bracket of its kind and all those inside it. *)
Fixpoint outside (open : list tkind) (ks : list tkind) : bool :=
  match ks with
  | [] | TkEOF :: _ | TkEmpty :: _ => false
  | TkBackSlash :: ks' =>
    match ks' with
    | k :: ks'' => if existsb (fun e => if tkind_eq_dec (snd e) k then true else false) escapes
                   then outside open ks'' else outside open ks'
    | [] => false
    end
  | (TkAngleOpen | TkCurlyOpen | TkSquareOpen) as k :: ks' => outside (k :: open) ks'
  | (TkAngleClose | TkCurlyClose | TkSquareClose) as k :: ks' =>
    match pop_to k open with Some open' => outside open' ks' | None => outside [] ks' end
  | (TkDot | TkComma | TkWhiteSpace) :: ks' =>
    match open with [] => true | _ => outside open ks' end
  | _ :: ks' => outside open ks'
  end.

(** No opening bracket is escaped, and every closing bracket that is not escaped closes the
    innermost open bracket, if there is one. *)
Definition opener (k : tkind) : bool :=
  match k with TkAngleOpen | TkCurlyOpen | TkSquareOpen => true | _ => false end.
Fixpoint tame (open : list tkind) (ks : list tkind) : bool :=
  match ks with
  | [] => true
  | TkBackSlash :: ks' =>
    match ks' with
    | k :: ks'' => if existsb (fun e => if tkind_eq_dec (snd e) k then true else false) escapes
                   then negb (opener k) && tame open ks'' else tame open ks'
    | [] => true
    end
  | (TkAngleOpen | TkCurlyOpen | TkSquareOpen) as k :: ks' => tame (k :: open) ks'
  | (TkAngleClose | TkCurlyClose | TkSquareClose) as k :: ks' =>
    match open with
    | [] => tame [] ks'
    | o :: open' =>
      match o, k with
      | TkAngleOpen, TkAngleClose | TkCurlyOpen, TkCurlyClose | TkSquareOpen, TkSquareClose =>
        tame open' ks'
      | _, _ => false
      end
    end
  | _ :: ks' => tame open ks'
  end.

(** ** brack.ast.ebnf *)
(** The published grammar, with curly commands (which the published rule for expr forgets) and with the leaf kinds [word_kind]
    as the words of an expression (published: text only). A statement may be empty: a line with nothing
    but a closing bracket leaves nothing. *)
Section ast_grammar.
  Variable word_kind : alkind -> Prop.
  Inductive ag_item : ast -> Prop :=
  | AG_word : forall k i s l, word_kind k -> ag_item (ALeaf k i (Some s) l)
  | AG_item : forall c, ag_command c -> ag_item c
  with ag_command : ast -> Prop :=
  | AG_command : forall k i m f args l, In k [NAngle; NCurly; NSquare] ->
      ag_head FModule m -> ag_head FIdent f -> Forall ag_expr args ->
      ag_command (AInner k i (m :: f :: args) l)
  with ag_head : alkind -> ast -> Prop :=
  | AG_name : forall k i s l, ag_head k (ALeaf k i (Some s) l)
  | AG_macro : forall k i cs l, ag_command (AInner NAngle i cs l) -> ag_head k (AInner NAngle i cs l)
  with ag_expr : ast -> Prop :=
  | AG_expr : forall i xs l, xs <> [] -> Forall ag_item xs -> ag_expr (AInner NExpr i xs l).
  Definition ag_stmt (a : ast) : Prop := exists i xs l, a = AInner NStmt i xs l /\ Forall ag_expr xs.
  Definition ag_document (a : ast) : Prop := exists i xs l, a = AInner NDocument i xs l /\ Forall ag_stmt xs.
End ast_grammar.

Definition text_only (k : alkind) : Prop := k = FText.
Definition any_word (k : alkind) : Prop := In k [FText; FModule; FIdent].
