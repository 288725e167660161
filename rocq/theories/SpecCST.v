(** Specification vocabulary for syntax trees. Nothing here uses the parser model. *)
From Coq Require Import String List NArith Bool.
From Verif Require Import Base Tokens CST SpecTok.
Import ListNotations.

(** The characters that may be escaped and their tokens. *)
Definition escapes : list (str * tkind) :=
  [(lit "\", TkBackSlash); (lit "<", TkAngleOpen); (lit ">", TkAngleClose);
   (lit "{", TkCurlyOpen); (lit "}", TkCurlyClose); (lit "[", TkSquareOpen);
   (lit "]", TkSquareClose); (lit ".", TkDot); (lit ",", TkComma)].

Definition unescape (s : str) : tkind :=
  match find (fun p => str_eqb (fst p) s) escapes with Some (_, k) => k | None => TkEmpty end.

Definition leaf_kind (k : clkind) (v : option str) : tkind :=
  let s := match v with Some s => s | None => [] end in
  match k with
  | LAngleOpen => TkAngleOpen | LAngleClose => TkAngleClose
  | LSquareOpen => TkSquareOpen | LSquareClose => TkSquareClose
  | LCurlyOpen => TkCurlyOpen | LCurlyClose => TkCurlyClose
  | LModule => TkModule s | LIdent => TkIdent s | LText => TkText s
  | LWhitespace => TkWhiteSpace | LNewline => TkNewLine | LDot => TkDot | LComma => TkComma
  | LEOF => TkEOF | LInvalid => TkEmpty
  end.

(** The tokens of a tree, from left to right. A backslash node is a backslash token followed
    by the token of the escaped character. *)
Fixpoint leaf_toks (c : cst) : list token :=
  match c with
  | CLeaf k v l => [mktok (leaf_kind k v) l]
  | CInner CBackSlash cs l =>
    mktok TkBackSlash l ::
    match cs with
    | [CLeaf LText (Some s) l'] => [mktok (unescape s) l']
    | _ => []
    end
  | CInner _ cs _ => flat_map leaf_toks cs
  end.

(** brack.cst.ebnf *)
Definition is_newline (c : cst) : Prop := exists l, c = CLeaf LNewline None l.
Definition is_close (c : cst) : Prop :=
  exists k l, c = CLeaf k None l /\ In k [LAngleClose; LCurlyClose; LSquareClose].

(** The node kind and the two brackets of each bracket form. *)
Definition bracket_of (k : ckind) : option (clkind * clkind) :=
  match k with
  | CAngle => Some (LAngleOpen, LAngleClose)
  | CCurly => Some (LCurlyOpen, LCurlyClose)
  | CSquare => Some (LSquareOpen, LSquareClose)
  | _ => None
  end.

Inductive g_item : cst -> Prop :=
| G_escaped0 : forall l, g_item (CInner CBackSlash [] l)
| G_escaped1 : forall s k l l', In (s, k) escapes ->
    g_item (CInner CBackSlash [CLeaf LText (Some s) l'] l)
| G_named : forall k s l, In k [LModule; LIdent; LText] -> g_item (CLeaf k (Some s) l)
| G_mark : forall k l, In k [LDot; LComma; LWhitespace] -> g_item (CLeaf k None l)
| G_bracket : forall k o c lo body close l,
    bracket_of k = Some (o, c) ->
    Forall (fun x => g_expr x \/ is_newline x) body ->
    (close = [] \/ exists lc, close = [CLeaf c None lc]) ->
    g_item (CInner k (CLeaf o None lo :: body ++ close) l)
with g_expr : cst -> Prop :=
| G_expr : forall items l, items <> [] -> Forall g_item items -> g_expr (CInner CExpr items l).

Definition g_expr_or_close (c : cst) : Prop := g_expr c \/ is_close c.

(** expr_or_close (newline expr_or_close)* *)
Inductive g_stmt_tail : list cst -> Prop :=
| G_st_nil : g_stmt_tail []
| G_st_cons : forall n x cs, is_newline n -> g_expr_or_close x -> g_stmt_tail cs ->
    g_stmt_tail (n :: x :: cs).
Definition g_stmt (c : cst) : Prop :=
  exists x cs l, c = CInner CStmt (x :: cs) l /\ g_expr_or_close x /\ g_stmt_tail cs.

(** (stmt newline newline+)* stmt? newline* EOF *)
Inductive g_paragraphs : list cst -> Prop :=
| G_pa_nil : g_paragraphs []
| G_pa_cons : forall s n1 n2 ns cs, g_stmt s -> is_newline n1 -> is_newline n2 ->
    Forall is_newline ns -> g_paragraphs cs -> g_paragraphs (s :: n1 :: n2 :: ns ++ cs).
Definition g_document (c : cst) : Prop :=
  exists ps last ns le l,
    c = CInner CDocument (ps ++ last ++ ns ++ [CLeaf LEOF None le]) l /\
    g_paragraphs ps /\ (last = [] \/ exists s, last = [s] /\ g_stmt s) /\ Forall is_newline ns.

(** Locations: an Expr spans its children; a bracket node goes from its opening bracket to its
    closing bracket or, if it has none, to the end of the first of the tokens [after] it. That
    token is the closing bracket of another kind or the EOF (or, in token lists that no tokenizer
    makes, the Empty token, or anything if no EOF follows). A backslash stands alone only before
    a token that cannot be escaped. *)
Definition unclosed_end (cl : clkind) (l : loc) (after : list token) : Prop :=
  exists t rest, after = t :: rest /\ lend l = lend (tl t) /\ tk t <> leaf_kind cl None /\
    (In TkEOF (map tk after) -> In (tk t) [TkAngleClose; TkSquareClose; TkCurlyClose; TkEOF; TkEmpty]).
Definition span_ok (k : ckind) (cs : list cst) (l : loc) (after : list token) : Prop :=
  match k with
  | CExpr =>
    exists a z, nth_error cs 0 = Some a /\ nth_error cs (length cs - 1) = Some z /\
      l = mkloc (lstart (cst_location a)) (lend (cst_location z))
  | CAngle | CCurly | CSquare =>
    exists o cl a z, bracket_of k = Some (o, cl) /\
      nth_error cs 0 = Some a /\ nth_error cs (length cs - 1) = Some z /\
      lstart l = lstart (cst_location a) /\
      match z with
      | CLeaf kz _ lz => if match kz, cl with
                            | LAngleClose, LAngleClose | LCurlyClose, LCurlyClose
                            | LSquareClose, LSquareClose => true | _, _ => false end
                         then lend l = lend lz
                         else unclosed_end cl l after
      | _ => unclosed_end cl l after
      end
  | CBackSlash => cs = [] -> forall t rest, after = t :: rest -> ~ In (tk t) (map snd escapes)
  | _ => True
  end.

Fixpoint spans_ok (c : cst) (after : list token) : Prop :=
  match c with
  | CLeaf _ _ _ => True
  | CInner k cs l =>
    span_ok k cs l after /\
    (fix go (cs : list cst) : Prop :=
       match cs with
       | [] => True
       | x :: cs' => spans_ok x (flat_map leaf_toks cs' ++ after) /\ go cs'
       end) cs
  end.

(** Which token lists are documents: a pushdown recognizer over token kinds. A closing
    bracket closes the innermost open bracket of its kind, leaving those inside it unclosed; one
    that closes nothing must be alone on its line, outside all brackets. *)
Inductive place := AtDocStart | AtLineStart | AfterExpr | AfterClose | OnlyNewlines.

Fixpoint pop_to (k : tkind) (open : list tkind) : option (list tkind) :=
  match open with
  | [] => None
  | o :: open' =>
    match o, k with
    | TkAngleOpen, TkAngleClose | TkCurlyOpen, TkCurlyClose | TkSquareOpen, TkSquareClose => Some open'
    | _, _ => pop_to k open'
    end
  end.

Definition content_ok (open : list tkind) (p : place) : bool :=
  match open, p with
  | [], AfterClose | [], OnlyNewlines => false
  | _, _ => true
  end.

Fixpoint accepts (open : list tkind) (p : place) (ks : list tkind) : bool :=
  match ks with
  | [] => false
  | TkEOF :: _ => true
  | TkEmpty :: _ => false
  | TkNewLine :: ks' =>
    match open, p with
    | [], AtDocStart | [], OnlyNewlines => accepts [] OnlyNewlines ks'
    | _, _ => accepts open AtLineStart ks'
    end
  | TkBackSlash :: ks' =>
    content_ok open p &&
    match ks' with
    | k :: ks'' => if existsb (fun e => if tkind_eq_dec (snd e) k then true else false) escapes
                   then accepts open AfterExpr ks''
                   else accepts open AfterExpr ks'
    | [] => false
    end
  | (TkAngleOpen | TkCurlyOpen | TkSquareOpen) as k :: ks' =>
    content_ok open p && accepts (k :: open) AfterExpr ks'
  | (TkAngleClose | TkCurlyClose | TkSquareClose) as k :: ks' =>
    match pop_to k open with
    | Some open' => accepts open' AfterExpr ks'
    | None =>
      match open, p with
      | [], AtDocStart | [], AtLineStart => accepts [] AfterClose ks'
      | _, _ => false
      end
    end
  | _ :: ks' => content_ok open p && accepts open AfterExpr ks'
  end.

Definition acceptable (ts : list token) : bool := accepts [] AtDocStart (map tk ts).

(** Balanced token sequences. *)
Definition plain (k : tkind) : bool :=
  match k with
  | TkText _ | TkModule _ | TkIdent _ | TkNewLine | TkWhiteSpace | TkDot | TkComma => true
  | _ => false
  end.

Inductive matching : tkind -> tkind -> Prop :=
| M_angle : matching TkAngleOpen TkAngleClose
| M_curly : matching TkCurlyOpen TkCurlyClose
| M_square : matching TkSquareOpen TkSquareClose.

Inductive balanced : list tkind -> Prop :=
| Bal_nil : balanced []
| Bal_plain : forall k ks, plain k = true -> balanced ks -> balanced (k :: ks)
| Bal_escape : forall s k ks, In (s, k) escapes -> balanced ks -> balanced (TkBackSlash :: k :: ks)
| Bal_backslash : forall k ks, plain k = true -> k <> TkDot -> k <> TkComma -> balanced (k :: ks) ->
    balanced (TkBackSlash :: k :: ks)
| Bal_bracket : forall o c inner ks, matching o c -> balanced inner -> balanced ks ->
    balanced (o :: inner ++ c :: ks).

(** Subtrees. *)
Inductive node_of : cst -> cst -> Prop :=
| N_self : forall c, node_of c c
| N_child : forall c x k cs l, In x cs -> node_of c x -> node_of c (CInner k cs l).

(** The hull of two ranges and the order of positions. *)
Definition pos_le (a b : pos) : Prop := pline a < pline b \/ (pline a = pline b /\ pchar a <= pchar b).
