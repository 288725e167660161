(** The texts printed by `compile` (main.rs 60-120): the derived [Debug] and serde code of tokens
    (tokens.rs 4-34), CST (cst.rs 7-45), AST (ast.rs 7-34) and errors (error.rs 6-22). *)
From Coq Require Import String List NArith ZArith Bool.
From Verif Require Import Base Tokens CST AST TransformError Utf8 Framing Json Serde Project Cli.
Import ListNotations.

(** * Names of variants *)

(** tokens.rs 4-22 *)
Definition token_name (k : tkind) : str :=
  match k with
  | TkEmpty => lit "Empty" | TkText _ => lit "Text" | TkModule _ => lit "Module" | TkIdent _ => lit "Ident"
  | TkNewLine => lit "NewLine" | TkWhiteSpace => lit "WhiteSpace" | TkDot => lit "Dot" | TkBackSlash => lit "BackSlash"
  | TkAngleOpen => lit "AngleBracketOpen" | TkAngleClose => lit "AngleBracketClose"
  | TkSquareOpen => lit "SquareBracketOpen" | TkSquareClose => lit "SquareBracketClose"
  | TkCurlyOpen => lit "CurlyBracketOpen" | TkCurlyClose => lit "CurlyBracketClose"
  | TkComma => lit "Comma" | TkEOF => lit "EOF"
  end.
Definition token_text (k : tkind) : option str :=
  match k with TkText s | TkModule s | TkIdent s => Some s | _ => None end.

(** cst.rs 22-45 *)
Definition cinner_name (k : ckind) : str :=
  match k with
  | CDocument => lit "Document" | CStmt => lit "Stmt" | CExpr => lit "Expr" | CAngle => lit "Angle"
  | CCurly => lit "Curly" | CSquare => lit "Square" | CBackSlash => lit "BackSlash"
  end.
Definition cleaf_name (k : clkind) : str :=
  match k with
  | LAngleOpen => lit "AngleBracketOpen" | LAngleClose => lit "AngleBracketClose"
  | LSquareOpen => lit "SquareBracketOpen" | LSquareClose => lit "SquareBracketClose"
  | LCurlyOpen => lit "CurlyBracketOpen" | LCurlyClose => lit "CurlyBracketClose"
  | LModule => lit "Module" | LIdent => lit "Ident" | LText => lit "Text" | LWhitespace => lit "Whitespace"
  | LNewline => lit "Newline" | LDot => lit "Dot" | LComma => lit "Comma" | LEOF => lit "EOF" | LInvalid => lit "Invalid"
  end.

(** error.rs 6-22 *)
Definition error_name (k : ekind) : str :=
  match k with
  | EAngleNotOpened => lit "AngleNotOpened" | EAngleNotClosed => lit "AngleNotClosed"
  | ECurlyNotOpened => lit "CurlyNotOpened" | ECurlyNotClosed => lit "CurlyNotClosed"
  | ESquareNotOpened => lit "SquareNotOpened" | ESquareNotClosed => lit "SquareNotClosed"
  | EMismatchedBracket => lit "MismatchedBracket" | EModuleNotFound => lit "ModuleNotFound"
  | EIdentifierNotFound => lit "IdentifierNotFound" | EDotNotFound => lit "DotNotFound"
  | ECommaNotFound => lit "CommaNotFound" | EUnexpectedDot => lit "UnexpectedDot"
  | EUnexpectedComma => lit "UnexpectedComma" | EInvalidBackslash => lit "InvalidBackslash"
  end.

(** * [{:?}] *)
Section Debug.
  Variable shown : N -> bool.

  Definition debug_usize (n : nat) : str := dec (N.of_nat n).
  (** tokens.rs 24-28 *)
  Definition debug_pos (p : pos) : str :=
    lit "LocationData { line: " ++ debug_usize (pline p) ++ lit ", character: " ++ debug_usize (pchar p) ++ lit " }".
  (** tokens.rs 30-34 *)
  Definition debug_loc (l : loc) : str :=
    lit "Location { start: " ++ debug_pos (lstart l) ++ lit ", end: " ++ debug_pos (lend l) ++ lit " }".
  Definition debug_token (t : token) : str :=
    token_name (tk t) ++ lit "("
    ++ match token_text (tk t) with Some s => debug_str shown s ++ lit ", " | None => [] end
    ++ debug_loc (tl t) ++ lit ")".
  Definition debug_error (e : terror) : str := error_name (fst e) ++ lit "(" ++ debug_loc (snd e) ++ lit ")".
  Definition debug_option (o : option str) : str :=
    match o with Some s => lit "Some(" ++ debug_str shown s ++ lit ")" | None => lit "None" end.

  (** The nodes of CST and AST are the same: cst.rs 7-20, ast.rs 7-20 *)
  Definition debug_inner (name id : str) (children : list str) (l : loc) : str :=
    name ++ lit "(InnerNode { id: " ++ debug_str shown id ++ lit ", children: [" ++ intercalate (lit ", ") children
    ++ lit "], location: " ++ debug_loc l ++ lit " })".
  Definition debug_leaf (name id : str) (value : option str) (l : loc) : str :=
    name ++ lit "(LeafNode { id: " ++ debug_str shown id ++ lit ", value: " ++ debug_option value
    ++ lit ", location: " ++ debug_loc l ++ lit " })".

  Fixpoint debug_ast (a : ast) : str :=
    match a with
    | AInner k id cs l => debug_inner (inner_name k) id (map debug_ast cs) l
    | ALeaf k id v l => debug_leaf (leaf_name k) id v l
    end.

  (** The model of the CST has no ids: [ids] gives those of the nodes by their places in the tree. *)
  Fixpoint debug_cst (ids : list nat -> str) (c : cst) : str :=
    match c with
    | CInner k cs l =>
        debug_inner (cinner_name k) (ids [])
          ((fix go n cs := match cs with [] => [] | x :: cs' => debug_cst (fun p => ids (n :: p)) x :: go (S n) cs' end) O cs) l
    | CLeaf k v l => debug_leaf (cleaf_name k) (ids []) v l
    end.
End Debug.

(** * [Serialize] *)

(** tokens.rs 4-22: a variant with two fields is an array of them *)
Definition ser_token (t : token) : json :=
  variant (token_name (tk t))
    (match token_text (tk t) with Some s => JArr [JStr s; ser_loc (tl t)] | None => ser_loc (tl t) end).

(** cst.rs 7-45 *)
Fixpoint ser_cst (ids : list nat -> str) (c : cst) : json :=
  match c with
  | CInner k cs l =>
      variant (cinner_name k)
        (jobj [("id", JStr (ids []));
               ("children", JArr ((fix go n cs := match cs with [] => [] | x :: cs' => ser_cst (fun p => ids (n :: p)) x :: go (S n) cs' end) O cs));
               ("location", ser_loc l)]%string)
  | CLeaf k v l =>
      variant (cleaf_name k) (jobj [("id", JStr (ids [])); ("value", ser_option v); ("location", ser_loc l)]%string)
  end.

(** * [Deserialize] *)

Definition token_of (name : str) (s : option str) : option tkind :=
  find (fun k => str_eqb name (token_name k))
    (match s with
     | Some s => [TkText s; TkModule s; TkIdent s]
     | None => [TkEmpty; TkNewLine; TkWhiteSpace; TkDot; TkBackSlash; TkAngleOpen; TkAngleClose; TkSquareOpen; TkSquareClose;
                TkCurlyOpen; TkCurlyClose; TkComma; TkEOF]
     end).
Definition de_token (j : json) : res token :=
  let! (name, content) := de_enum j in
  match token_of name None, token_of name (Some []) with
  | Some k, _ => let! l := field de_loc content in Ok (mktok k l)
  | None, Some _ =>
      match content with
      | Some (JArr [s; l]) =>
          let! s := de_str s in
          let! l := de_loc l in
          match token_of name (Some s) with Some k => Ok (mktok k l) | None => Err [] end
      | _ => Err (lit "invalid type")
      end
  | None, None => Err (lit "unknown variant")
  end.

Definition cinner_of (name : str) : option ckind :=
  find (fun k => str_eqb name (cinner_name k)) [CDocument; CStmt; CExpr; CAngle; CCurly; CSquare; CBackSlash].
Definition cleaf_of (name : str) : option clkind :=
  find (fun k => str_eqb name (cleaf_name k))
    [LAngleOpen; LAngleClose; LSquareOpen; LSquareClose; LCurlyOpen; LCurlyClose; LModule; LIdent; LText; LWhitespace;
     LNewline; LDot; LComma; LEOF; LInvalid].
(** [fuel] bounds the recursion of the model only; the ids are read and dropped. *)
Fixpoint de_cst_go (fuel : nat) (j : json) : res cst :=
  match fuel with
  | O => Fuel
  | S fuel =>
      let! (name, content) := de_enum j in
      match cinner_of name, cleaf_of name with
      | Some k, _ =>
          let! fs := field (de_struct ["id"; "children"; "location"]%string) content in
          match fs with
          | [a; b; c] =>
              let! _ := field de_str a in
              let! cs := field (de_vec (de_cst_go fuel)) b in
              let! l := field de_loc c in
              Ok (CInner k cs l)
          | _ => Err []
          end
      | None, Some k =>
          let! fs := field (de_struct ["id"; "value"; "location"]%string) content in
          match fs with
          | [a; b; c] =>
              let! _ := field de_str a in
              let! v := optional b in
              let! l := field de_loc c in
              Ok (CLeaf k v l)
          | _ => Err []
          end
      | None, None => Err (lit "unknown variant")
      end
  end.
Definition de_cst (j : json) : res cst := de_cst_go (S (jdepth j)) j.

(** * What is printed: main.rs 60-120. Each [println!] adds a line feed. *)
Definition println (s : str) : str := s ++ [10%N].
Definition printed_text (shown : N -> bool) (ids : list nat -> str) (p : printed) : str :=
  match p with
  | PTokens true ts => println (print (JArr (map ser_token ts)))
  | PTokens false ts => concat (map (fun t => println (debug_token shown t)) ts)
  | PCst true c => println (print (ser_cst ids c))
  | PCst false c => println (debug_cst shown ids c)
  | PAst true a => println (print (ser_ast a))
  | PAst false a => println (debug_ast shown a)
  | PErrors es => concat (map (fun e => println (debug_error e)) es)
  | PText s => println s
  end.
