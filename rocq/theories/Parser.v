(** brack-parser: the parsers, over token lists ([&tokens[1..]] is the tail). *)
From Coq Require Import String List NArith Bool.
From Verif Require Import Base Tokens CST.
Import ListNotations.

(** parser.rs 4 *)
Definition parser := res (cst * list token).

(** [if let Ok(x) = m { a } else { b }]: an error selects the other branch, a panic propagates. *)
Notation "'iflet' x := m 'then' a 'else' b" :=
  (match m with Ok x => a | Err _ => b | Panic e => Panic e | Fuel => Fuel end)
  (at level 200, x pattern, m at level 100, a at level 200, b at level 200).

(** eof.rs 7-17 *)
Definition eof_parse (ts : list token) : parser :=
  match ts with
  | mktok TkEOF l :: ts' => Ok (new_eof l, ts')
  | _ => Err (lit "Expected eof")
  end.

(** newline.rs 7-17 *)
Definition newline_parse (ts : list token) : parser :=
  match ts with
  | mktok TkNewLine l :: ts' => Ok (new_newline l, ts')
  | _ => Err (lit "Expected newline")
  end.

(** text.rs 7-17 *)
Definition text_parse (ts : list token) : parser :=
  match ts with
  | mktok (TkText v) l :: ts' => Ok (new_text v l, ts')
  | _ => Err (lit "Expected text token")
  end.

(** modules.rs 7-17 *)
Definition module_parse (ts : list token) : parser :=
  match ts with
  | mktok (TkModule v) l :: ts' => Ok (new_module v l, ts')
  | _ => Err (lit "Expected module token")
  end.

(** ident.rs 7-17 *)
Definition ident_parse (ts : list token) : parser :=
  match ts with
  | mktok (TkIdent v) l :: ts' => Ok (new_ident v l, ts')
  | _ => Err (lit "Expected ident token")
  end.

(** dot.rs 6-16 *)
Definition dot_parse (ts : list token) : parser :=
  match ts with
  | mktok TkDot l :: ts' => Ok (new_dot l, ts')
  | _ => Err (lit "Expected dot token")
  end.

(** comma.rs 6-16 *)
Definition comma_parse (ts : list token) : parser :=
  match ts with
  | mktok TkComma l :: ts' => Ok (new_comma l, ts')
  | _ => Err (lit "Expected comma token")
  end.

(** whitespace.rs 6-16 *)
Definition whitespace_parse (ts : list token) : parser :=
  match ts with
  | mktok TkWhiteSpace l :: ts' => Ok (new_whitespace l, ts')
  | _ => Err (lit "Expected whitespace token")
  end.

(** bracket_close.rs 10-26 *)
Definition bracket_close_parse (ts : list token) : parser :=
  match ts with
  | mktok TkAngleClose l :: ts' => Ok (new_angle_close l, ts')
  | mktok TkSquareClose l :: ts' => Ok (new_square_close l, ts')
  | mktok TkCurlyClose l :: ts' => Ok (new_curly_close l, ts')
  | _ => Err (lit "Expected bracket close token")
  end.

(** escaped.rs 19-57: the text of an escapable token *)
Definition escapable (k : tkind) : option str :=
  match k with
  | TkBackSlash => Some (lit "\")
  | TkAngleOpen => Some (lit "<") | TkAngleClose => Some (lit ">")
  | TkCurlyOpen => Some (lit "{") | TkCurlyClose => Some (lit "}")
  | TkSquareOpen => Some (lit "[") | TkSquareClose => Some (lit "]")
  | TkDot => Some (lit ".") | TkComma => Some (lit ",")
  | _ => None
  end.

(** escaped.rs 13-77. The last token being a backslash reaches [&tokens[1..]] on an empty
    slice (line 71), a panic. *)
Definition escaped_parse (ts : list token) : parser :=
  match ts with
  | mktok TkBackSlash l :: ts1 =>
    match ts1 with
    | t :: ts2 =>
      match escapable (tk t) with
      | Some s => Ok (CInner CBackSlash [new_text s (tl t)] l, ts2)
      | None => Ok (CInner CBackSlash [] l, ts1)
      end
    | [] => Panic (lit "range start index 1 out of range for slice of length 0")
    end
  | _ => Err (lit "Expected backslash")
  end.

(** The three bracket parsers differ only in the kind of node and of the two brackets:
    angle.rs 11-80, curly.rs 11-80, square.rs 11-80. The model has one function
    with the kind as parameter. *)
Inductive bkind := KAngle | KCurly | KSquare.
Definition b_node (b : bkind) : cst :=
  match b with KAngle => new_angle | KCurly => new_curly | KSquare => new_square end.

(** angle.rs 57-67, curly.rs 57-67, square.rs 57-67 *)
Definition b_open_parse (b : bkind) (ts : list token) : parser :=
  match b, ts with
  | KAngle, mktok TkAngleOpen l :: ts' => Ok (new_angle_open l, ts')
  | KCurly, mktok TkCurlyOpen l :: ts' => Ok (new_curly_open l, ts')
  | KSquare, mktok TkSquareOpen l :: ts' => Ok (new_square_open l, ts')
  | _, _ => Err (lit "Expected bracket open token")
  end.

(** angle.rs 70-80, curly.rs 70-80, square.rs 70-80 *)
Definition b_close_parse (b : bkind) (ts : list token) : parser :=
  match b, ts with
  | KAngle, mktok TkAngleClose l :: ts' => Ok (new_angle_close l, ts')
  | KCurly, mktok TkCurlyClose l :: ts' => Ok (new_curly_close l, ts')
  | KSquare, mktok TkSquareClose l :: ts' => Ok (new_square_close l, ts')
  | _, _ => Err (lit "Expected bracket close token")
  end.

(** expr.rs 43-53: after the loop *)
Definition expr_finish (expr : cst) (ts : list token) : parser :=
  let! cs := cst_children expr in
  match cs with
  | [] => Err (lit "Expected escaped, module, ident, bracket, dot, comma, whitespace, or text, found none")
  | c :: _ =>
    Ok (cst_set_location expr (mkloc (lstart (cst_location c)) (lend (cst_location (last cs c)))), ts)
  end.

Fixpoint
  (** expr.rs 13-41: one iteration of the loop per unit of fuel *)
  expr_loop (fuel : nat) (expr : cst) (ts : list token) {struct fuel} : parser :=
  match fuel with
  | O => Fuel
  | S n =>
    iflet (c, ts') := escaped_parse ts then let! e := cst_add expr c in expr_loop n e ts'
    else iflet (c, ts') := module_parse ts then let! e := cst_add expr c in expr_loop n e ts'
    else iflet (c, ts') := ident_parse ts then let! e := cst_add expr c in expr_loop n e ts'
    else iflet (c, ts') := bracket_parse n ts then let! e := cst_add expr c in expr_loop n e ts'
    else iflet (c, ts') := dot_parse ts then let! e := cst_add expr c in expr_loop n e ts'
    else iflet (c, ts') := comma_parse ts then let! e := cst_add expr c in expr_loop n e ts'
    else iflet (c, ts') := whitespace_parse ts then let! e := cst_add expr c in expr_loop n e ts'
    else iflet (c, ts') := text_parse ts then let! e := cst_add expr c in expr_loop n e ts'
    else Ok (expr, ts)
  end
with
  (** bracket.rs 7-16 *)
  bracket_parse (fuel : nat) (ts : list token) {struct fuel} : parser :=
  match fuel with
  | O => Fuel
  | S n =>
    iflet r := b_parse n KAngle ts then Ok r
    else iflet r := b_parse n KCurly ts then Ok r
    else iflet r := b_parse n KSquare ts then Ok r
    else Err (lit "Expected angle, curly, or square bracket, found none")
  end
with
  (** angle.rs 11-54, curly.rs 11-54, square.rs 11-54 *)
  b_parse (fuel : nat) (b : bkind) (ts : list token) {struct fuel} : parser :=
  match fuel with
  | O => Fuel
  | S n =>
    match ts with
    | [] => Err (lit "Expected bracket open token, found none")
    | t :: _ =>
      let! (c, ts1) := b_open_parse b ts in
      let! r := cst_add (b_node b) c in
      let! (r, ts2) := b_loop n r ts1 in
      match ts2 with
      | [] => Err (lit "Expected even at worst EOF, found none")
      | t2 :: _ =>
        let! (r, ts3) :=
          (iflet (c, ts3) := b_close_parse b ts2 then let! r := cst_add r c in Ok (r, ts3)
           else Ok (r, ts2)) in
        Ok (cst_set_location r (mkloc (lstart (tl t)) (lend (tl t2))), ts3)
      end
    end
  end
with
  (** angle.rs 23-33, curly.rs 23-33, square.rs 23-33; [expr::parse] is inlined (expr.rs 9-54) *)
  b_loop (fuel : nat) (r : cst) (ts : list token) {struct fuel} : parser :=
  match fuel with
  | O => Fuel
  | S n =>
    iflet (c, ts') := (let! (e, ts') := expr_loop n new_expr ts in expr_finish e ts')
      then let! r := cst_add r c in b_loop n r ts'
    else iflet (c, ts') := newline_parse ts then let! r := cst_add r c in b_loop n r ts'
    else Ok (r, ts)
  end.

(** Fuel that always suffices for the tokens [ts] (theorem [parse_safe] in ParserTotal.v). *)
Definition fuel_for (ts : list token) : nat := 4 * length ts + 4.

(** expr.rs 9-54 *)
Definition expr_parse (ts : list token) : parser :=
  let! (e, ts') := expr_loop (fuel_for ts) new_expr ts in expr_finish e ts'.

(** expr_or_close.rs 7-14 *)
Definition expr_or_close_parse (ts : list token) : parser :=
  iflet r := expr_parse ts then Ok r
  else iflet r := bracket_close_parse ts then Ok r
  else Err (lit "Expected expr or bracket close, found none").

(** stmt.rs 11-21 *)
Fixpoint stmt_loop (fuel : nat) (stmt : cst) (ts : list token) : parser :=
  match fuel with
  | O => Fuel
  | S n =>
    iflet (c1, ts1) := newline_parse ts
    then (iflet (c2, ts2) := expr_or_close_parse ts1
          then let! s := cst_add stmt c1 in let! s := cst_add s c2 in stmt_loop n s ts2
          else Ok (stmt, ts))
    else Ok (stmt, ts)
  end.

(** stmt.rs 6-24 *)
Definition stmt_parse (ts : list token) : parser :=
  let! (c, ts1) := expr_or_close_parse ts in
  let! s := cst_add new_stmt c in
  stmt_loop (S (length ts1)) s ts1.

(** parse.rs 32-35 and 48-51: [while let Ok(..) = newline::parse(..)], collecting the leaves.
    Structural on the tokens, so no fuel. *)
Fixpoint newlines_loop (ts : list token) : list cst * list token :=
  match ts with
  | mktok TkNewLine l :: ts' => let (cs, r) := newlines_loop ts' in (new_newline l :: cs, r)
  | _ => ([], ts)
  end.

(** [for cst1 in csts { cst.add(cst1); }], parse.rs 38-40 *)
Fixpoint add_all (c : cst) (cs : list cst) : res cst :=
  match cs with
  | [] => Ok c
  | x :: cs' => let! c' := cst_add c x in add_all c' cs'
  end.

(** parse.rs 14-41 *)
Fixpoint document_loop (fuel : nat) (doc : cst) (ts : list token) : parser :=
  match fuel with
  | O => Fuel
  | S n =>
    iflet (c1, ts1) := stmt_parse ts
    then (iflet (c2, ts2) := newline_parse ts1
          then let (cs3, ts3) := newlines_loop ts2 in
               let! d := add_all doc (c1 :: c2 :: cs3) in document_loop n d ts3
          else Ok (doc, ts))
    else Ok (doc, ts)
  end.

(** parse.rs 10-57 *)
Definition parse (ts : list token) : res cst :=
  let! (d, ts1) := document_loop (S (length ts)) new_document ts in
  let! (d, ts2) :=
    (iflet (c1, ts2) := stmt_parse ts1 then let! d := cst_add d c1 in Ok (d, ts2) else Ok (d, ts1)) in
  let (cs, ts3) := newlines_loop ts2 in
  let! d := add_all d cs in
  let! (c, _) := eof_parse ts3 in
  cst_add d c.
