(** Specification vocabulary for token lists. Nothing here uses the tokenizer model. *)
From Coq Require Import String List NArith ZArith Arith Bool.
From Verif Require Import Base Tokens.
Import ListNotations.

(** The source characters a token stands for. *)
Definition tok_src (k : tkind) : str :=
  match k with
  | TkEmpty => []
  | TkText s | TkModule s | TkIdent s => s
  | TkNewLine => [10%N] | TkWhiteSpace => lit " " | TkDot => lit "." | TkBackSlash => lit "\"
  | TkAngleOpen => lit "<" | TkAngleClose => lit ">"
  | TkSquareOpen => lit "[" | TkSquareClose => lit "]"
  | TkCurlyOpen => lit "{" | TkCurlyClose => lit "}"
  | TkComma => lit "," | TkEOF => []
  end.

Definition source (ts : list token) : str := concat (map (fun t => tok_src (tk t)) ts).

(** The ranges of [ts] tile the text from position (l, c) on: each token lies on one line, is
    [width] of its source wide and starts where the previous one ended; after a newline token
    the next one starts the next line. *)
Fixpoint tiled (width : str -> nat) (l c : nat) (ts : list token) : Prop :=
  match ts with
  | [] => True
  | t :: ts' =>
    let w := width (tok_src (tk t)) in
    tl t = mkloc (mkpos l c) (mkpos l (c + w)) /\
    match tk t with
    | TkNewLine => tiled width (S l) 0 ts'
    | _ => tiled width l (c + w) ts'
    end
  end.

(** The part of a text after its last line feed. *)
Fixpoint after_lf (s : str) : str :=
  match s with
  | [] => []
  | c :: s' => if existsb (N.eqb 10) s' then after_lf s'
               else if N.eqb c 10 then s' else c :: s'
  end.

(** The line/column reached after reading [s]: lines are counted in line feeds,
    columns in grapheme clusters. *)
Definition true_pos (seg : str -> list str) (s : str) : pos :=
  mkpos (count_occ N.eq_dec s 10%N) (length (seg (after_lf s))).

(** Every line feed of these tokens is a newline token. *)
Definition own_lines (ts : list token) : Prop :=
  forall t, In t ts -> tk t <> TkNewLine -> ~ In 10%N (tok_src (tk t)).

(** [w] occurs in [s]. *)
Definition occurs (w s : str) : Prop := exists a b, s = a ++ w ++ b.

Definition markup : list N := lit "<>{}[]\".

(** The characters that never are ordinary text: brackets, backslash, line feed, NUL. *)
Definition special (c : N) : Prop := In c (markup ++ [10; 0]%N).

Definition opening (k : tkind) : bool :=
  match k with TkAngleOpen | TkSquareOpen | TkCurlyOpen => true | _ => false end.
Definition closing (k : tkind) : bool :=
  match k with TkAngleClose | TkSquareClose | TkCurlyClose => true | _ => false end.
Definition newline (k : tkind) : bool := match k with TkNewLine => true | _ => false end.

Definition countk (f : tkind -> bool) (ts : list token) : nat :=
  length (filter (fun t => f (tk t)) ts).

(** A command was opened and its name has not been read yet. *)
Definition pending (ts : list token) : bool :=
  fold_left (fun b t => match tk t with
                        | TkAngleOpen | TkSquareOpen | TkCurlyOpen => true
                        | TkIdent _ => false
                        | _ => b
                        end) ts false.

(** Move a token [dl] lines down and, if it is on the first line, [dc] columns right. *)
Definition shift_pos (dl dc : nat) (p : pos) : pos :=
  mkpos (pline p + dl) (if pline p =? 0 then pchar p + dc else pchar p).
Definition shift_tok (dl dc : nat) (t : token) : token :=
  mktok (tk t) (mkloc (shift_pos dl dc (lstart (tl t))) (shift_pos dl dc (lend (tl t)))).

(** Tokens of plain lines. *)
Definition line_kinds (l : str) : list tkind := match l with [] => [] | _ => [TkText l] end.
Fixpoint lines_kinds (ls : list str) : list tkind :=
  match ls with
  | [] => [TkEOF]
  | [l] => line_kinds l ++ [TkEOF]
  | l :: ls' => line_kinds l ++ TkNewLine :: lines_kinds ls'
  end.
Fixpoint join_lines (ls : list str) : str :=
  match ls with
  | [] => []
  | [l] => l
  | l :: ls' => l ++ 10%N :: join_lines ls'
  end.

(** The clusters before the first NUL. *)
Fixpoint until_nul (gs : list str) : list str :=
  match gs with
  | [] => []
  | g :: gs' => if str_eqb g [0%N] then [] else g :: until_nul gs'
  end.

(** The number of bracket characters of a text. *)
Definition brackets (s : str) : nat := length (filter (fun c => existsb (N.eqb c) (lit "<>{}[]")) s).
