(** brack-tokenizer: the tokenizer state, the handlers and [dispatch]. *)
From Coq Require Import String List NArith ZArith Bool.
From Verif Require Import Base Tokens Graphemes.
Import ListNotations.

(** tokenizer.rs 3-17. (Simplification: [uri] is dropped, nothing reads it; the [i32]
    counters are [Z].) *)
Record tokenizer := mkT {
  t_line : option nat;
  t_column : option nat;
  t_start_line : option nat;
  t_start_column : option nat;
  t_untreated : option str;
  t_pool : option str;
  t_tokens : option (list token);
  t_angle : option Z;
  t_square : option Z;
  t_curly : option Z;
  t_look : option bool
}.

(** [#[derive(Default)]], tokenizer.rs 3 *)
Definition t_default : tokenizer :=
  mkT None None None None None None None None None None None.

(** [match other.x { Some(s) => Some(s), None => self.x }], tokenizer.rs 23-66 *)
Definition or_self {A} (o s : option A) : option A :=
  match o with Some x => Some x | None => s end.

(** tokenizer.rs 20-68 *)
Definition merge (self other : tokenizer) : tokenizer :=
  mkT (or_self (t_line other) (t_line self))
      (or_self (t_column other) (t_column self))
      (or_self (t_start_line other) (t_start_line self))
      (or_self (t_start_column other) (t_start_column self))
      (or_self (t_untreated other) (t_untreated self))
      (or_self (t_pool other) (t_pool self))
      (or_self (t_tokens other) (t_tokens self))
      (or_self (t_angle other) (t_angle self))
      (or_self (t_square other) (t_square self))
      (or_self (t_curly other) (t_curly self))
      (or_self (t_look other) (t_look self)).

(** ["\0"] *)
Definition nul : str := [NUL].

(** utils.rs 3-15 *)
Definition separate (seg : str -> list str) (s : str) : str * str :=
  match seg s with
  | [] => (nul, [])
  | [g] => (g, [])
  | g :: gs => (g, concat gs)
  end.

(** A one-column range on the current line; every single-character handler builds it
    (e.g. dot.rs 27-36). *)
Definition unit_loc (line column : nat) : loc :=
  mkloc (mkpos line column) (mkpos line (column + 1)).

Section Handlers.
  Variable seg : str -> list str.
  (** the recursive call [dispatch(&t.merge(&t2))] *)
  Variable k : tokenizer -> res (list token).

  (** text.rs 9-60 *)
  Definition text_tokenize (t : tokenizer) : res (list token) :=
    let! s := ok_or (t_untreated t) "`t.untreated` is not set" in
    let (head, tail) := separate seg s in
    let! pool := ok_or (t_pool t) "`t.pool` is not set" in
    let pool := (pool ++ head) in
    let! tokens := ok_or (t_tokens t) "`t.tokens` is not set" in
    let! sl := ok_or (t_start_line t) "`t.token_start_line` is not set" in
    let! sc := ok_or (t_start_column t) "`t.token_start_column` is not set" in
    let! line := ok_or (t_line t) "`t.line` is not set" in
    let! column := ok_or (t_column t) "`t.column` is not set" in
    let tokens := (tokens ++ [mktok (TkText pool) (mkloc (mkpos sl sc) (mkpos line (column + 1)))]) in
    k (merge t (mkT None (Some (column + 1)) None (Some (column + 1)) (Some tail) (Some []) (Some tokens)
                    None None None None)).

  (** identifier.rs 9-62 *)
  Definition identifier_tokenize (t : tokenizer) : res (list token) :=
    let! s := ok_or (t_untreated t) "`t.untreated` is not set" in
    let (head, tail) := separate seg s in
    let! pool := ok_or (t_pool t) "`t.pool` is not set" in
    let pool := (pool ++ head) in
    let! tokens := ok_or (t_tokens t) "`t.tokens` is not set" in
    let! sl := ok_or (t_start_line t) "`t.token_start_line` is not set" in
    let! sc := ok_or (t_start_column t) "`t.token_start_column` is not set" in
    let! line := ok_or (t_line t) "`t.line` is not set" in
    let! column := ok_or (t_column t) "`t.column` is not set" in
    let tokens := (tokens ++ [mktok (TkIdent pool) (mkloc (mkpos sl sc) (mkpos line (column + 1)))]) in
    k (merge t (mkT None (Some (column + 1)) None (Some (column + 1)) (Some tail) (Some []) (Some tokens)
                    None None None (Some false))).

  (** module.rs 9-60 *)
  Definition module_tokenize (t : tokenizer) : res (list token) :=
    let! s := ok_or (t_untreated t) "`t.untreated` is not set" in
    let (head, tail) := separate seg s in
    let! pool := ok_or (t_pool t) "`t.pool` is not set" in
    let pool := (pool ++ head) in
    let! tokens := ok_or (t_tokens t) "`t.tokens` is not set" in
    let! sl := ok_or (t_start_line t) "`t.token_start_line` is not set" in
    let! sc := ok_or (t_start_column t) "`t.token_start_column` is not set" in
    let! line := ok_or (t_line t) "`t.line` is not set" in
    let! column := ok_or (t_column t) "`t.column` is not set" in
    let tokens := (tokens ++ [mktok (TkModule pool) (mkloc (mkpos sl sc) (mkpos line (column + 1)))]) in
    k (merge t (mkT None (Some (column + 1)) None (Some (column + 1)) (Some tail) (Some []) (Some tokens)
                    None None None None)).

  (** newline.rs 9-48 *)
  Definition newline_tokenize (t : tokenizer) : res (list token) :=
    let! s := ok_or (t_untreated t) "`t.untreated` is not set" in
    let! line := ok_or (t_line t) "`t.line` is not set" in
    let! column := ok_or (t_column t) "`t.column` is not set" in
    let (_, tail) := separate seg s in
    let! tokens := ok_or (t_tokens t) "`t.tokens` is not set" in
    let tokens := (tokens ++ [mktok TkNewLine (unit_loc line column)]) in
    k (merge t (mkT (Some (line + 1)) (Some 0) (Some (line + 1)) (Some 0) (Some tail) (Some []) (Some tokens)
                    None None None None)).

  (** backslash.rs 9-45: [pool] is not reset *)
  Definition backslash_tokenize (t : tokenizer) : res (list token) :=
    let! s := ok_or (t_untreated t) "`t.untreated` is not set" in
    let (_, tail) := separate seg s in
    let! tokens := ok_or (t_tokens t) "`t.tokens` is not set" in
    let! line := ok_or (t_line t) "`t.line` is not set" in
    let! column := ok_or (t_column t) "`t.column` is not set" in
    let tokens := (tokens ++ [mktok TkBackSlash (unit_loc line column)]) in
    k (merge t (mkT None (Some (column + 1)) None (Some (column + 1)) (Some tail) None (Some tokens)
                    None None None None)).

  (** angle_bracket_open.rs 9-52 *)
  Definition angle_open_tokenize (t : tokenizer) : res (list token) :=
    let! s := ok_or (t_untreated t) "`t.untreated` is not set" in
    let (_, tail) := separate seg s in
    let! tokens := ok_or (t_tokens t) "`t.tokens` is not set" in
    let! line := ok_or (t_line t) "`t.line` is not set" in
    let! column := ok_or (t_column t) "`t.column` is not set" in
    let! c := ok_or (t_angle t) "`t.angle_nest_count` is not set" in
    let tokens := (tokens ++ [mktok TkAngleOpen (unit_loc line column)]) in
    k (merge t (mkT None (Some (column + 1)) None (Some (column + 1)) (Some tail) (Some []) (Some tokens)
                    (Some (c + 1)%Z) None None (Some true))).

  (** angle_bracket_close.rs 9-51 *)
  Definition angle_close_tokenize (t : tokenizer) : res (list token) :=
    let! s := ok_or (t_untreated t) "`t.untreated` is not set" in
    let (_, tail) := separate seg s in
    let! tokens := ok_or (t_tokens t) "`t.tokens` is not set" in
    let! line := ok_or (t_line t) "`t.line` is not set" in
    let! column := ok_or (t_column t) "`t.column` is not set" in
    let! c := ok_or (t_angle t) "`t.angle_nest_count` is not set" in
    let tokens := (tokens ++ [mktok TkAngleClose (unit_loc line column)]) in
    k (merge t (mkT None (Some (column + 1)) None (Some (column + 1)) (Some tail) (Some []) (Some tokens)
                    (Some (c - 1)%Z) None None None)).

  (** curly_bracket_open.rs 9-52 *)
  Definition curly_open_tokenize (t : tokenizer) : res (list token) :=
    let! s := ok_or (t_untreated t) "`t.untreated` is not set" in
    let (_, tail) := separate seg s in
    let! tokens := ok_or (t_tokens t) "`t.tokens` is not set" in
    let! line := ok_or (t_line t) "`t.line` is not set" in
    let! column := ok_or (t_column t) "`t.column` is not set" in
    let! c := ok_or (t_curly t) "`t.curly_nest_count` is not set" in
    let tokens := (tokens ++ [mktok TkCurlyOpen (unit_loc line column)]) in
    k (merge t (mkT None (Some (column + 1)) None (Some (column + 1)) (Some tail) (Some []) (Some tokens)
                    None None (Some (c + 1)%Z) (Some true))).

  (** curly_bracket_close.rs 9-51 *)
  Definition curly_close_tokenize (t : tokenizer) : res (list token) :=
    let! s := ok_or (t_untreated t) "`t.untreated` is not set" in
    let (_, tail) := separate seg s in
    let! tokens := ok_or (t_tokens t) "`t.tokens` is not set" in
    let! line := ok_or (t_line t) "`t.line` is not set" in
    let! column := ok_or (t_column t) "`t.column` is not set" in
    let! c := ok_or (t_curly t) "`t.curly_nest_count` is not set" in
    let tokens := (tokens ++ [mktok TkCurlyClose (unit_loc line column)]) in
    k (merge t (mkT None (Some (column + 1)) None (Some (column + 1)) (Some tail) (Some []) (Some tokens)
                    None None (Some (c - 1)%Z) None)).

  (** square_bracket_open.rs 9-52 *)
  Definition square_open_tokenize (t : tokenizer) : res (list token) :=
    let! s := ok_or (t_untreated t) "`t.untreated` is not set" in
    let (_, tail) := separate seg s in
    let! tokens := ok_or (t_tokens t) "`t.tokens` is not set" in
    let! line := ok_or (t_line t) "`t.line` is not set" in
    let! column := ok_or (t_column t) "`t.column` is not set" in
    let! c := ok_or (t_square t) "`t.square_nest_count` is not set" in
    let tokens := (tokens ++ [mktok TkSquareOpen (unit_loc line column)]) in
    k (merge t (mkT None (Some (column + 1)) None (Some (column + 1)) (Some tail) (Some []) (Some tokens)
                    None (Some (c + 1)%Z) None (Some true))).

  (** square_bracket_close.rs 9-51 *)
  Definition square_close_tokenize (t : tokenizer) : res (list token) :=
    let! s := ok_or (t_untreated t) "`t.untreated` is not set" in
    let (_, tail) := separate seg s in
    let! tokens := ok_or (t_tokens t) "`t.tokens` is not set" in
    let! line := ok_or (t_line t) "`t.line` is not set" in
    let! column := ok_or (t_column t) "`t.column` is not set" in
    let! c := ok_or (t_square t) "`t.square_nest_count` is not set" in
    let tokens := (tokens ++ [mktok TkSquareClose (unit_loc line column)]) in
    k (merge t (mkT None (Some (column + 1)) None (Some (column + 1)) (Some tail) (Some []) (Some tokens)
                    None (Some (c - 1)%Z) None None)).

  (** dot.rs 9-47, comma.rs 9-47, whitespace.rs 9-47 are the same function up to the
      token pushed, which is the parameter [kind] here. *)
  Definition single_tokenize (kind : tkind) (t : tokenizer) : res (list token) :=
    let! s := ok_or (t_untreated t) "`t.untreated` is not set" in
    let (_, tail) := separate seg s in
    let! tokens := ok_or (t_tokens t) "`t.tokens` is not set" in
    let! line := ok_or (t_line t) "`t.line` is not set" in
    let! column := ok_or (t_column t) "`t.column` is not set" in
    let tokens := (tokens ++ [mktok kind (unit_loc line column)]) in
    k (merge t (mkT None (Some (column + 1)) None (Some (column + 1)) (Some tail) (Some []) (Some tokens)
                    None None None None)).

  Definition dot_tokenize := single_tokenize TkDot.            (* dot.rs 9-47 *)
  Definition comma_tokenize := single_tokenize TkComma.        (* comma.rs 9-47 *)
  Definition whitespace_tokenize := single_tokenize TkWhiteSpace. (* whitespace.rs 9-47 *)
End Handlers.

(** The string patterns of dispatch.rs 66-87: which of the tested literals a grapheme is. *)
Inductive gcls :=
| GBack | GLt | GGt | GLBrace | GRBrace | GLBrack | GRBrack
| GDot | GComma | GSpace | GNl | GNul | GOther.

Definition cls (g : str) : gcls :=
  match g with
  | [c] =>
    match c with
    | 92%N => GBack | 60%N => GLt | 62%N => GGt | 123%N => GLBrace | 125%N => GRBrace
    | 91%N => GLBrack | 93%N => GRBrack | 46%N => GDot | 44%N => GComma | 32%N => GSpace
    | 10%N => GNl | 0%N => GNul | _ => GOther
    end
  | _ => GOther
  end.

(** The arms of the [match] of dispatch.rs 66-97. *)
Inductive arm :=
| ABack | AIdent | AAngleO | AAngleC | ACurlyO | ACurlyC | ASquareO | ASquareC
| ADot | AComma | ASpace | ANl | AModule | AText | APush.

Definition gcls_eqb (a b : gcls) : bool :=
  match a, b with
  | GBack, GBack | GLt, GLt | GGt, GGt | GLBrace, GLBrace | GRBrace, GRBrace
  | GLBrack, GLBrack | GRBrack, GRBrack | GDot, GDot | GComma, GComma | GSpace, GSpace
  | GNl, GNl | GNul, GNul | GOther, GOther => true
  | _, _ => false
  end.

(** dispatch.rs 66-97: the arms in source order; the first that applies is taken. *)
Definition choose (head head2 : gcls) (look nested : bool) : arm :=
  let h := gcls_eqb head in
  let h2 := gcls_eqb head2 in
  if h GBack then ABack
  else if h2 GGt && look then AIdent
  else if h2 GRBrace && look then AIdent
  else if h2 GRBrack && look then AIdent
  else if h GLt then AAngleO
  else if h GGt then AAngleC
  else if h GLBrace then ACurlyO
  else if h GRBrace then ACurlyC
  else if h GLBrack then ASquareO
  else if h GRBrack then ASquareC
  else if h GDot && nested then ADot
  else if h GComma && nested then AComma
  else if h GSpace && nested then ASpace
  else if h GNl then ANl
  else if h2 GSpace && look then AIdent
  else if h2 GDot && look then AModule
  else if h2 GLt || h2 GLBrace || h2 GLBrack || h2 GNl || h2 GNul then AText
  else if h2 GSpace && nested then AText
  else if h2 GComma && nested then AText
  else if h2 GDot && nested then AText
  else if h2 GGt || h2 GRBrack || h2 GRBrace || h2 GBack then AText
  else APush.

(** dispatch.rs 12-98, one call; [k] is the recursive call, made by the handlers and by lines 88-96. *)
Definition dispatch_step (seg : str -> list str) (k : tokenizer -> res (list token)) (t : tokenizer) : res (list token) :=
  let! s := ok_or (t_untreated t) "`t.untreated` is not set" in
  let! pool := ok_or (t_pool t) "`t.pool` is not set" in
  let! column := ok_or (t_column t) "`t.column` is not set" in
  let (head, tail) := separate seg s in
  if gcls_eqb (cls head) GNul then
    let! tokens := ok_or (t_tokens t) "`t.tokens` is not set" in
    let! line := ok_or (t_line t) "`t.line` is not set" in
    let! column := ok_or (t_column t) "`t.column` is not set" in
    Ok (tokens ++ [mktok TkEOF (mkloc (mkpos line column) (mkpos line column))])
  else
    let (head2, _) := separate seg tail in
    let! angle_c := ok_or (t_angle t) "`t.angle_nest_count` is not set" in
    let! curly_c := ok_or (t_curly t) "`t.curly_nest_count` is not set" in
    let! square_c := ok_or (t_square t) "`t.square_nest_count` is not set" in
    let! look := ok_or (t_look t) "`t.looking_for_identifier` is not set" in
    let nested := (angle_c + curly_c + square_c >? 0)%Z in
    match choose (cls head) (cls head2) look nested with
    | ABack => backslash_tokenize seg k t
    | AIdent => identifier_tokenize seg k t
    | AAngleO => angle_open_tokenize seg k t
    | AAngleC => angle_close_tokenize seg k t
    | ACurlyO => curly_open_tokenize seg k t
    | ACurlyC => curly_close_tokenize seg k t
    | ASquareO => square_open_tokenize seg k t
    | ASquareC => square_close_tokenize seg k t
    | ADot => dot_tokenize seg k t
    | AComma => comma_tokenize seg k t
    | ASpace => whitespace_tokenize seg k t
    | ANl => newline_tokenize seg k t
    | AModule => module_tokenize seg k t
    | AText => text_tokenize seg k t
    | APush =>
      k (merge t (mkT None (Some (column + 1)) None None (Some tail) (Some (pool ++ head)) None
                      None None None None))
    end.

(** The recursion is on fuel; [tokenize_str] passes enough (one unit per scalar value plus one), and
    [tokenize_run] in TokenizerRun.v excludes [Fuel]. *)
Fixpoint dispatch (seg : str -> list str) (fuel : nat) (t : tokenizer) : res (list token) :=
  match fuel with
  | O => Fuel
  | S fuel' => dispatch_step seg (dispatch seg fuel') t
  end.

(** tokenize.rs 14-27 *)
Definition t_start (text : str) : tokenizer :=
  mkT (Some 0) (Some 0) (Some 0) (Some 0) (Some text) (Some []) (Some [])
      (Some 0%Z) (Some 0%Z) (Some 0%Z) (Some false).

(** tokenize.rs 13-29 *)
Definition tokenize_str (seg : str -> list str) (text : str) : res (list token) :=
  dispatch seg (S (length text)) (t_start text).
