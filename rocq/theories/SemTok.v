(** brack-language-server/src/request/semantic_tokens.rs *)
From Coq Require Import String List NArith ZArith Bool Lia.
From Verif Require Import Base Tokens.
Import ListNotations.
Local Open Scope N_scope.

(** [lsp_types::SemanticToken] *)
Record semtok := mksem {
  delta_line : N; delta_start : N; sem_length : N; token_type : N; token_modifiers_bitset : N }.

(** [n as u32] *)
Definition as_u32 (n : N) : N := n mod 4294967296.

(** [a - b] on [u32] and on [usize] *)
Definition sub_mod (m : N) (checks : bool) (a b : N) : res N :=
  if b <=? a then Ok (a - b)
  else if checks then Panic (lit "attempt to subtract with overflow")
  else Ok (a + m - b).
Definition u32_sub := sub_mod 4294967296.
Definition usize_sub := sub_mod 18446744073709551616.

(** semantic_tokens.rs 19-45, with the names of [lsp_types::SemanticTokenType]: the first
    name of the [match] that is equal gives the number, [8] otherwise. *)
Definition token_type_names : list (str * N) :=
  [(lit "namespace", 0); (lit "type", 1); (lit "class", 2); (lit "enum", 3); (lit "interface", 4);
   (lit "struct", 5); (lit "typeParameter", 6); (lit "parameter", 7); (lit "variable", 8);
   (lit "property", 9); (lit "enumMember", 10); (lit "event", 11); (lit "function", 12);
   (lit "method", 13); (lit "macro", 14); (lit "keyword", 15); (lit "modifier", 16);
   (lit "comment", 17); (lit "string", 18); (lit "number", 19); (lit "regexp", 20);
   (lit "operator", 21)].
Definition token_type_as_u32 (name : str) : N :=
  match find (fun p => str_eqb name (fst p)) token_type_names with
  | Some (_, n) => n
  | None => 8
  end.

(** semantic_tokens.rs 7-17 *)
Definition token_kind_to_type (k : tkind) : N :=
  match k with
  | TkModule _ => token_type_as_u32 (lit "namespace")
  | TkIdent _ => token_type_as_u32 (lit "variable")
  | TkAngleOpen | TkAngleClose => token_type_as_u32 (lit "macro")
  | TkCurlyOpen | TkCurlyClose => token_type_as_u32 (lit "method")
  | TkSquareOpen | TkSquareClose => token_type_as_u32 (lit "function")
  | _ => 100
  end.

(** semantic_tokens.rs 47-75. [checks]: arithmetic overflow panics (debug builds) or wraps. *)
Fixpoint separate_go (checks : bool) (prev_line prev_char : N) (tokens : list token)
  : res (list semtok) :=
  match tokens with
  | [] => Ok []
  | t :: tokens' =>
      let start_line := as_u32 (N.of_nat (pline (lstart (tl t)))) in
      let start_char := as_u32 (N.of_nat (pchar (lstart (tl t)))) in
      let! dl := u32_sub checks start_line prev_line in
      let! ds := if dl =? 0 then u32_sub checks start_char prev_char else Ok start_char in
      let! len := usize_sub checks (N.of_nat (pchar (lend (tl t)))) (N.of_nat (pchar (lstart (tl t)))) in
      let! rest := separate_go checks start_line start_char tokens' in
      Ok (mksem dl ds (as_u32 len) (token_kind_to_type (tk t)) 0 :: rest)
  end.
Definition separate (checks : bool) (tokens : list token) : res (list semtok) :=
  separate_go checks 0 0 tokens.

(** request.rs 54-78: the legend announced at initialize. *)
Definition legend : list str :=
  [lit "namespace"; lit "type"; lit "class"; lit "enum"; lit "interface"; lit "struct";
   lit "typeParameter"; lit "parameter"; lit "variable"; lit "property"; lit "enumMember";
   lit "event"; lit "function"; lit "method"; lit "macro"; lit "keyword"; lit "modifier";
   lit "comment"; lit "string"; lit "number"; lit "regexp"; lit "operator"; lit "decorator"].
