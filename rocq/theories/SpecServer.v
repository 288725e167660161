(** What the Language Server Protocol says about semantic tokens, independent of the code. *)
From Coq Require Import String List NArith ZArith Bool.
From Verif Require Import Base Tokens SpecTok SemTok.
Import ListNotations.
Local Open Scope N_scope.

(** Decoding: lines are relative to the line of the previous token, columns to its start if
    both are on the same line. Result: line, start column, length, type. *)
Fixpoint decode (line char : N) (ts : list semtok) : list (N * N * N * N) :=
  match ts with
  | [] => []
  | t :: ts' =>
      let char := if delta_line t =? 0 then char + delta_start t else delta_start t in
      let line := line + delta_line t in
      (line, char, sem_length t, token_type t) :: decode line char ts'
  end.

(** What should come out for a token: its line, start and width. *)
Definition span (t : token) : N * N * N :=
  (N.of_nat (pline (lstart (tl t))), N.of_nat (pchar (lstart (tl t))),
   N.of_nat (pchar (lend (tl t)) - pchar (lstart (tl t)))).

(** The name under which a kind of token is shown. *)
Definition shown_as (k : tkind) : option str :=
  match k with
  | TkModule _ => Some (lit "namespace")
  | TkIdent _ => Some (lit "variable")
  | TkAngleOpen | TkAngleClose => Some (lit "macro")
  | TkCurlyOpen | TkCurlyClose => Some (lit "method")
  | TkSquareOpen | TkSquareClose => Some (lit "function")
  | _ => None
  end.

(** Columns of the protocol are UTF-16 code units. *)
Definition utf16_length (s : str) : N :=
  fold_right (fun c n => (if c <? 0x10000 then 1 else 2) + n) 0 s.
Definition utf16_position (s : str) : N * N :=
  (N.of_nat (count_occ N.eq_dec s 10), utf16_length (after_lf s)).
