(** brack-tokenizer/src/tokens.rs *)
From Coq Require Import List NArith Arith.
From Verif Require Import Base.
Import ListNotations.

(** tokens.rs 24-28, [LocationData]. (Simplification: [usize] is [nat], no overflow.) *)
Record pos := mkpos { pline : nat; pchar : nat }.

(** tokens.rs 30-34, [Location]. *)
Record loc := mkloc { lstart : pos; lend : pos }.

(** tokens.rs 4-22, [Token], without its location. *)
Inductive tkind :=
| TkEmpty | TkText (s : str) | TkModule (s : str) | TkIdent (s : str)
| TkNewLine | TkWhiteSpace | TkDot | TkBackSlash
| TkAngleOpen | TkAngleClose | TkSquareOpen | TkSquareClose | TkCurlyOpen | TkCurlyClose
| TkComma | TkEOF.

(** tokens.rs 4-22: every variant carries exactly one [Location]; the model pairs
    it with the variant. *)
Record token := mktok { tk : tkind; tl : loc }.

(** tokens.rs 36-47 *)
Definition mock_location : loc := mkloc (mkpos 0 0) (mkpos 0 0).

(** tokens.rs 49-69. The comparison of an end *line* with an end *character* in the
    equal-line case (line 61) is as in the source. *)
Definition merge_location (l1 l2 : loc) : loc :=
  let start :=
    match Nat.compare (pline (lstart l1)) (pline (lstart l2)) with
    | Lt => lstart l1
    | Eq => match Nat.compare (pchar (lstart l1)) (pchar (lstart l2)) with
            | Lt => lstart l1
            | _ => lstart l2
            end
    | Gt => lstart l2
    end in
  let end_ :=
    match Nat.compare (pline (lend l1)) (pline (lend l2)) with
    | Lt => lend l2
    | Eq => match Nat.compare (pline (lend l1)) (pchar (lend l2)) with
            | Gt => lend l1
            | _ => lend l2
            end
    | Gt => lend l1
    end in
  mkloc start end_.

(** Decidable equalities used by examples. *)
Definition pos_eq_dec (a b : pos) : {a = b} + {a <> b}.
Proof. decide equality; apply Nat.eq_dec. Defined.
Definition loc_eq_dec (a b : loc) : {a = b} + {a <> b}.
Proof. decide equality; apply pos_eq_dec. Defined.
Definition tkind_eq_dec (a b : tkind) : {a = b} + {a <> b}.
Proof. decide equality; apply str_dec. Defined.
Definition token_eq_dec (a b : token) : {a = b} + {a <> b}.
Proof. decide equality; [apply loc_eq_dec | apply tkind_eq_dec]. Defined.
