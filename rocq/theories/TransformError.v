(** brack-transformer/src/error.rs *)
From Coq Require Import String List NArith.
From Verif Require Import Base Tokens.
Import ListNotations.

(** error.rs 6-22, the variants of [TransformError] without their location. *)
Inductive ekind :=
| EAngleNotOpened | EAngleNotClosed | ECurlyNotOpened | ECurlyNotClosed
| ESquareNotOpened | ESquareNotClosed | EMismatchedBracket | EModuleNotFound
| EIdentifierNotFound | EDotNotFound | ECommaNotFound | EUnexpectedDot
| EUnexpectedComma | EInvalidBackslash.

Definition ekind_dec (a b : ekind) : {a = b} + {a <> b}.
Proof. decide equality. Defined.

(** error.rs 6-22: every variant carries one location. *)
Definition terror := (ekind * loc)%type.

(** error.rs 44-63 *)
Definition get_message (e : terror) : str :=
  match fst e with
  | EAngleNotOpened => lit "Angle bracket not opened"
  | EAngleNotClosed => lit "Angle bracket not closed"
  | ECurlyNotOpened => lit "Curly bracket not opened"
  | ECurlyNotClosed => lit "Curly bracket not closed"
  | ESquareNotOpened => lit "Square bracket not opened"
  | ESquareNotClosed => lit "Square bracket not closed"
  | EMismatchedBracket => lit "Mismatched bracket"
  | EModuleNotFound => lit "Need module"
  | EIdentifierNotFound => lit "Need identifier after module"
  | EDotNotFound => lit "Need dot after module"
  | ECommaNotFound => lit "Need comma after module"
  | EUnexpectedDot => lit "Unexpected dot"
  | EUnexpectedComma => lit "Unexpected comma"
  | EInvalidBackslash => lit "Backslash must be followed by dot, comma, backslash, or bracket"
  end.
