(** Putting in the closing brackets that are missing. Nothing here uses the parser or transformer
    model. *)
From Coq Require Import String List NArith Bool.
From Verif Require Import Base Tokens SpecTok SpecCST SpecStrip.
Import ListNotations.

Definition closing (k : tkind) : tkind :=
  match k with TkAngleOpen => TkAngleClose | TkCurlyOpen => TkCurlyClose | _ => TkSquareClose end.

(** The open brackets inside the innermost one that [k] closes; all if [k] closes none. *)
Fixpoint inner_open (k : tkind) (open : list tkind) : list tkind :=
  match open with
  | [] => []
  | o :: r => if tkind_eq_dec (closing o) k then [] else o :: inner_open k r
  end.

(** A missing bracket takes no place. It stands at the end of the token that ends the brackets. *)
Definition put_in (t : token) (open : list tkind) : list token :=
  map (fun o => mktok (closing o) (mkloc (lend (tl t)) (lend (tl t)))) open.

(** The tokens with the missing closing brackets; [open] are open before them. They are put in
    before a closing bracket that closes another one, and before the end. *)
Fixpoint close_missing (open : list tkind) (ts : list token) : list token :=
  match ts with
  | [] => []
  | t :: r =>
    match tk t with
    | TkEOF | TkEmpty => put_in t open ++ ts
    | TkBackSlash =>
      match r with
      | u :: r' => if can_escape (tk u) then t :: u :: close_missing open r' else t :: close_missing open r
      | [] => [t]
      end
    | (TkAngleOpen | TkCurlyOpen | TkSquareOpen) as k => t :: close_missing (k :: open) r
    | (TkAngleClose | TkCurlyClose | TkSquareClose) as k =>
      put_in t (inner_open k open) ++
      t :: close_missing (match pop_to k open with Some open' => open' | None => [] end) r
    | _ => t :: close_missing open r
    end
  end.

(** Do the tokens end in a backslash that escapes nothing? A bracket put in after it would be
    escaped. *)
Fixpoint dangling (lone : bool) (ts : list token) : bool :=
  match ts with
  | [] => false
  | t :: r =>
    match tk t with
    | TkEOF | TkEmpty => lone
    | TkBackSlash =>
      match r with
      | u :: r' => if can_escape (tk u) then dangling false r' else dangling true r
      | [] => false
      end
    | _ => dangling false r
    end
  end.
