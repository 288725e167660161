(** Trees without locations, and tokens without the spaces inside brackets. Nothing here uses the
    parser or transformer model. *)
From Coq Require Import String List NArith Bool.
From Verif Require Import Base Tokens CST AST SpecTok SpecCST.
Import ListNotations.

Fixpoint unloc (c : cst) : cst :=
  match c with
  | CInner k cs _ => CInner k (map unloc cs) mock_location
  | CLeaf k v _ => CLeaf k v mock_location
  end.

(** An AST without identifiers and locations. *)
Fixpoint bare (a : ast) : ast :=
  match a with
  | AInner k _ cs _ => AInner k [] (map bare cs) mock_location
  | ALeaf k _ v _ => ALeaf k [] v mock_location
  end.

(** The tokens without the spaces and newlines inside brackets; the brackets [open] are open before
    them. An escaped bracket does not count. A closing bracket closes the innermost open bracket
    of its kind and all those inside it. A space or newline stays where it is directly after a
    backslash that escapes nothing ([lone]), because the backslash would escape what
    follows. *)
Definition can_escape (k : tkind) : bool := existsb (fun e => if tkind_eq_dec (snd e) k then true else false) escapes.
Fixpoint strip (open : list tkind) (lone : bool) (ts : list token) : list token :=
  match ts with
  | [] => []
  | t :: r =>
    match tk t with
    | TkEOF | TkEmpty => ts
    | TkBackSlash =>
      match r with
      | u :: r' => if can_escape (tk u) then t :: u :: strip open false r' else t :: strip open true r
      | [] => [t]
      end
    | (TkAngleOpen | TkCurlyOpen | TkSquareOpen) as k => t :: strip (k :: open) false r
    | (TkAngleClose | TkCurlyClose | TkSquareClose) as k =>
      t :: strip (match pop_to k open with Some open' => open' | None => [] end) false r
    | TkWhiteSpace | TkNewLine =>
      match open, lone with
      | _ :: _, false => strip open false r
      | _, _ => t :: strip open false r
      end
    | _ => t :: strip open false r
    end
  end.
