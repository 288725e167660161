(** brack-tokenizer with the machine integers of the source: [i32] nesting counters and [usize] lines and
    columns (64 bits). The handlers are those of Tokenizer.v; an operation whose result does not fit panics,
    as in a debug build. *)
From Coq Require Import String List NArith ZArith Bool.
From Verif Require Import Base Tokens Graphemes Tokenizer.
Import ListNotations.

Definition i32 (z : Z) : bool := ((- 2 ^ 31 <=? z) && (z <? 2 ^ 31))%Z.
Definition usize (n : nat) : bool := (Z.of_nat n <? 2 ^ 64)%Z.

(** Simplification: one message; for [c - 1] it says "subtract". *)
Definition overflow {A} : res A := Panic (lit "attempt to add with overflow").

(** Whether the call returns without computing anything (dispatch.rs 27-50). *)
Definition at_end (seg : str -> list str) (t : tokenizer) : bool :=
  match t_untreated t with
  | Some s => gcls_eqb (cls (fst (separate seg s))) GNul
  | None => true
  end.

(** dispatch.rs 65 (the sum is computed from the left) and [column + 1], which every handler computes. *)
Definition sums_fit (t : tokenizer) : bool :=
  match t_angle t, t_curly t, t_square t, t_column t with
  | Some a, Some c, Some s, Some n => i32 (a + c)%Z && i32 (a + c + s)%Z && usize (n + 1)
  | _, _, _, _ => true
  end.

(** The results of the other operations are the fields of the new state: the counters
    (e.g. angle_bracket_open.rs 47, angle_bracket_close.rs 47) and [line + 1] (newline.rs 38-40). *)
Definition fits (t : tokenizer) : bool :=
  let ok {A} (f : A -> bool) o := match o with Some x => f x | None => true end in
  ok i32 (t_angle t) && ok i32 (t_curly t) && ok i32 (t_square t) && ok usize (t_line t).

(** dispatch.rs 12-98 *)
Fixpoint dispatch_checked (seg : str -> list str) (fuel : nat) (t : tokenizer) : res (list token) :=
  match fuel with
  | O => Fuel
  | S fuel' =>
    if negb (at_end seg t) && negb (sums_fit t) then overflow
    else dispatch_step seg (fun t' => if fits t' then dispatch_checked seg fuel' t' else overflow) t
  end.

(** tokenize.rs 13-29 *)
Definition tokenize_checked (seg : str -> list str) (text : str) : res (list token) :=
  dispatch_checked seg (S (length text)) (t_start text).
