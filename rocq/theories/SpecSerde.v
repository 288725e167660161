(** What is needed to state that plugins and host understand each other. *)
From Coq Require Import List NArith Bool.
From Verif Require Import Base Tokens CST SpecTok SpecCST AST Plugin Utf8.
Import ListNotations.

(** The number of nodes on the longest way down. *)
Fixpoint height (a : ast) : nat :=
  match a with
  | AInner _ _ cs _ => S (list_max (map height cs))
  | ALeaf _ _ _ _ => 1
  end.

Fixpoint tall (c : cst) : nat :=
  match c with
  | CLeaf _ _ _ => 1
  | CInner _ cs _ => S (list_max (map tall cs))
  end.

(** Positions that fit a machine word. *)
Definition word (n : nat) : Prop := (N.of_nat n < 2 ^ 64)%N.
Definition loc_words (l : loc) : Prop :=
  word (pline (lstart l)) /\ word (pchar (lstart l)) /\ word (pline (lend l)) /\ word (pchar (lend l)).

(** An AST as it can exist in memory: strings of Unicode scalar values and machine words. *)
Fixpoint storable (a : ast) : Prop :=
  match a with
  | AInner _ id cs l => Forall scalar id /\ loc_words l /\ fold_right (fun x p => storable x /\ p) True cs
  | ALeaf _ id v l => Forall scalar id /\ loc_words l /\ match v with Some s => Forall scalar s | None => True end
  end.

Definition storable_value (v : value) : Prop :=
  match v with
  | VText s | VOption (Some s) => Forall scalar s
  | VOption None => True
  | VArray l => Forall (Forall scalar) l
  end.

Fixpoint storable_type (t : ptype) : Prop :=
  match t with
  | TOption t | TArray t => storable_type t
  | TInlineCmd s | TBlockCmd s => Forall scalar s
  | _ => True
  end.
(** How often a type is wrapped. *)
Fixpoint type_height (t : ptype) : nat :=
  match t with
  | TOption t | TArray t => S (type_height t)
  | TInlineCmd _ | TBlockCmd _ => 1
  | _ => 0
  end.
Definition storable_metadata (m : metadata) : Prop :=
  Forall scalar (command_name m) /\ Forall scalar (call_name m) /\ storable_type (return_type m)
  /\ Forall (fun a => Forall scalar (fst a) /\ storable_type (snd a)) (argument_types m).

(** How deep the brackets of a token list are nested: the largest number of brackets opened and not yet
    closed by a closing bracket of any kind. An escaped bracket does not count. *)
Fixpoint deepest (open : nat) (ks : list tkind) : nat :=
  match ks with
  | [] => open
  | TkBackSlash :: ks' =>
    match ks' with
    | k :: ks'' => if existsb (fun e => if tkind_eq_dec (snd e) k then true else false) escapes
                   then deepest open ks'' else deepest open ks'
    | [] => open
    end
  | (TkAngleOpen | TkCurlyOpen | TkSquareOpen) :: ks' => deepest (S open) ks'
  | (TkAngleClose | TkCurlyClose | TkSquareClose) :: ks' => Nat.max open (deepest (pred open) ks')
  | _ :: ks' => deepest open ks'
  end.
