(** What the base protocol of the Language Server Protocol says about a stream of
    messages, and what it means to handle some messages in order. Independent of the
    reading loop. *)
From Coq Require Import String List NArith ZArith Bool Lia.
From Verif Require Import Base Utf8.
Import ListNotations.

(** Decimal notation. *)
Inductive decimal : bytes -> N -> Prop :=
| decimal_digit : forall d, (d < 10)%N -> decimal [48 + d]%N d
| decimal_more : forall v n d, decimal v n -> (d < 10)%N -> decimal (v ++ [48 + d]%N) (10 * n + d)%N.

(** A header field is [key: value] followed by CR LF; the fields are followed by an
    empty line and the body. *)
Definition field (kv : bytes * bytes) : bytes := fst kv ++ [58; 32]%N ++ snd kv ++ [13; 10]%N.
Definition frame (fields : list (bytes * bytes)) (body : bytes) : bytes :=
  concat (map field fields) ++ [13; 10]%N ++ body.

(** No line break. *)
Definition one_line (s : bytes) : Prop := ~ In 13%N s /\ ~ In 10%N s.

Definition well_formed_field (kv : bytes * bytes) : Prop :=
  one_line (fst kv) /\ one_line (snd kv) /\ ~ In 58%N (fst kv) /\ valid (fst kv) /\ valid (snd kv).

(** [raw] are the bytes of a well-formed message with the given body. *)
Definition well_framed (raw body : bytes) : Prop :=
  valid body /\ (N.of_nat (length body) < 2147483648)%N
  /\ (N.of_nat (length raw) < 18446744073709551616)%N /\
  exists fields, raw = frame fields body /\ Forall well_formed_field fields
    /\ (forall v, In (lit "Content-Length", v) fields -> decimal v (N.of_nat (length body)))
    /\ (exists v, In (lit "Content-Length", v) fields).

Record message := mkmsg { raw : bytes; body : bytes }.
Definition well_formed (m : message) : Prop := well_framed (raw m) (body m).

(** The effect of parsing and dispatching the given bodies, in order, each once, up to the
    first failure. *)
Fixpoint handle {St V : Type} (from_str : bytes -> res V) (dispatch : St -> V -> St * res unit)
  (bodies : list bytes) (st : St) : St * res unit :=
  match bodies with
  | [] => (st, Ok tt)
  | b :: bodies' =>
      match from_str b with
      | Ok v => match dispatch st v with
                | (st', Ok _) => handle from_str dispatch bodies' st'
                | (st', Err e) => (st', Err e)
                | (st', Panic e) => (st', Panic e)
                | (st', Fuel) => (st', Fuel)
                end
      | Err e => (st, Err e)
      | Panic e => (st, Panic e)
      | Fuel => (st, Fuel)
      end
  end.

(** How many of the messages are completely contained in the first [n] bytes. *)
Fixpoint complete (ms : list message) (n : nat) : nat :=
  match ms with
  | [] => 0
  | m :: ms' => if Nat.leb (length (raw m)) n then S (complete ms' (n - length (raw m))) else 0
  end.

(** How many messages have been taken after the reads: with every read at most one more,
    and only if it is complete. [got] bytes were received before and [k] messages taken. *)
Fixpoint taken_after (ms : list message) (got k : nat) (reads : list bytes) : nat :=
  match reads with
  | [] => k
  | r :: reads' =>
      let got := got + length r in
      taken_after ms got (Nat.min (S k) (complete ms got)) reads'
  end.

(** [l] is a line of [h]. *)
Definition is_line (l h : bytes) : Prop :=
  exists h1 h2, h = h1 ++ l ++ h2
    /\ (h1 = [] \/ exists x, h1 = x ++ [13; 10]%N)
    /\ (h2 = [] \/ exists x, h2 = [13; 10]%N ++ x)
    /\ ~ (exists x y, l = x ++ [13; 10]%N ++ y).

(** An integer literal with an optional sign. *)
Inductive integer : bytes -> Z -> Prop :=
| integer_unsigned : forall v n, decimal v n -> integer v (Z.of_N n)
| integer_plus : forall v n, decimal v n -> integer (43%N :: v) (Z.of_N n)
| integer_minus : forall v n, decimal v n -> integer (45%N :: v) (- Z.of_N n)%Z.

(** A header that no client should send: a line without [": "], a negative length, or a
    length that ends inside a character of what follows the header. *)
Definition malformed (h following : bytes) : Prop :=
  (exists l, is_line l h /\ ~ (exists x y, l = x ++ [58; 32]%N ++ y))
  \/ (exists v tl n, is_line (lit "Content-Length: " ++ v ++ tl) h /\ integer v n
        /\ ((n < 0)%Z \/ ((0 <= n)%Z /\ ~ valid (firstn (Z.to_nat n) following)))).
