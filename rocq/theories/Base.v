(** Strings, results and small list facts shared by the whole model. *)
From Coq Require Import String Ascii List NArith ZArith Bool Lia.
Import ListNotations.

(** A Rust [String]/[&str] is modelled as its list of Unicode scalar values.
    (Simplification: UTF-8 encoding is only modelled where bytes matter, in Framing.v.) *)
Definition str := list N.

(** ASCII literals of the Rust source. *)
Definition lit (s : string) : str := map N_of_ascii (list_ascii_of_string s).
Arguments lit s%string_scope.

Fixpoint str_eqb (a b : str) : bool :=
  match a, b with
  | [], [] => true
  | x :: a', y :: b' => N.eqb x y && str_eqb a' b'
  | _, _ => false
  end.

Lemma str_eqb_eq : forall a b, str_eqb a b = true <-> a = b.
Proof.
  induction a as [|x a IH]; destruct b as [|y b]; cbn; split; intro H;
    try reflexivity; try discriminate.
  - apply andb_true_iff in H as [H1 H2]. apply N.eqb_eq in H1. apply IH in H2. congruence.
  - injection H as -> ->. apply andb_true_iff; split; [apply N.eqb_refl | apply IH; reflexivity].
Qed.

Lemma str_eqb_refl : forall a, str_eqb a a = true.
Proof. intro a; apply str_eqb_eq; reflexivity. Qed.

Lemma str_eqb_neq : forall a b, str_eqb a b = false <-> a <> b.
Proof.
  intros a b; split; intro H.
  - intro E; apply str_eqb_eq in E; congruence.
  - destruct (str_eqb a b) eqn:E; [|reflexivity]. apply str_eqb_eq in E; contradiction.
Qed.

Definition str_dec (a b : str) : {a = b} + {a <> b} := list_eq_dec N.eq_dec a b.

(** Outcome of a Rust function: [Ok], an [anyhow] error, a panic, or (only in the
    model) exhausted fuel. *)
Inductive res (A : Type) : Type :=
| Ok : A -> res A
| Err : str -> res A
| Panic : str -> res A
| Fuel : res A.
Arguments Ok {A}. Arguments Err {A}. Arguments Panic {A}. Arguments Fuel {A}.

(** The [?] operator. *)
Definition bind {A B} (m : res A) (f : A -> res B) : res B :=
  match m with
  | Ok a => f a
  | Err e => Err e
  | Panic e => Panic e
  | Fuel => Fuel
  end.

Notation "'let!' x := m 'in' k" := (bind m (fun x => k))
  (at level 200, x pattern, m at level 100, k at level 200, right associativity).

(** [opt.ok_or_else(|| anyhow!(msg))] *)
Definition ok_or {A} (o : option A) (msg : string) : res A :=
  match o with Some a => Ok a | None => Err (lit msg) end.
Arguments ok_or {A} o msg%string_scope.

Definition is_ok {A} (r : res A) : bool := match r with Ok _ => true | _ => false end.
Definition is_panic {A} (r : res A) : bool := match r with Panic _ => true | _ => false end.

Lemma bind_ok : forall {A B} (m : res A) (f : A -> res B) b,
  bind m f = Ok b -> exists a, m = Ok a /\ f a = Ok b.
Proof. intros A B [a|e|e|] f b H; cbn in H; try discriminate. eauto. Qed.
