(** Property theorems C96 (how deep the parser nests its calls). *)
From Coq Require Import String List NArith Arith.
From Verif Require Import Base Tokens Graphemes UAX29 Tokenizer CST SpecTok Parser TokenizerProofs SpecNesting ParserDepth ParserReach.
Import ListNotations.

(** ** C96 *)
(** [d] calls of expr::parse inside each other are enough exactly if the brackets of the tree are nested less deep than that; *)
Theorem C96_depth : forall ts c d, parse ts = Ok c -> parse_d d ts = if d <=? levels c then Fuel else Ok c.
Proof. exact parser_depth. Qed.
Print Assumptions C96_depth.

(** and they are nested no deeper than there are opening brackets, so the length of a text does not matter. *)
Theorem C96_brackets : forall seg, seg_laws seg -> forall s ts c, tokenize_str seg s = Ok ts -> parse ts = Ok c -> levels c <= opens ts.
Proof. exact (fun seg L s ts c _ => levels_opens ts c). Qed.
Print Assumptions C96_brackets.

(** No smaller bound in the number of opening brackets would do: opening brackets alone are all nested. *)
Theorem C96_reached : forall seg, seg_laws seg -> forall n, exists ts c,
  tokenize_str seg (repeat 91%N n) = Ok ts /\ parse ts = Ok c /\ levels c = n /\ parse_d n ts = Fuel.
Proof.
  intros seg L n. destruct (depth_reached seg L n) as (ts & c & A & B & C). exists ts, c. repeat split; try assumption.
  rewrite (parser_depth ts c n B), C, Nat.leb_refl. reflexivity.
Qed.
Print Assumptions C96_reached.

(** A text that is rejected nests the calls no deeper than that either, and is rejected with the same words. *)
Theorem C96_rejected : forall seg, seg_laws seg -> forall s ts e, tokenize_str seg s = Ok ts -> parse ts = Err e ->
  exists k, k <= opens ts /\ forall d, parse_d d ts = if d <=? k then Fuel else Err e.
Proof. exact text_rejected_depth. Qed.
Print Assumptions C96_rejected.

Example C96_example :
  (exists ts c, tokenize_str gseg (lit "a [m.f {m.g <m.h x> [m.f y]}] [m.f [m.f") = Ok ts /\ parse ts = Ok c /\
     levels c = 3 /\ opens ts = 6 /\ parse_d 3 ts = Fuel /\ parse_d 4 ts = Ok c) /\
  (exists ts c, tokenize_str gseg (lit "one two three four five") = Ok ts /\ parse ts = Ok c /\ levels c = 0 /\ parse_d 0 ts = Fuel /\ parse_d 1 ts = Ok c).
Proof. split; eexists _, _; vm_compute; repeat split; reflexivity. Qed.

Example C96_rejected_example : exists ts e, tokenize_str gseg (lit "[m.f {m.g x}] > b") = Ok ts /\ parse ts = Err e /\
  opens ts = 2 /\ parse_d 2 ts = Fuel /\ parse_d 3 ts = Err e.
Proof. eexists _, _. vm_compute. repeat split; reflexivity. Qed.
