(** Property theorems C59 (the exchange with plugins). *)
From Coq Require Import String List NArith Arith.
From Verif Require Import Base Tokens Graphemes UAX29 Tokenizer CST SpecTok SpecCST Parser ParserWitness
  AST TransformError Transform SpecTransform TransformWitness Plugin Utf8 Json SpecJson Expander SpecGen GenWitness Serde SpecSerde
  SerdeProofs HeightProofs ExchangeProofs.
Import ListNotations.

(** ** C59 *)
Theorem C59_ast : forall a, storable a -> de_ast (ser_ast a) = Ok a.
Proof. exact de_ser_ast. Qed.
Print Assumptions C59_ast.

Theorem C59_value : forall v, de_value (ser_value v) = Ok v.
Proof. exact de_ser_value. Qed.
Print Assumptions C59_value.

Theorem C59_type : forall t, de_type (ser_type t) = Ok t.
Proof. exact de_ser_type. Qed.
Print Assumptions C59_type.

Theorem C59_metadata : forall m, de_metadata (ser_metadata m) = Ok m.
Proof. exact de_ser_metadata. Qed.
Print Assumptions C59_metadata.

(** The same for the texts exchanged: [serde_json] reads nothing that is nested more than 127 deep. *)
Theorem C59_ast_text : forall a, storable a ->
  of_text de_ast (to_text (ser_ast a)) = if height a <=? 42 then Ok a else Err (lit "recursion limit exceeded").
Proof. exact read_ast. Qed.
Print Assumptions C59_ast_text.

Theorem C59_arguments_text : forall vs, Forall storable_value vs ->
  of_text (de_vec de_value) (to_text (ser_input (IValues vs))) = Ok vs.
Proof. exact read_values. Qed.
Print Assumptions C59_arguments_text.

Theorem C59_metadata_text : forall ms, Forall storable_metadata ms ->
  Forall (fun m => type_height (return_type m) <= 125 /\ Forall (fun a => type_height (snd a) <= 123) (argument_types m)) ms ->
  read_metadata (to_text (JArr (map ser_metadata ms))) = Ok ms.
Proof. exact read_metadata_ok. Qed.
Print Assumptions C59_metadata_text.

(** What a macro reads of the document it is given, for every AST. *)
Theorem C59_macro_text : forall a id, storable a -> Forall scalar id ->
  of_text de_macro (to_text (ser_input (IMacro a id)))
  = if height a <=? 41 then Ok (a, id) else Err (lit "recursion limit exceeded").
Proof. exact read_macro. Qed.
Print Assumptions C59_macro_text.

Theorem C59_every_document : forall seg, seg_laws seg -> forall uuid s ts c a es,
  Forall scalar s -> word (length s) -> (forall n, Forall scalar (uuid n)) ->
  tokenize_str seg s = Ok ts -> parse ts = Ok c -> transform uuid c = Ok (a, es) -> storable a.
Proof. exact document_storable. Qed.
Print Assumptions C59_every_document.

(** The documents that reach every macro: up to 18 brackets in each other. *)
Theorem C59_macros_see_the_document_partial : forall seg, seg_laws seg -> forall uuid s ts c a es,
  Forall scalar s -> word (length s) -> (forall n, Forall scalar (uuid n)) ->
  tokenize_str seg s = Ok ts -> parse ts = Ok c -> transform uuid c = Ok (a, es) ->
  deepest 0 (map tk ts) <= 18 -> forall id, Forall scalar id ->
  of_text de_macro (to_text (ser_input (IMacro a id))) = Ok (a, id).
Proof. exact macro_gets_document. Qed.
Print Assumptions C59_macros_see_the_document_partial.

Theorem C59_document_height : forall uuid ts c a es, parse ts = Ok c -> transform uuid c = Ok (a, es) ->
  height a <= 2 * deepest 0 (map tk ts) + 4.
Proof. exact transform_height. Qed.
Print Assumptions C59_document_height.

Theorem C59_macro_exchange_partial : forall f h p fn a id, storable a -> Forall scalar id -> height a <= 41 ->
  storable (f a id) -> height (f a id) <= 42 ->
  world_of (macro_plugin f) h (mkEvent p fn (IMacro a id)) = RAst (f a id).
Proof. exact macro_exchange. Qed.
Print Assumptions C59_macro_exchange_partial.

Theorem C59_deep_refuted : forall seg uuid, seg_laws seg -> (forall n, Forall scalar (uuid n)) ->
  exists a, to_ast seg uuid deep_text = Ok (a, []) /\
    (forall id, Forall scalar id -> exists e, of_text de_macro (to_text (ser_input (IMacro a id))) = Err e) /\
    (exists e, of_text de_ast (to_text (ser_ast a)) = Err e) /\
    exists e h, expander (world_of (fun _ _ => Some (to_text (ser_ast a)))) demo a [] = (Err e, h).
Proof. exact too_deep. Qed.
Print Assumptions C59_deep_refuted.

(** Whatever bytes a plugin answers are an AST or an error. *)
Theorem C59_any_reply : forall b, (exists a, of_text de_ast b = Ok a) \/ exists e, of_text de_ast b = Err e.
Proof. exact any_reply. Qed.
Print Assumptions C59_any_reply.

Definition tally (n : nat) : str := repeat 105%N n.
Example C59_example : (forall n, Forall scalar (tally n)) /\
  match tokenize_str gseg (nested 17), to_ast gseg tally (nested 17) with
  | Ok ts, Ok (a, []) =>
      deepest 0 (map tk ts) = 18 /\ height a = 40 /\ Nat.ltb 5000 (length (to_text (ser_ast a))) = true /\
      of_text de_macro (to_text (ser_input (IMacro a (lit "7")))) = Ok (a, lit "7") /\
      world_of (macro_plugin (fun a _ => AInner NDocument (lit "q""") [a] mock_location)) [] (mkEvent (lit "m") (lit "f") (IMacro a (lit "7")))
      = RAst (AInner NDocument (lit "q""") [a] mock_location)
  | _, _ => False
  end.
Proof.
  split.
  - intro n. apply Forall_forall. intros x I. apply repeat_spec in I. subst x. left. reflexivity.
  - vm_compute. repeat split; reflexivity.
Qed.

Example C59_example_2 : Forall storable_value [VText (lit "a"); VOption None; VArray [lit "\"; [0x1F600%N]]] /\
  read_metadata (to_text (JArr (map ser_metadata demo_commands))) = Ok demo_commands /\
  deepest 0 [TkSquareOpen; TkBackSlash; TkSquareOpen; TkSquareClose; TkCurlyOpen; TkAngleOpen; TkEOF] = 2.
Proof.
  split; [|split; vm_compute; reflexivity].
  repeat constructor; unfold scalar; vm_compute; intuition discriminate.
Qed.
