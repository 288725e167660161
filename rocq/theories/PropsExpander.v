(** Property theorems C26-C28 (expander). *)
From Coq Require Import String List NArith Arith.
From Verif Require Import Base Tokens Graphemes UAX29 Tokenizer CST SpecTok SpecCST Parser ParserProofs ParserWitness
  AST TransformError Transform SpecTransform TransformWitness Plugin Expander SpecGen ExpanderProofs GenWitness PropsTransformer.
Import ListNotations.

(** ** C26 *)
Theorem C26_results_discarded_refuted : forall seg uuid, seg_laws seg ->
  exists a e, to_ast seg uuid (lit "x <m.mac y>") = Ok (a, []) /\ expander echo demo a [] = (Ok a, [e]) /\
    echo [] e = RAst reply_ast /\ In (WCommand NAngle) (ast_words a).
Proof. exact not_expanded. Qed.
Print Assumptions C26_results_discarded_refuted.

Theorem C26_expander_changes_nothing : forall w ps a h a' h', expander w ps a h = (Ok a', h') -> a' = a.
Proof. exact expander_same. Qed.
Print Assumptions C26_expander_changes_nothing.

(** ** C27 *)
Theorem C27_macros_called_in_order : forall w ps a h r h', expander w ps a h = (r, h') ->
  exists o, ending_of r o /\ run w ps a (inside a) h o h'.
Proof. exact expander_runs. Qed.
Print Assumptions C27_macros_called_in_order.

Theorem C27_every_macro_called_once : forall w ps a h a' h', expander w ps a h = (Ok a', h') ->
  exists es, h' = h ++ es /\ Forall2 (macro_call ps a) (inside a) es.
Proof.
  intros w ps a h a' h' E. destruct (expander_runs _ _ _ _ _ _ E) as (o & EO & R). cbn in EO. subst o.
  exact (run_completed _ _ _ _ _ _ R).
Qed.
Print Assumptions C27_every_macro_called_once.

(** The outcome is determined by the plugins' answers. *)
Theorem C27_run_deterministic : forall w ps doc l h o h1, run w ps doc l h o h1 ->
  forall o' h2, run w ps doc l h o' h2 -> o' = o /\ h2 = h1.
Proof. exact run_det. Qed.
Print Assumptions C27_run_deterministic.

Example C27_example : match to_ast gseg num_id (lit "<m.mac [m.f <m.mac y>]> {m.g <m.mac z>}") with
  | Ok (a, _) => length (inside a) = 2 /\
    match expander echo demo a [] with
    | (Ok _, h) => map ev_function h = [lit "call_mac"; lit "call_mac"]
    | _ => False
    end
  | _ => False
  end.
Proof. vm_compute. repeat split. Qed.

Example C27_example_failure : match to_ast gseg num_id (lit "<m.mac y> <m.nope z> <m.mac z>") with
  | Ok (a, _) => match expander echo demo a [] with (Err m, h) => m = lit "metadata not found: nope" /\ length h = 1 | _ => False end
  | _ => False
  end.
Proof. vm_compute. repeat split. Qed.

(** ** C28 *)
Theorem C28_invalid_escape_panics_refuted : forall seg uuid w ps h, seg_laws seg ->
  exists a l e, to_ast seg uuid (lit "\q") = Ok (a, [(EInvalidBackslash, l)]) /\ expander w ps a h = (Panic e, h).
Proof. exact invalid_panics. Qed.
Print Assumptions C28_invalid_escape_panics_refuted.

Theorem C28_only_invalid_escapes_panic : forall uuid ts c a es, parse ts = Ok c -> transform uuid c = Ok (a, es) ->
  (forall l, ~ In (EInvalidBackslash, l) es) ->
  forall w ps h e h', expander w ps a h <> (Panic e, h').
Proof. exact (fun uuid ts c a es P => expander_panic_free uuid c a es (proj1 (parse_sound ts c P))). Qed.
Print Assumptions C28_only_invalid_escapes_panic.

Example C28_example : match to_ast gseg num_id (lit "[m \\ <m.mac y> \. x") with
  | Ok (a, es) => length es = 4 /\ filter (of_kind [EInvalidBackslash]) es = [] /\ length (inside a) = 1
  | _ => False
  end.
Proof. vm_compute. repeat split. Qed.
