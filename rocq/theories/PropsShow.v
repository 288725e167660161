(** Property theorems C85 and C86 (comparing and displaying trees and errors). *)
From Coq Require Import String List NArith Bool.
From Verif Require Import Base Tokens Graphemes UAX29 Tokenizer SpecTok CST Parser AST TransformError Transform SpecTransform SpecStrip SpecGen SpecLsp SpecShow
  Show Kinds Display CompileProofs DisplayProofs ParserWitness TransformWitness PropsTransformer WitnessProject PropsCli.
Import ListNotations.

(** ** C85 *)
Theorem C85_cst_kinds : forall c d, cst_matches_kind c d = true <-> cst_kind c = cst_kind d /\ cst_kind c <> inr LInvalid.
Proof. exact cst_kind_iff. Qed.
Print Assumptions C85_cst_kinds.

Theorem C85_invalid_matches_nothing_refuted : exists c, cst_matches_kind c c = false.
Proof. exists (new_invalid mock_location). reflexivity. Qed.
Print Assumptions C85_invalid_matches_nothing_refuted.

Theorem C85_ast_kinds : forall a b, ast_matches_kind a b = true <-> ast_kind a = ast_kind b.
Proof. exact ast_kind_iff. Qed.
Print Assumptions C85_ast_kinds.

Theorem C85_assertion : forall a b, assert_ast_eq a b = Ok tt <-> bare a = bare b /\ faultless a.
Proof. exact assert_ast_eq_iff. Qed.
Print Assumptions C85_assertion.

Theorem C85_assertion_panics : forall a b, assert_ast_eq a b = Ok tt \/ exists e, assert_ast_eq a b = Panic e.
Proof. exact assert_ast_eq_panics. Qed.
Print Assumptions C85_assertion_panics.

(** Two documents whose trees are equal up to ids and places; a document with an invalid escape is not equal to itself. *)
Example C85_example :
  match to_ast gseg num_id (lit "x [m.f a, b]"), to_ast gseg (fun n => num_id (n + 5)) (lit "x [m.f  a ,b ]"), to_ast gseg num_id (lit "\x") with
  | Ok (a, _), Ok (b, _), Ok (c, _) =>
      erase a <> erase b /\ assert_ast_eq a b = Ok tt /\ ast_kind a = ast_kind c /\ assert_ast_eq a c <> Ok tt /\ assert_ast_eq c c <> Ok tt
  | _, _, _ => False
  end.
Proof. vm_compute. repeat split; discriminate. Qed.

(** ** C86 *)
Theorem C86_error_text : forall k l, exists m a b c d, In (k, m) said /\
  SpecFraming.decimal a (N.of_nat (pline (lstart l))) /\ SpecFraming.decimal b (N.of_nat (pchar (lstart l))) /\
  SpecFraming.decimal c (N.of_nat (pline (lend l))) /\ SpecFraming.decimal d (N.of_nat (pchar (lend l))) /\
  error_display (k, l) = lit "Error at line " ++ a ++ lit ", column " ++ b ++ lit " to line " ++ c ++ lit ", column " ++ d ++ lit ": " ++ lit m.
Proof. exact error_display_text. Qed.
Print Assumptions C86_error_text.

Theorem C86_errors : forall e f, error_display e = error_display f -> e = f.
Proof. exact error_display_inj. Qed.
Print Assumptions C86_errors.

Theorem C86_cst : forall shown c d ids, (forall p x, In x (ids p) -> x <> 41%N /\ x <> 44%N) ->
  (cst_display shown ids 0 c = cst_display shown ids 0 d <-> outline c = outline d).
Proof. exact cst_display_iff. Qed.
Print Assumptions C86_cst.

(** Nothing is shown, the program panics, exactly if a name or text is missing; this is no tree of a document. *)
Theorem C86_ast_shown : forall a, (exists s, ast_display 0 a = Ok s) <-> has_values a.
Proof. exact (fun a => ast_display_written a 0). Qed.
Print Assumptions C86_ast_shown.

Theorem C86_documents_shown : forall uuid ts c a es, parse ts = Ok c -> transform uuid c = Ok (a, es) -> exists s, ast_display 0 a = Ok s.
Proof. intros uuid ts c a es P T. apply C86_ast_shown. exact (transform_values uuid ts c a es P T). Qed.
Print Assumptions C86_documents_shown.

Theorem C86_ast_same : forall a b, shape a = shape b -> ast_display 0 a = ast_display 0 b.
Proof. exact (fun a b => ast_display_same a b 0). Qed.
Print Assumptions C86_ast_same.

(** Trees without line feeds in their names and texts are told apart ... *)
Theorem C86_ast_one_line : forall a b s, one_line a -> one_line b -> ast_display 0 a = Ok s -> ast_display 0 b = Ok s -> shape a = shape b.
Proof. exact ast_display_one_line. Qed.
Print Assumptions C86_ast_one_line.

(** ... such as those of the documents all of whose line feeds are newlines ... *)
Theorem C86_documents_one_line : forall uuid ts c a es, own_lines ts -> parse ts = Ok c -> transform uuid c = Ok (a, es) -> one_line a.
Proof. exact document_one_line. Qed.
Print Assumptions C86_documents_one_line.

(** ... but not all trees: two documents without errors, with different trees that are displayed alike. *)
Definition forged : str := lit "]" ++ [10%N] ++ lit "\[[m.f \]a" ++ [13; 10]%N ++ lit "          Text: b]".
Definition imitated : str := lit "\[[m.f \]a" ++ [13]%N ++ lit " b]".
Theorem C86_ast_refuted : exists a b s, to_ast gseg num_id forged = Ok (a, []) /\ to_ast gseg num_id imitated = Ok (b, []) /\
  shape a <> shape b /\ ast_display 0 a = Ok s /\ ast_display 0 b = Ok s.
Proof.
  do 3 eexists. split; [vm_compute; reflexivity|]. split; [vm_compute; reflexivity|].
  split; [vm_compute; discriminate|]. split; vm_compute; reflexivity.
Qed.
Print Assumptions C86_ast_refuted.

Example C86_errors_example :
  error_display (EDotNotFound, mkloc (mkpos 1 23) (mkpos 4 5)) = lit "Error at line 1, column 23 to line 4, column 5: Need dot after module".
Proof. vm_compute. reflexivity. Qed.

Example C86_example :
  match front gseg (lit "a\\" ++ [10%N] ++ lit "b"), front gseg (lit "a\]" ++ [10%N] ++ lit "b"), front gseg (lit "a\]" ++ [10%N] ++ lit "c") with
  | Ok c, Ok d, Ok e => c <> d /\ outline c = outline d /\ outline c <> outline e /\
      cst_display ascii_shown (fun _ => lit "-") 0 d = cst_display ascii_shown (fun _ => lit "-") 0 c /\
      cst_display ascii_shown (fun _ => lit "-") 0 e <> cst_display ascii_shown (fun _ => lit "-") 0 c
  | _, _, _ => False
  end.
Proof. vm_compute. repeat split; discriminate. Qed.

Example C86_shown_example :
  match front gseg (lit "a\\"), to_ast gseg num_id (lit "a\\") with
  | Ok c, Ok (a, _) =>
      cst_display ascii_shown (fun _ => lit "-") 0 c =
        q "Document(id: -) [" ++ [10%N] ++ q "  Stmt(id: -) [" ++ [10%N] ++ q "    Expr(id: -) [" ++ [10%N] ++
        q "      Text(id: -, value: Some('a'))," ++ [10%N] ++ q "      BackSlash(id: -)," ++ [10%N] ++ q "    ]," ++ [10%N] ++ q "  ]," ++ [10%N] ++
        q "  EOF(id: -)," ++ [10%N] ++ q "]" /\
      one_line a /\
      ast_display 0 a = Ok (q "Document" ++ [10%N] ++ q "  Stmt" ++ [10%N] ++ q "    Expr" ++ [10%N] ++ q "      Text: a" ++ [10%N] ++ q "      Text: \" ++ [10%N])
  | _, _ => False
  end.
Proof.
  assert (O : forall a, forallb (fun x => match x with ALeaf _ _ (Some v) _ => negb (existsb (N.eqb 10) v) | _ => true end) (ast_nodes a) = true -> one_line a).
  { intros a H k i v l I J. rewrite forallb_forall in H. specialize (H _ I). cbn in H. apply negb_true_iff in H.
    assert (X : existsb (N.eqb 10) v = true) by (apply existsb_exists; exists 10%N; split; [exact J|reflexivity]). congruence. }
  destruct (to_ast gseg num_id (lit "a\\")) as [[a es]|?|?|] eqn:T; [|vm_compute in T; discriminate T..].
  vm_compute in T. injection T as <- <-. split; [vm_compute; reflexivity|split; [apply O|]; vm_compute; reflexivity].
Qed.
