(** Property theorems C10-C16, C60, C80 and C88 (parser). *)
From Coq Require Import String List NArith Arith.
From Verif Require Import Base Tokens Graphemes UAX29 Tokenizer CST SpecTok SpecCST Parser
  ParserProofs ParserTotal ParserAccepts ParserProofs2 ParserLocations DocEnd AST SpecGrow GrowProofs SpecTree ParserTree ParserWitness TokenizerProofs.
Import ListNotations.

(** ** C10 *)
Theorem C10_parse_text_no_panic : forall seg, seg_laws seg -> forall s,
  exists ts, tokenize_str seg s = Ok ts /\ ((exists c, parse ts = Ok c) \/ (exists e, parse ts = Err e)).
Proof.
  intros seg L s. destruct (tokenize_total seg L s) as [ts E]. exists ts. split; [exact E|].
  pose proof (front_ok_or_err seg L s) as H. unfold front in H. rewrite E in H. exact H.
Qed.
Print Assumptions C10_parse_text_no_panic.

Theorem C10_parse_tokens_no_panic : forall ts,
  (forall pre l, ts <> pre ++ [mktok TkBackSlash l]) ->
  (exists c, parse ts = Ok c) \/ (exists e, parse ts = Err e).
Proof.
  intros ts H. pose proof (parse_safe ts) as S. destruct (parse ts) as [c|e|e|]; eauto.
  - destruct S as (pre & l & E). exfalso. exact (H _ _ E).
  - destruct S.
Qed.
Print Assumptions C10_parse_tokens_no_panic.

Theorem C10_final_backslash_panics : exists l e, parse [mktok TkBackSlash l] = Panic e.
Proof. exact final_backslash_panics. Qed.
Print Assumptions C10_final_backslash_panics.

Example C10_example : exists e, front gseg (lit "x [m.f \] ] ]") = Err e.
Proof. eexists. vm_compute. reflexivity. Qed.

(** ** C11 *)
Theorem C11_leaves_are_tokens : forall seg, seg_laws seg -> forall s ts c,
  tokenize_str seg s = Ok ts -> parse ts = Ok c -> leaf_toks c = ts.
Proof. exact front_lossless. Qed.
Print Assumptions C11_leaves_are_tokens.

Theorem C11_leaves_are_tokens_to_eof : forall ts c, parse ts = Ok c ->
  exists body e rest, ts = body ++ mktok TkEOF e :: rest /\
    Forall (fun t => tk t <> TkEOF) body /\ leaf_toks c = body ++ [mktok TkEOF e].
Proof. exact parse_lossless. Qed.
Print Assumptions C11_leaves_are_tokens_to_eof.

Example C11_example : exists c, front gseg (lit "x \[ {m.f y, z") = Ok c /\ length (leaf_toks c) = 14.
Proof. eexists. vm_compute. split; reflexivity. Qed.

(** ** C12 *)
Theorem C12_cst_grammar : forall ts c, parse ts = Ok c -> g_document c.
Proof. exact (fun ts c H => proj1 (parse_sound ts c H)). Qed.
Print Assumptions C12_cst_grammar.

Example C12_example : exists ts c, tokenize_str gseg (lit "a [m.f b]" ++ [10; 10]%N ++ lit ">" ++ [10%N]) = Ok ts /\
  parse ts = Ok c.
Proof. eexists _, _. vm_compute. split; reflexivity. Qed.

(** ** C13 *)
Theorem C13_accepted_documents : forall ts, (exists c, parse ts = Ok c) <-> acceptable ts = true.
Proof. exact parse_accepts. Qed.
Print Assumptions C13_accepted_documents.

Theorem C13_balanced_accepted : forall body e, balanced (map tk body) ->
  (forall l r, body <> mktok TkNewLine l :: r) ->
  exists c, parse (body ++ [mktok TkEOF e]) = Ok c.
Proof. exact balanced_parses. Qed.
Print Assumptions C13_balanced_accepted.

Theorem C13_leading_newline_rejected : forall l nls t rest,
  Forall (fun t => tk t = TkNewLine) nls -> tk t <> TkNewLine -> tk t <> TkEOF ->
  forall c, parse (mktok TkNewLine l :: nls ++ t :: rest) <> Ok c.
Proof. exact leading_newline_rejected. Qed.
Print Assumptions C13_leading_newline_rejected.

Theorem C13_stray_close_rejected : forall pre line t rest,
  balanced (map tk pre) -> (forall l r, pre ++ line <> mktok TkNewLine l :: r) ->
  balanced (map tk line) -> line <> [] -> Forall (fun t => tk t <> TkNewLine) line ->
  In (tk t) [TkAngleClose; TkCurlyClose; TkSquareClose] ->
  forall c, parse (pre ++ line ++ t :: rest) <> Ok c.
Proof. exact stray_close_rejected. Qed.
Print Assumptions C13_stray_close_rejected.

Example C13_example : forall seg, seg_laws seg ->
  (exists e, front seg (lit "a > b") = Err e) /\
  (exists e, front seg ([10%N] ++ lit "a") = Err e) /\
  (exists c, front seg (lit "{m.f [m.g a }") = Ok c) /\
  (exists c, front seg (lit "a" ++ [10%N] ++ lit ">" ++ [10%N] ++ lit "b") = Ok c).
Proof. exact stray_examples. Qed.

Example C13_example_balanced :
  balanced [TkText (lit "a"); TkSquareOpen; TkModule (lit "m"); TkDot; TkIdent (lit "f"); TkCurlyOpen;
            TkBackSlash; TkSquareClose; TkCurlyClose; TkSquareClose; TkNewLine].
Proof.
  constructor; [reflexivity|].
  apply (Bal_bracket TkSquareOpen TkSquareClose
           [TkModule (lit "m"); TkDot; TkIdent (lit "f"); TkCurlyOpen; TkBackSlash; TkSquareClose; TkCurlyClose] [TkNewLine]);
    [constructor| |repeat constructor].
  do 3 (constructor; [reflexivity|]).
  apply (Bal_bracket TkCurlyOpen TkCurlyClose [TkBackSlash; TkSquareClose] []); [constructor| |constructor].
  eapply Bal_escape; [|constructor]. cbn. do 6 right. left. reflexivity.
Qed.

(** ** C14 *)
Theorem C14_spans : forall ts c, parse ts = Ok c ->
  exists rest, ts = leaf_toks c ++ rest /\ spans_ok c rest.
Proof. exact (fun ts c H => proj2 (parse_sound ts c H)). Qed.
Print Assumptions C14_spans.

Example C14_example : exists c, front gseg (lit "a {m.f b" ++ [10%N]) = Ok c /\
  exists cs l, node_of (CInner CCurly cs l) c /\ l = mkloc (mkpos 0 2) (mkpos 1 0).
Proof.
  eexists. split; [vm_compute; reflexivity|]. eexists _, _. split.
  - eapply N_child; [left; reflexivity|]. eapply N_child; [left; reflexivity|].
    eapply N_child; [right; left; reflexivity|]. apply N_self.
  - reflexivity.
Qed.

(** ** C15 *)
Theorem C15_merge_start : forall a b,
  let m := merge_location a b in
  pos_le (lstart m) (lstart a) /\ pos_le (lstart m) (lstart b) /\
  (lstart m = lstart a \/ lstart m = lstart b).
Proof. exact merge_start. Qed.
Print Assumptions C15_merge_start.

Theorem C15_merge_end_when_partial : forall a b,
  let m := merge_location a b in
  (pos_le (lend a) (lend m) /\ pos_le (lend b) (lend m) /\ (lend m = lend a \/ lend m = lend b)) <->
  (pline (lend a) <> pline (lend b) \/
   if pchar (lend b) <? pline (lend b) then pchar (lend b) <= pchar (lend a)
   else pchar (lend a) <= pchar (lend b)).
Proof. exact merge_end. Qed.
Print Assumptions C15_merge_end_when_partial.

Theorem C15_merge_end_refuted : exists a b,
  let m := merge_location a b in
  ~ (pos_le (lend a) (lend m) /\ pos_le (lend b) (lend m) /\ (lend m = lend a \/ lend m = lend b)).
Proof. exact merge_end_refuted. Qed.
Print Assumptions C15_merge_end_refuted.

Example C15_example :
  merge_location (mkloc (mkpos 5 0) (mkpos 5 1)) (mkloc (mkpos 5 1) (mkpos 5 2)) =
  mkloc (mkpos 5 0) (mkpos 5 1).
Proof. reflexivity. Qed.

(** ** C16 *)
Theorem C16_start_is_origin_partial : forall ts c, parse ts = Ok c ->
  forall k cs l, node_of (CInner k cs l) c -> k = CStmt \/ k = CDocument -> lstart l = mkpos 0 0.
Proof. exact stmt_starts. Qed.
Print Assumptions C16_start_is_origin_partial.

Theorem C16_stmt_end_partial : forall seg, seg_laws seg -> forall s ts c,
  tokenize_str seg s = Ok ts -> parse ts = Ok c -> forall cs l, node_of (CInner CStmt cs l) c ->
  exists z, nth_error cs (length cs - 1) = Some z /\ lend l = lend (cst_location z).
Proof.
  exact (fun seg L s ts c E H => stmt_ends (fun v => length (seg v)) ts c H (tokenize_tiled seg L s ts E)).
Qed.
Print Assumptions C16_stmt_end_partial.

Theorem C16_start_refuted : forall seg, seg_laws seg ->
  exists s c cs l x, front seg s = Ok c /\ node_of (CInner CStmt (x :: cs) l) c /\
    lstart l <> lstart (cst_location x).
Proof. exact start_refuted. Qed.
Print Assumptions C16_start_refuted.

Theorem C16_document_end_refuted : forall seg, seg_laws seg ->
  exists s c cs l z, front seg s = Ok c /\ c = CInner CDocument cs l /\
    nth_error cs (length cs - 1) = Some z /\ lend l <> lend (cst_location z).
Proof. exact document_end_refuted. Qed.
Print Assumptions C16_document_end_refuted.

(** Where a document ends: with the EOF, its last child, or, if the line number of the EOF exceeds
    its column and the child before it ends on that line, with that child. *)
Theorem C16_document_end_exactly : forall seg, seg_laws seg -> forall s ts cs l,
  tokenize_str seg s = Ok ts -> parse ts = Ok (CInner CDocument cs l) ->
  exists before le, cs = before ++ [CLeaf LEOF None le] /\
  lend l =
  match before with
  | [] => lend le
  | x :: r =>
    let p := lend (cst_location (last r x)) in
    if ((pline p =? pline (lend le)) && (pchar (lend le) <? pline (lend le)))%nat%bool then p else lend le
  end.
Proof.
  exact (fun seg L s ts cs l E H => document_end (fun v => length (seg v)) ts cs l H (tokenize_tiled seg L s ts E)).
Qed.
Print Assumptions C16_document_end_exactly.

(** The escape on line 3 stands for two characters, of which its Stmt covers the first. *)
Example C16_document_end_example :
  let doc c := match c with Ok (CInner _ cs l) => Some (lend l, map (fun x => lend (cst_location x)) cs) | _ => None end in
  doc (front gseg (lit "a" ++ [10; 10; 10]%N ++ lit "\[")) =
    Some (mkpos 3 1, [mkpos 0 1; mkpos 0 2; mkpos 1 1; mkpos 2 1; mkpos 3 1; mkpos 3 2]) /\
  doc (front gseg (lit "a" ++ [10; 10]%N ++ lit "\[")) =
    Some (mkpos 2 2, [mkpos 0 1; mkpos 0 2; mkpos 1 1; mkpos 2 1; mkpos 2 2]).
Proof. vm_compute. repeat split; reflexivity. Qed.

Example C16_example : exists c, front gseg (lit "a" ++ [10%N] ++ lit "[m.f b]") = Ok c.
Proof. eexists. vm_compute. reflexivity. Qed.

(** ** C60 *)
Theorem C60_expr_covers_tokens_refuted : forall seg, seg_laws seg ->
  exists s c cs l t, front seg s = Ok c /\ node_of (CInner CExpr cs l) c /\
    In t (leaf_toks (CInner CExpr cs l)) /\ ~ pos_le (lend (tl t)) (lend l).
Proof. exact expr_end_refuted. Qed.
Print Assumptions C60_expr_covers_tokens_refuted.

(** Exactly the expressions that do not end in an escaped character do. *)
Theorem C60_covers_exactly : forall seg, seg_laws seg -> forall s ts c,
  tokenize_str seg s = Ok ts -> parse ts = Ok c -> forall cs l, node_of (CInner CExpr cs l) c ->
  (Forall (fun u => pos_le (lend (tl u)) (lend l)) (leaf_toks (CInner CExpr cs l)) <->
   forall x cz lz, nth_error cs (length cs - 1) <> Some (CInner CBackSlash (x :: cz) lz)).
Proof.
  intros seg L s ts c E H cs l N. pose proof (tokenize_tiled seg L s ts E) as T. split.
  - intros F x cz lz EZ. refine (expr_covers_not (fun v => length (seg v)) _ ts c H T cs l x cz lz N EZ F).
    intros v NV. pose proof (seg_concat seg L v) as C. destruct (seg v); [exfalso; apply NV; symmetry; exact C|apply Nat.lt_0_succ].
  - intro NB. apply (expr_covers (fun v => length (seg v)) ts c H T cs l N). intros z EZ x cz lz ->. exact (NB x cz lz EZ).
Qed.
Print Assumptions C60_covers_exactly.

Example C60_example : exists c, front gseg (lit "a\[b") = Ok c /\
  exists cs l, node_of (CInner CExpr cs l) c /\ length cs = 3 /\ lend l = mkpos 0 4.
Proof.
  eexists. split; [vm_compute; reflexivity|]. eexists _, _. split.
  - eapply N_child; [left; reflexivity|]. eapply N_child; [left; reflexivity|]. apply N_self.
  - split; reflexivity.
Qed.

(** ** C80 *)
Theorem C80_the_tree : forall ts c, parse ts = Ok c <-> tree_of ts c.
Proof. exact parse_tree. Qed.
Print Assumptions C80_the_tree.

Theorem C80_one_tree : forall ts c c', tree_of ts c -> tree_of ts c' -> c = c'.
Proof. intros ts c c' H H'. apply tree_parse in H, H'. congruence. Qed.
Print Assumptions C80_one_tree.

Example C80_example : exists ts c, tokenize_str gseg (lit "a [m.f b, {c" ++ [10%N] ++ lit "<d\>] e" ++ [10%N; 10%N] ++ lit "]") = Ok ts /\
  parse ts = Ok c /\ length (leaf_toks c) = 23.
Proof. eexists _, _. split; [vm_compute; reflexivity|]. split; [vm_compute; reflexivity|]. vm_compute. reflexivity. Qed.

(** ** C88 *)
(** Adding children in turn keeps the kind (and id) and appends the children; the node then starts
    at the earliest start and ends on the last line of the node and the children. *)
Theorem C88_children_added : forall xs k cs l,
  exists m, grow cst_add (CInner k cs l) xs = Ok (CInner k (cs ++ xs) m) /\
    earliest (lstart m) (map lstart (l :: map cst_location xs)) /\
    on_last_line (lend m) (map lend (l :: map cst_location xs)).
Proof. exact cst_grow. Qed.
Print Assumptions C88_children_added.

Theorem C88_children_added_ast : forall xs k id cs l,
  exists m, grow ast_add (AInner k id cs l) xs = Ok (AInner k id (cs ++ xs) m) /\
    earliest (lstart m) (map lstart (l :: map ast_location xs)) /\
    on_last_line (lend m) (map lend (l :: map ast_location xs)).
Proof. exact ast_grow. Qed.
Print Assumptions C88_children_added_ast.

(** The panics of the accessors: inner nodes have children and no value, leaves have no children and
    a value that may be missing, except that broken and ignored leaves have neither. *)
Theorem C88_accessors : forall c x,
  match c with
  | CInner k cs l => cst_children c = Ok cs /\ cst_value c = Panic (lit "This node does not have a value")
  | CLeaf k v l =>
    cst_children c = Panic (lit "This node does not have children") /\
    cst_add c x = Panic (lit "This node does not have children") /\
    cst_value c = match k with LInvalid => Panic (lit "This node does not have a value") | _ => Ok v end
  end.
Proof. intros [k cs l|k v l] x; [split; reflexivity|]. destruct k; repeat split; reflexivity. Qed.
Print Assumptions C88_accessors.

Theorem C88_accessors_ast : forall a x,
  match a with
  | AInner k id cs l => ast_children a = Ok cs /\ ast_value a = Panic (lit "Inner node has no value")
  | ALeaf FInvalid id v l =>
    let broken {A} : res A := Panic (lit "This node is broken") in
    ast_children a = broken /\ ast_value a = broken /\ ast_add a x = broken
  | ALeaf FIgnored id v l =>
    let ignored {A} : res A := Panic (lit "This node has to be ignored") in
    ast_children a = ignored /\ ast_value a = ignored /\ ast_add a x = ignored
  | ALeaf k id v l =>
    ast_value a = Ok v /\ ast_add a x = Panic (lit "Cannot add child to leaf node") /\
    ast_children a =
      match v with
      | Some s =>
        Panic (lit "Leaf node has no children: " ++
               match k with FIdent => lit "Ident: " | FModule => lit "Module: " | _ => lit "Text: " end ++ s ++ [10%N])
      | None => Panic (lit "called `Option::unwrap()` on a `None` value")
      end
  end.
Proof.
  intros [k id cs l|k id v l] x; [split; reflexivity|].
  destruct k; repeat split; destruct v; reflexivity.
Qed.
Print Assumptions C88_accessors_ast.

Example C88_example :
  let at_ a b c d := mkloc (mkpos a b) (mkpos c d) in
  grow cst_add (new_backslash (at_ 4 3 4 4)) [new_text (lit "a") (at_ 4 1 4 2); new_dot (at_ 2 5 2 6)] =
    Ok (CInner CBackSlash [new_text (lit "a") (at_ 4 1 4 2); new_dot (at_ 2 5 2 6)] (at_ 2 5 4 4)) /\
  ast_children (ALeaf FText (lit "i") (Some (lit "a")) (at_ 0 0 0 1)) =
    Panic (lit "Leaf node has no children: Text: a" ++ [10%N]).
Proof. vm_compute. repeat split; reflexivity. Qed.
