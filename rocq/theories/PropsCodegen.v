(** Property theorems C24, C29-C37, C64, C65, C84 and C87 (plugins, code generation, the pipeline). *)
From Coq Require Import String List NArith Arith Permutation.
From Verif Require Import Base Tokens Graphemes UAX29 Tokenizer CST SpecTok SpecCST Parser ParserProofs ParserWitness
  AST TransformError Transform SpecTransform TransformWitness Plugin Expander Codegen SpecGen PluginProofs ExpanderProofs
  GenProofs GenPanic PluginSets Compile SpecCompile CompileProofs GenWitness PropsTransformer
  SpecStrip SpecJoin JoinProofs JoinOutput SpecFraming SpecRefuse RefuseProofs RefuseCompile.
Import ListNotations.

(** ** C20, from the tokens on *)
Theorem C20_words_of_the_tokens : forall seg, seg_laws seg -> forall uuid s ts c a es, tokenize_str seg s = Ok ts ->
  parse ts = Ok c -> transform uuid c = Ok (a, es) -> ast_words a = tok_words (map tk ts).
Proof. exact ast_tok_words. Qed.
Print Assumptions C20_words_of_the_tokens.

Example C20_tokens_example : match tokenize_str gseg (lit "x \[[ .,,y {m \q") with
  | Ok ts => tok_words (map tk ts) = [WText (lit "x "); WText (lit "["); WCommand NSquare; WIdent (lit "y"); WCommand NCurly; WIdent (lit "m");
                                      WInvalid; WText (lit "q")]
  | _ => False
  end.
Proof. vm_compute. repeat split. Qed.

(** ** C24, in the output *)
Theorem C24_words_joined_refuted : forall seg uuid checks w ps h, seg_laws seg ->
  compile seg uuid checks w ps (lit "[m.f a b]") h = compile seg uuid checks w ps (lit "[m.f a   b]") h /\
  compile seg uuid checks w ps (lit "[m.f a b]") h = compile seg uuid checks w ps (lit "[m.f a" ++ [10%N] ++ lit "b]") h /\
  compile seg uuid checks w demo (lit "[m.f a b]") [] = compile seg uuid checks w demo (lit "[m.f ab]") [].
Proof. exact spaces_compile. Qed.
Print Assumptions C24_words_joined_refuted.

Example C24_example : fst (compile gseg num_id true echo demo (lit "[m.f a b]") []) = Ok (lit "(f:ab)").
Proof. vm_compute. reflexivity. Qed.

(** ** C29 *)
Theorem C29_plain_lines : forall seg, seg_laws seg -> forall uuid checks w ps ls h,
  (forall l, In l ls -> (forall c, In c l -> ~ In c markup /\ c <> 10%N /\ c <> 0%N) /\ (forall l', l <> l' ++ [13%N])) ->
  (exists c l ls', ls = (c :: l) :: ls') \/ Forall (eq []) ls ->
  hook_free ps ->
  compile seg uuid checks w ps (join_lines ls) h = (Ok (concat ls), h).
Proof. exact lines_compile. Qed.
Print Assumptions C29_plain_lines.

Theorem C29_text_only : forall checks w ps, hook_free ps -> forall seg, seg_laws seg -> forall uuid s ts c a es xs h,
  tokenize_str seg s = Ok ts -> parse ts = Ok c -> transform uuid c = Ok (a, es) ->
  tok_words (map tk ts) = map WText xs -> compile seg uuid checks w ps s h = (Ok (concat xs), h).
Proof. exact text_compiles. Qed.
Print Assumptions C29_text_only.

Example C29_example : hook_free demo /\
  fst (compile gseg num_id true echo demo (join_lines [lit "a, b."; []; []; lit " c"]) []) = Ok (lit "a, b. c") /\
  fst (compile gseg num_id true echo demo (lit "a \{b\} \\") []) = Ok (lit "a {b} \").
Proof. vm_compute. repeat split. Qed.

(** ** C30 *)
Theorem C30_generates_what_it_renders : forall checks w ps a h s h', generate checks w ps a h = (Ok s, h') <->
  (exists i cs l, a = AInner NDocument i cs l) /\ renders checks w ps a h s h'.
Proof. exact generate_renders. Qed.
Print Assumptions C30_generates_what_it_renders.

Example C30_example :
  fst (compile gseg num_id true echo hooked_demo (lit "a [m.f b]") []) =
    Ok (lit "(document:(stmt:(expr:(text:a )(f:(expr:(text:b))))))") /\
  map (fun e => skipn 5 (ev_function e)) (snd (compile gseg num_id true echo hooked_demo (lit "a [m.f b]") [])) =
    [lit "text"; lit "text"; lit "expr"; lit "f"; lit "expr"; lit "stmt"; lit "document"].
Proof. vm_compute. repeat split. Qed.

(** ** C31 *)
Theorem C31_every_call_is_declared : forall checks w ps a h r h', generate checks w ps a h = (r, h') ->
  exists es, h' = h ++ es /\ Forall (justified ps) es.
Proof. exact generate_traces. Qed.
Print Assumptions C31_every_call_is_declared.

Example C31_example :
  fst (compile gseg num_id true echo demo (lit "{m.g a}{m.g a, b}[m.h a][m.h a, b, c]") []) =
    Ok (lit "(g:a-)(g:a?b)(h:a)(h:a,b,c)") /\
  (exists e, compile gseg num_id true echo demo (lit "{m.g}") [] = (Err e, [])) /\
  (exists e, compile gseg num_id true echo demo (lit "{m.g a, b, c}") [] = (Err e, [])).
Proof. split; [vm_compute; reflexivity|]. split; eexists; vm_compute; reflexivity. Qed.

(** ** C32 *)
Theorem C32_binding_panics_refuted : forall seg uuid w, seg_laws seg ->
  (forall checks, exists e, compile seg uuid checks w demo (lit "[m.o a]") [] = (Panic e, [])) /\
  (forall checks, exists e, compile seg uuid checks w demo (lit "[m.p]") [] = (Panic e, [])) /\
  (exists e, compile seg uuid true w demo (lit "[m.q a]") [] = (Panic e, [])).
Proof. exact bind_panics. Qed.
Print Assumptions C32_binding_panics_refuted.

Theorem C32_command_panics_exactly : forall checks w ps k t i im m lm jf f lf args l h ss h1 md,
  command_type k = Some t -> renders_all checks w ps k args h ss h1 -> provides ps m f t md ->
  let ts := map snd (argument_types md) in
  (exists e h', gen checks w ps (AInner k i (ALeaf FModule im (Some m) lm :: ALeaf FIdent jf (Some f) lf :: args) l) h = (Panic e, h')) <->
  (checks = true /\ after_array ts) \/ (accepted checks ts (length ss) /\ unbindable ts (length ss)).
Proof. exact command_panics. Qed.
Print Assumptions C32_command_panics_exactly.

Theorem C32_safe_signatures : forall ts,
  (~ after_array ts /\ forall n, accepted true ts n -> ~ unbindable ts n) <-> well_ordered ts.
Proof. exact safe_iff_ordered. Qed.
Print Assumptions C32_safe_signatures.

Example C32_example : well_ordered [TInline; TOption TInline] /\ well_ordered [TInline; TArray TInline] /\
  after_array [TArray TInline; TInline].
Proof.
  split; [exists [TInline], [TOption TInline]|split; [exists [TInline], [TArray TInline]|]].
  - repeat split; repeat constructor.
  - split; [reflexivity|]. split; [repeat constructor|]. right. exists (TArray TInline). split; reflexivity.
  - exists [], (TArray TInline), [], TInline, []. repeat split.
Qed.

(** ** C33 *)
Theorem C33_no_macro_in_output : forall checks w ps a h s h', generate checks w ps a h = (Ok s, h') ->
  forall i cs l, ~ In (AInner NAngle i cs l) (ast_nodes a).
Proof.
  intros checks w ps a h s h' E. apply generate_renders in E as [_ R]. exact (renders_no_angle checks w ps a h s h' R).
Qed.
Print Assumptions C33_no_macro_in_output.

Theorem C33_macros_never_compile : forall seg, seg_laws seg -> forall uuid checks w ps s ts h g h',
  tokenize_str seg s = Ok ts -> In (WCommand NAngle) (tok_words (map tk ts)) ->
  compile seg uuid checks w ps s h <> (Ok g, h').
Proof. exact macro_never_compiles. Qed.
Print Assumptions C33_macros_never_compile.

Example C33_example : match tokenize_str gseg (lit "a [m.f <m.mac b>]") with
  | Ok ts => In (WCommand NAngle) (tok_words (map tk ts))
  | _ => False
  end.
Proof. vm_compute. tauto. Qed.

(** ** C34 *)
Theorem C34_at_most_one_hook : forall ps,
  ((forall lv, length (filter (enables lv) ps) <= 1) /\
   exists r, plugins_new ps = Ok r /\ (forall lv, fst (fst (hook r lv)) = hook_owner lv ps) /\
     forall n p, entry (name_to_plugin r) n p <-> last_named ps n p) \/
  (~ (forall lv, length (filter (enables lv) ps) <= 1) /\ exists e, plugins_new ps = Err e).
Proof. exact plugins_new_spec. Qed.
Print Assumptions C34_at_most_one_hook.

Example C34_example : (exists e, plugins_new [with_hook; with_hook] = Err e) /\
  hook hooked_demo Expr = (Some (lit "m"), lit "expr", TInline).
Proof. split; [eexists|]; vm_compute; reflexivity. Qed.

(** ** C35 *)
Theorem C35_hook_is_there : forall specs ps r lv n f t, NoDup (map p_name ps) ->
  Forall2 (fun s p => plugin_new (fst (fst s)) (snd (fst s)) (snd s) = Ok p) specs ps ->
  plugins_new ps = Ok r -> hook r lv = (Some n, f, t) -> exists md, provides r n f t md.
Proof. exact hook_provided. Qed.
Print Assumptions C35_hook_is_there.

Theorem C35_names_must_differ : exists r, plugin_new (lit "m") [cmd "document" [TBlock] TBlock] (mkFlags true false false false) = Ok with_hook /\
  plugin_new (lit "m") [cmd "f" [TInline] TInline] no_flags = Ok without_hook /\
  plugins_new [with_hook; without_hook] = Ok r /\ hook r Document = (Some (lit "m"), lit "document", TBlock) /\
  forall checks w s h, exists e, generate checks w r (AInner NDocument s [] mock_location) h = (Err e, h).
Proof. exact same_name_hook_lost. Qed.
Print Assumptions C35_names_must_differ.

Example C35_example : exists p, plugin_new (lit "m") demo_commands all_flags = Ok p /\ plugins_new [p] = Ok hooked_demo /\
  hook hooked_demo Document = (Some (lit "m"), lit "document", TBlock) /\ NoDup (map p_name [p]).
Proof.
  eexists. split; [vm_compute; reflexivity|]. split; [vm_compute; reflexivity|]. split; [vm_compute; reflexivity|].
  constructor; [intros []|constructor].
Qed.

(** ** C36 *)
Theorem C36_order_irrelevant : forall ps ps' r, Permutation ps ps' -> NoDup (map p_name ps) -> plugins_new ps = Ok r ->
  exists r', plugins_new ps' = Ok r' /\
    (forall n p, entry (name_to_plugin r) n p <-> entry (name_to_plugin r') n p) /\ (forall lv, hook r lv = hook r' lv) /\
    forall seg uuid checks w s h, compile seg uuid checks w r s h = compile seg uuid checks w r' s h.
Proof. exact order_compile. Qed.
Print Assumptions C36_order_irrelevant.

Theorem C36_names_must_differ : exists r r', plugins_new [with_hook; without_hook] = Ok r /\ plugins_new [without_hook; with_hook] = Ok r' /\
  forall seg uuid checks, seg_laws seg ->
   (exists e, fst (compile seg uuid checks echo r (lit "a") []) = Err e) /\
   (exists s, fst (compile seg uuid checks echo r' (lit "a") []) = Ok s).
Proof. exact same_name_order. Qed.
Print Assumptions C36_names_must_differ.

Example C36_example : let p := twin all_flags demo_commands in
  let q := the p (plugin_new (lit "n") demo_commands no_flags) in
  Permutation [p; q] [q; p] /\ map p_name [p; q] = [lit "m"; lit "n"] /\ exists r, plugins_new [p; q] = Ok r.
Proof. cbv zeta. split; [apply perm_swap|]. split; [vm_compute; reflexivity|]. eexists. vm_compute. reflexivity. Qed.

(** ** C37 *)
Theorem C37_errors_ignored_refuted : forall seg uuid checks, seg_laws seg ->
  (exists a e, to_ast seg uuid (lit "[m.f a") = Ok (a, [e])) /\
  exists s h, compile seg uuid checks echo demo (lit "[m.f a") [] = (Ok s, h) /\
    compile seg uuid checks echo demo (lit "[m.f a]") [] = (Ok s, h).
Proof. exact error_ignored. Qed.
Print Assumptions C37_errors_ignored_refuted.

Theorem C37_errors_never_matter : forall seg uuid checks w ps s1 s2 a es1 es2 h,
  to_ast seg uuid s1 = Ok (a, es1) -> to_ast seg uuid s2 = Ok (a, es2) ->
  compile seg uuid checks w ps s1 h = compile seg uuid checks w ps s2 h.
Proof. exact errors_never_matter. Qed.
Print Assumptions C37_errors_never_matter.

(** ** C64 *)
Theorem C64_plugin_accepted_exactly : forall name metas f,
  (hooks_exported f metas /\ exists p, plugin_new name metas f = Ok p /\ p_name p = name /\ p_flags p = f /\
     forall n t m, entry (p_metadata p) (n, t) m <-> last_command metas n t m) \/
  (~ hooks_exported f metas /\ exists e, plugin_new name metas f = Err e).
Proof. exact plugin_new_spec. Qed.
Print Assumptions C64_plugin_accepted_exactly.

Example C64_example : (exists p, plugin_new (lit "m") demo_commands all_flags = Ok p) /\
  (exists e, plugin_new (lit "m") [cmd "stmt" [] TInline] (mkFlags false true false false) = Err e) /\
  (exists e, plugin_new (lit "m") [cmd "stmt" [] TBlock] all_flags = Err e).
Proof. split; [|split]; eexists; vm_compute; reflexivity. Qed.

(** ** C65 *)
Theorem C65_compile_no_panic : forall seg, seg_laws seg -> forall uuid checks w ps s ts,
  tokenize_str seg s = Ok ts -> outside [] (map tk ts) = false -> ~ In WInvalid (tok_words (map tk ts)) ->
  (forall n f t md, provides ps n f t md -> In t [TInline; TBlock] -> well_ordered (map snd (argument_types md))) ->
  forall h e h', compile seg uuid checks w ps s h <> (Panic e, h').
Proof. exact compile_calm. Qed.
Print Assumptions C65_compile_no_panic.

Theorem C65_every_leaf_has_its_value : forall uuid ts c a es, parse ts = Ok c -> transform uuid c = Ok (a, es) -> has_values a.
Proof. exact transform_values. Qed.
Print Assumptions C65_every_leaf_has_its_value.

Example C65_example :
  (forall n f t md, provides ordered_demo n f t md -> In t [TInline; TBlock] -> well_ordered (map snd (argument_types md))) /\
  length (flat_map (fun p => p_metadata (snd p)) (name_to_plugin ordered_demo)) = 3 /\
  match tokenize_str gseg (lit "[, {m.f a <m \] b}") with
  | Ok ts => outside [] (map tk ts) = false /\ existsb (fun w => match w with WInvalid => true | _ => false end) (tok_words (map tk ts)) = false
  | _ => False
  end.
Proof. split; [exact demo_ordered|]. vm_compute. repeat split. Qed.

(** ** C84 *)
Theorem C84_understood : forall seg, seg_laws seg -> forall uuid a b ta ea ca aa esa tb cb ab esb,
  (forall a', a <> a' ++ [13%N]) -> ~ In 0%N a ->
  tokenize_str seg (a ++ [10; 10]%N) = Ok (ta ++ [ea]) -> countk opening ta = countk closing ta -> pending ta = false ->
  parse (ta ++ [ea]) = Ok ca -> transform uuid ca = Ok (aa, esa) ->
  filter (of_kind [EAngleNotClosed; ECurlyNotClosed; ESquareNotClosed]) esa = [] -> (exists t, In t ta /\ tk t <> TkNewLine) ->
  tokenize_str seg b = Ok tb -> parse tb = Ok cb -> transform uuid cb = Ok (ab, esb) ->
  exists ts c d es, tokenize_str seg (a ++ [10; 10]%N ++ b) = Ok ts /\ parse ts = Ok c /\ transform uuid c = Ok (d, esa ++ es) /\
    bare d = AInner NDocument [] (map bare (parts aa ++ parts ab)) mock_location /\
    map sight es = map sight (map (lower_error (countk newline ta)) esb).
Proof. exact paragraphs_understood. Qed.
Print Assumptions C84_understood.

Theorem C84_compiled : forall seg, seg_laws seg -> forall uuid checks w ps a b ta ea aa esa h sa h1 sb h2,
  (forall a', a <> a' ++ [13%N]) -> ~ In 0%N a ->
  tokenize_str seg (a ++ [10; 10]%N) = Ok (ta ++ [ea]) -> countk opening ta = countk closing ta -> pending ta = false ->
  (exists t, In t ta /\ tk t <> TkNewLine) ->
  to_ast seg uuid (a ++ [10; 10]%N) = Ok (aa, esa) ->
  filter (of_kind [EAngleNotClosed; ECurlyNotClosed; ESquareNotClosed]) esa = [] ->
  document_hook_plugin_name ps = None ->
  compile seg uuid checks w ps (a ++ [10; 10]%N) h = (Ok sa, h1) ->
  compile seg uuid checks w ps b h1 = (Ok sb, h2) ->
  compile seg uuid checks w ps (a ++ [10; 10]%N ++ b) h = (Ok (sa ++ sb), h2).
Proof. exact paragraphs_output. Qed.
Print Assumptions C84_compiled.

Theorem C84_places_do_not_matter : forall checks w ps a b, bare a = bare b ->
  forall h, generate checks w ps a h = generate checks w ps b h.
Proof. exact bare_generate. Qed.
Print Assumptions C84_places_do_not_matter.

Theorem C84_ends_of_errors_refuted : exists a b aa esa ab esb d es,
  countk newline (match tokenize_str gseg (a ++ [10; 10]%N) with Ok ts => ts | _ => [] end) = 10 /\
  to_ast gseg num_id (a ++ [10; 10]%N) = Ok (aa, esa) /\ to_ast gseg num_id b = Ok (ab, esb) /\
  to_ast gseg num_id (a ++ [10; 10]%N ++ b) = Ok (d, esa ++ es) /\ esa = [] /\
  In (ESquareNotClosed, mkloc (mkpos 0 2) (mkpos 0 6)) esb /\
  In (ESquareNotClosed, mkloc (mkpos 10 2) (mkpos 10 3)) es /\
  es <> map (lower_error 10) esb.
Proof.
  exists (lit "x" ++ repeat 10%N 8), (lit "z [m.f"). do 6 eexists.
  split; [vm_compute; reflexivity|]. split; [vm_compute; reflexivity|]. split; [vm_compute; reflexivity|].
  split; [vm_compute; reflexivity|]. split; [reflexivity|]. split; [left; reflexivity|]. split; [left; reflexivity|].
  vm_compute. discriminate.
Qed.
Print Assumptions C84_ends_of_errors_refuted.

Example C84_example :
  let a := lit "x {m.g [m.f y]}" in let b := lit "z [m.f w]" in
  (forall a', a <> a' ++ [13%N]) /\ ~ In 0%N a /\
  (exists ta ea aa, tokenize_str gseg (a ++ [10; 10]%N) = Ok (ta ++ [ea]) /\ countk opening ta = countk closing ta /\
     pending ta = false /\ (exists t, In t ta /\ tk t <> TkNewLine) /\ countk newline ta = 2 /\
     to_ast gseg num_id (a ++ [10; 10]%N) = Ok (aa, [])) /\
  document_hook_plugin_name demo = None /\
  fst (compile gseg num_id true echo demo (a ++ [10; 10]%N) []) = Ok (lit "x (g:(f:y)-)") /\
  fst (compile gseg num_id true echo demo (a ++ [10; 10]%N ++ b) []) = Ok (lit "x (g:(f:y)-)z (f:w)").
Proof.
  cbv zeta. split.
  { intros a' H. apply (f_equal (fun l => last l 0%N)) in H. rewrite last_last in H. vm_compute in H. discriminate. }
  split; [vm_compute; intuition discriminate|]. split; [|vm_compute; repeat split].
  pose (ts := match tokenize_str gseg (lit "x {m.g [m.f y]}" ++ [10; 10]%N) with Ok ts => ts | _ => [] end).
  exists (removelast ts), (last ts (mktok TkEOF mock_location)). eexists. split; [vm_compute; reflexivity|]. split; [vm_compute; reflexivity|].
  split; [vm_compute; reflexivity|]. split; [eexists; split; [left; reflexivity|discriminate]|]. split; vm_compute; reflexivity.
Qed.

(** ** C87: why code generation fails *)
Theorem C87_fails_exactly : forall checks w ps a h m h', generate checks w ps a h = (Err m, h') <->
  ((forall i cs l, a <> AInner NDocument i cs l) /\ m = lit "Document must be a document" /\ h' = h) \/
  ((exists i cs l, a = AInner NDocument i cs l) /\ refuses checks w ps a h m h').
Proof. exact generate_refuses. Qed.
Print Assumptions C87_fails_exactly.

Definition stubborn : world := fun _ _ => RFail.
Example C87_example :
  map (fun s => fst (compile gseg num_id true echo demo (lit s) [])) ["[x.f a]"; "[m.z a]"; "[m.f]"; "[m.f a, b]"]%string =
    [Err (lit "plugin not found: x"); Err (lit "command not found: z"); Err (lit "f requires at least 1 arguments");
     Err (lit "f requires at most 1 arguments")] /\
  compile gseg num_id true stubborn demo (lit "[m.f a]") [] = (Err (lit "call failed"), [mkEvent (lit "m") (lit "call_f") (IValues [VText (lit "a")])]) /\
  generate true echo demo (AInner NDocument [] [AInner NStmt [] [AInner NStmt [] [] mock_location] mock_location] mock_location) [] =
    (Err (lit "Stmt cannot contain the following node" ++ [10%N] ++ lit "Stmt" ++ [10%N]), []) /\
  numeral (lit "10") 10 /\ ~ numeral (lit "010") 10 /\ most [TInline; TOption TInline] 2.
Proof.
  split; [vm_compute; reflexivity|]. split; [vm_compute; reflexivity|]. split; [vm_compute; reflexivity|].
  split; [apply dec_numeral; reflexivity|]. split; [intros [_ H]; discriminate (H _ eq_refl)|]. left. split; reflexivity.
Qed.

Theorem C87_documents : forall seg, seg_laws seg -> forall uuid checks w ps s ts a h m h', tokenize_str seg s = Ok ts ->
  to_ast seg uuid s = Ok (a, []) -> ~ In (WCommand NAngle) (tok_words (map tk ts)) ->
  (forall lv n f t, hook ps lv = (Some n, f, t) -> exists md, provides ps n f t md) ->
  compile seg uuid checks w ps s h = (Err m, h') -> blame checks ps a m.
Proof. exact compile_blame. Qed.
Print Assumptions C87_documents.

Example C87_documents_example :
  match tokenize_str gseg (lit "[m.f \[x z]"), to_ast gseg num_id (lit "[m.f \[x z]") with
  | Ok ts, Ok (_, es) => es = [] /\ existsb (fun w => match w with WCommand NAngle => true | _ => false end) (tok_words (map tk ts)) = false
  | _, _ => False
  end /\
  compile gseg num_id true echo demo (lit "[m.f \[x z]") [] = (Err (lit "Expr cannot contain the following node" ++ [10%N] ++ lit "Ident: x" ++ [10%N]), []) /\
  (forall lv n f t, hook hooked_demo lv = (Some n, f, t) -> exists md, provides hooked_demo n f t md) /\
  (forall lv, fst (fst (hook hooked_demo lv)) = Some (lit "m")).
Proof.
  split; [vm_compute; auto|]. split; [vm_compute; reflexivity|]. split; [|intros []; reflexivity].
  intros lv n f t H. destruct C35_example as (p & E1 & E2 & _). refine (hook_provided [(lit "m", demo_commands, all_flags)] [p] _ lv n f t _ _ E2 H).
  - constructor; [intros []|constructor].
  - constructor; [exact E1|constructor].
Qed.
