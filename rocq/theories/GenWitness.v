(** Witnesses for the expander and code generation properties: a plugin, a world, concrete texts. *)
From Coq Require Import String List NArith Arith Bool Lia.
From Verif Require Import Base Tokens Graphemes UAX29 Tokenizer CST SpecTok SpecCST Parser
  TokenizerProofs TokenizerWitness ParserWitness AST TransformError Transform SpecTransform TransformWitness
  Plugin Expander Codegen SpecGen Compile SpecCompile CompileProofs.
Import ListNotations.

(** ** A plugin *)
Definition cmd (n : string) (ts : list ptype) (r : ptype) : metadata :=
  mkMeta (lit n) (lit "call_" ++ lit n) (map (fun t => (lit "p", t)) ts) r.
Definition demo_commands : list metadata :=
  [cmd "f" [TInline] TInline; cmd "g" [TInline; TOption TInline] TBlock; cmd "h" [TInline; TArray TInline] TInline;
   cmd "o" [TOption TInline; TInline] TInline; cmd "p" [TOption TInline; TArray TInline] TInline;
   cmd "q" [TArray TInline; TInline] TInline; cmd "mac" [] TAST; cmd "document" [TBlock] TBlock; cmd "stmt" [TBlock] TBlock;
   cmd "expr" [TInline] TInline; cmd "text" [TInline] TInline].
Definition no_flags := mkFlags false false false false.
Definition all_flags := mkFlags true true true true.
Definition setup (f : flags) : res plugins :=
  let! p := plugin_new (lit "m") demo_commands f in plugins_new [p].
Definition the {A} (d : A) (r : res A) : A := match r with Ok x => x | _ => d end.
Definition no_plugins := mkPlugins [] None None None None.
Definition demo := the no_plugins (setup no_flags).
Definition hooked_demo := the no_plugins (setup all_flags).

(** A world in which a command answers with its name and its arguments, and a macro with a text node. *)
Definition show_value (v : value) : str :=
  match v with
  | VText s => s
  | VArray l => concat (map (fun s => lit "," ++ s) l)
  | VOption (Some s) => lit "?" ++ s
  | VOption None => lit "-"
  end.
Definition reply_ast : ast := ALeaf FText (lit "new") (Some (lit "expanded")) mock_location.
Definition echo : world := fun _ e =>
  match ev_input e with
  | IValues vs => RText (lit "(" ++ skipn 5 (ev_function e) ++ lit ":" ++ concat (map show_value vs) ++ lit ")")
  | IMacro _ _ => RAst reply_ast
  end.

Lemma setup_ok : setup no_flags = Ok demo /\ setup all_flags = Ok hooked_demo.
Proof. split; vm_compute; reflexivity. Qed.

(** ** Macros *)
Lemma not_expanded : forall seg uuid, seg_laws seg ->
  exists a e, to_ast seg uuid (lit "x <m.mac y>") = Ok (a, []) /\ expander echo demo a [] = (Ok a, [e]) /\
    echo [] e = RAst reply_ast /\ In (WCommand NAngle) (ast_words a).
Proof.
  intros seg uuid L. rewrite (to_ast_gseg seg uuid _ L) by reflexivity. eexists _, _. split; [vm_compute; reflexivity|].
  split; [vm_compute; reflexivity|]. split; [reflexivity|]. cbn. tauto.
Qed.

Lemma invalid_panics : forall seg uuid w ps h, seg_laws seg ->
  exists a l e, to_ast seg uuid (lit "\q") = Ok (a, [(EInvalidBackslash, l)]) /\ expander w ps a h = (Panic e, h).
Proof.
  intros seg uuid w ps h L. rewrite (to_ast_gseg seg uuid _ L) by reflexivity. eexists _, _, _. split; vm_compute; reflexivity.
Qed.

(** ** Binding *)
Lemma bind_panics : forall seg uuid w, seg_laws seg ->
  (forall checks, exists e, compile seg uuid checks w demo (lit "[m.o a]") [] = (Panic e, [])) /\
  (forall checks, exists e, compile seg uuid checks w demo (lit "[m.p]") [] = (Panic e, [])) /\
  (exists e, compile seg uuid true w demo (lit "[m.q a]") [] = (Panic e, [])).
Proof.
  intros seg uuid w L.
  split; [|split]; try intros []; rewrite (compile_gseg seg L) by reflexivity; eexists; vm_compute; reflexivity.
Qed.

(** ** Two plugins of the same name *)
Definition twin (f : flags) (metas : list metadata) : plugin := the (mkPlugin [] [] no_flags) (plugin_new (lit "m") metas f).
Definition with_hook := twin (mkFlags true false false false) [cmd "document" [TBlock] TBlock].
Definition without_hook := twin no_flags [cmd "f" [TInline] TInline].

Lemma same_name_hook_lost : exists r, plugin_new (lit "m") [cmd "document" [TBlock] TBlock] (mkFlags true false false false) = Ok with_hook /\
  plugin_new (lit "m") [cmd "f" [TInline] TInline] no_flags = Ok without_hook /\
  plugins_new [with_hook; without_hook] = Ok r /\ hook r Document = (Some (lit "m"), lit "document", TBlock) /\
  forall checks w s h, exists e, generate checks w r (AInner NDocument s [] mock_location) h = (Err e, h).
Proof.
  eexists. split; [vm_compute; reflexivity|]. split; [vm_compute; reflexivity|]. split; [vm_compute; reflexivity|].
  split; [vm_compute; reflexivity|]. intros. eexists. vm_compute. reflexivity.
Qed.

Lemma same_name_order : exists r r', plugins_new [with_hook; without_hook] = Ok r /\ plugins_new [without_hook; with_hook] = Ok r' /\
  forall seg uuid checks, seg_laws seg -> 
   (exists e, fst (compile seg uuid checks echo r (lit "a") []) = Err e) /\
   (exists s, fst (compile seg uuid checks echo r' (lit "a") []) = Ok s).
Proof.
  eexists _, _. split; [vm_compute; reflexivity|]. split; [vm_compute; reflexivity|]. intros seg uuid checks L.
  rewrite !(compile_gseg seg L) by reflexivity. split; eexists; vm_compute; reflexivity.
Qed.

(** ** Spaces and errors *)
Lemma spaces_compile : forall seg uuid checks w ps h, seg_laws seg ->
  compile seg uuid checks w ps (lit "[m.f a b]") h = compile seg uuid checks w ps (lit "[m.f a   b]") h /\
  compile seg uuid checks w ps (lit "[m.f a b]") h = compile seg uuid checks w ps (lit "[m.f a" ++ [10%N] ++ lit "b]") h /\
  compile seg uuid checks w demo (lit "[m.f a b]") [] = compile seg uuid checks w demo (lit "[m.f ab]") [].
Proof.
  intros seg uuid checks w ps h L. rewrite !(compile_gseg seg L) by reflexivity.
  split; [|split]; vm_compute; reflexivity.
Qed.

(** An unclosed command is compiled as if it were closed. *)
Lemma error_ignored : forall seg uuid checks, seg_laws seg ->
  (exists a e, to_ast seg uuid (lit "[m.f a") = Ok (a, [e])) /\
  exists s h, compile seg uuid checks echo demo (lit "[m.f a") [] = (Ok s, h) /\
    compile seg uuid checks echo demo (lit "[m.f a]") [] = (Ok s, h).
Proof.
  intros seg uuid checks L. rewrite (to_ast_gseg seg uuid _ L) by reflexivity.
  split; [eexists _, _; vm_compute; reflexivity|]. eexists _, _. rewrite !(compile_gseg seg L) by reflexivity.
  split; vm_compute; reflexivity.
Qed.

Lemma errors_never_matter : forall seg uuid checks w ps s1 s2 a es1 es2 h,
  to_ast seg uuid s1 = Ok (a, es1) -> to_ast seg uuid s2 = Ok (a, es2) ->
  compile seg uuid checks w ps s1 h = compile seg uuid checks w ps s2 h.
Proof.
  intros seg uuid checks w ps s1 s2 a es1 es2 h H1 H2.
  assert (K : forall s es, to_ast seg uuid s = Ok (a, es) ->
    compile seg uuid checks w ps s h = (do! expanded := expander w ps a in generate checks w ps expanded) h).
  { intros s es H. unfold to_ast, front in H. apply bind_ok in H as (c & H & T). apply bind_ok in H as (ts & E1 & E2).
    unfold compile. unfold mbind, ret. rewrite E1, E2, T. reflexivity. }
  rewrite (K _ _ H1), (K _ _ H2). reflexivity.
Qed.

(** A set of plugins whose signatures are all in order. *)
Definition ordered_demo := the no_plugins (let! p := plugin_new (lit "m") (firstn 3 demo_commands) no_flags in plugins_new [p]).
Lemma demo_ordered : forall n f t md, provides ordered_demo n f t md -> In t [TInline; TBlock] ->
  well_ordered (map snd (argument_types md)).
Proof.
  intros n f t md (p & (m1 & m2 & E & _) & (l1 & l2 & E' & _)) _.
  assert (I : In (n, p) (name_to_plugin ordered_demo)) by (rewrite E; apply in_elt).
  vm_compute in I. destruct I as [I|[]]. injection I as _ <-. assert (J : In ((f, t), md) (l1 ++ ((f, t), md) :: l2)) by apply in_elt.
  rewrite <- E' in J. cbn [p_metadata] in J.
  destruct J as [J|[J|[J|[]]]]; injection J as _ _ <-; cbn [argument_types map snd].
  - exists [TInline], []. repeat split; repeat constructor.
  - exists [TInline], [TOption TInline]. repeat split; repeat constructor.
  - exists [TInline], [TArray TInline]. split; [reflexivity|]. split; [repeat constructor|]. right. eexists. split; reflexivity.
Qed.
