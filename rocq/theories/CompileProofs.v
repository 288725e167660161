(** Proofs about the whole pipeline. *)
From Coq Require Import String List NArith Arith Bool Lia Permutation.
From Verif Require Import Base Tokens Graphemes UAX29 Tokenizer CST SpecTok SpecCST Parser TokenizerProofs TokenizerProofs2 TokenizerWitness
  ParserProofs ParserTotal ParserAccepts ParserProofs2 ParserWitness AST TransformError Transform SpecTransform
  TransformProofs TransformErrors TransformKinds TransformMeans TransformGrammar TransformIds TransformPanic TransformShape
  Plugin Expander Codegen SpecGen PluginProofs ExpanderProofs GenProofs GenPanic PluginSets Compile SpecCompile.
Import ListNotations.

(** ** Words of tokens *)
Lemma escaped_in : forall s k, In (s, k) escapes -> escaped_by k = Some s /\ unescape s = k.
Proof.
  intros s k H. cbn in H. repeat (destruct H as [H|H]; [injection H as <- <-; split; reflexivity|]). destruct H.
Qed.
Lemma escaped_none : forall k, ~ In k (map snd escapes) -> escaped_by k = None.
Proof.
  intros k H. unfold escaped_by. destruct (find _ escapes) as [[s k']|] eqn:E; [|reflexivity].
  apply find_some in E as [I E]. cbn in E. destruct (tkind_eq_dec k' k) as [->|]; [|discriminate].
  destruct H. apply in_map_iff. exists (s, k). auto.
Qed.

Definition kw (ts : list token) : list word := tok_words (map tk ts).

Lemma words_list : forall (P : cst -> Prop),
  (forall c after, P c -> spans_ok c after -> kw (leaf_toks c ++ after) = cst_words c ++ kw after) ->
  forall cs after, Forall P cs -> spans_list cs after ->
  kw (flat_map leaf_toks cs ++ after) = flat_map cst_words cs ++ kw after.
Proof.
  intros P HP cs after F. induction F as [|c cs Hc _ IH]; intros S; [reflexivity|].
  destruct S as [S1 S2]. cbn [flat_map]. rewrite <- !app_assoc, (HP c _ Hc S1), (IH S2). reflexivity.
Qed.

Lemma words_newline : forall c after, is_newline c -> kw (leaf_toks c ++ after) = cst_words c ++ kw after.
Proof. intros c after [l ->]. reflexivity. Qed.

Definition piece (c : cst) : Prop := g_item c \/ g_expr c \/ is_newline c \/ is_close c.

Lemma words_piece : forall c, piece c -> forall after, spans_ok c after ->
  kw (leaf_toks c ++ after) = cst_words c ++ kw after.
Proof.
  induction c as [k v l|k cs l IH] using cst_ind'; intros G after S.
  - destruct G as [G|[G|[[l' E]|(k' & l' & E & K)]]].
    + inversion G as [|?|k' s l' H|k' l' H|]; subst; destruct H as [<-|[<-|[<-|[]]]]; reflexivity.
    + inversion G.
    + injection E as -> -> ->. reflexivity.
    + injection E as -> -> ->. destruct K as [<-|[<-|[<-|[]]]]; reflexivity.
  - assert (B : Forall piece cs -> kw (flat_map leaf_toks cs ++ after) = flat_map cst_words cs ++ kw after).
    { intro F. eapply words_list with (P := fun c => piece c /\ (piece c -> forall after, spans_ok c after ->
          kw (leaf_toks c ++ after) = cst_words c ++ kw after)).
      - intros c aft [P Q] Sc. exact (Q P aft Sc).
      - rewrite Forall_forall in *. auto.
      - exact (proj2 S). }
    destruct G as [G|[G|[[l' E]|(k' & l' & E & K)]]]; try discriminate.
    + inversion G as [l0 E|s k0 l0 l' H E|?|?|k0 o cl lo body close l0 H1 H2 H3 E]; subst.
      * destruct S as [S _]. cbn in S. unfold kw. cbn. destruct after as [|t r]; [reflexivity|]. cbn [map].
        rewrite (escaped_none (tk t)); [reflexivity|]. exact (S eq_refl t r eq_refl).
      * destruct (escaped_in s k0 H) as [E U]. unfold kw. cbn [leaf_toks app map tk tok_words]. rewrite U, E. reflexivity.
      * assert (B' : kw (flat_map leaf_toks (body ++ close) ++ after) = flat_map cst_words (body ++ close) ++ kw after).
        { eapply words_list with (P := fun c => piece c /\ (piece c -> forall after, spans_ok c after ->
            kw (leaf_toks c ++ after) = cst_words c ++ kw after)).
          - intros c aft [P Q] Sc. exact (Q P aft Sc).
          - apply Forall_inv_tail in IH. rewrite Forall_forall in IH |- *. intros x I. split; [|exact (IH x I)].
            apply in_app_or in I as [I|I].
            + rewrite Forall_forall in H2. destruct (H2 x I) as [X|X]; unfold piece; auto.
            + destruct H3 as [->|[lc ->]]; [destruct I|]. destruct I as [<-|[]]. right. right. right. exists cl, lc.
              split; [reflexivity|]. destruct k; try discriminate; injection H1 as <- <-; cbn; tauto.
          - destruct S as [_ [_ S]]. exact S. }
        destruct k; try discriminate; injection H1 as <- <-;
          cbn [leaf_toks flat_map cst_words cst_marks app]; unfold kw in *; cbn [map tk tok_words leaf_kind app];
          f_equal; exact B'.
    + inversion G as [items l0 NE HF E]; subst. apply B. eapply Forall_impl; [|exact HF]. unfold piece. auto.
Qed.

Lemma words_item : forall c, g_item c -> forall after, spans_ok c after ->
  kw (leaf_toks c ++ after) = cst_words c ++ kw after.
Proof. intros c G. apply words_piece. left. exact G. Qed.

Lemma words_expr : forall c after, g_expr c -> spans_ok c after ->
  kw (leaf_toks c ++ after) = cst_words c ++ kw after.
Proof.
  intros c after [items l _ HF] [_ S]. exact (words_list g_item (fun c after G => words_item c G after) items after HF S).
Qed.
Lemma words_eoc : forall c after, g_expr_or_close c -> spans_ok c after ->
  kw (leaf_toks c ++ after) = cst_words c ++ kw after.
Proof.
  intros c after [G|(k & l & -> & K)] S; [exact (words_expr c after G S)|]. destruct K as [<-|[<-|[<-|[]]]]; reflexivity.
Qed.
Lemma words_stmt : forall c after, g_stmt c -> spans_ok c after ->
  kw (leaf_toks c ++ after) = cst_words c ++ kw after.
Proof.
  intros c after (x & cs & l & -> & X & T) [_ S].
  refine (words_list (fun x => g_expr_or_close x \/ is_newline x) _ (x :: cs) after _ S).
  - intros y aft [Y|Y] Sy; [exact (words_eoc y aft Y Sy)|exact (words_newline y aft Y)].
  - constructor; [auto|]. clear -T. induction T; auto.
Qed.
Theorem words_document : forall c after, g_document c -> spans_ok c after ->
  kw (leaf_toks c ++ after) = cst_words c ++ kw after.
Proof.
  intros c after (ps & lst & ns & le & l & -> & P & L & N) [_ S].
  refine (words_list (fun x => g_stmt x \/ is_newline x \/ x = CLeaf LEOF None le) _ _ after _ S).
  - intros y aft [Y|[Y| ->]] Sy; [exact (words_stmt y aft Y Sy)|exact (words_newline y aft Y)|reflexivity].
  - assert (NL : forall l, Forall is_newline l -> Forall (fun x => g_stmt x \/ is_newline x \/ x = CLeaf LEOF None le) l).
    { intros xs H. eapply Forall_impl; [|exact H]. auto. }
    apply Forall_app. split; [|apply Forall_app; split; [|apply Forall_app; split; [auto|auto]]].
    + clear -P NL. induction P as [|s n1 n2 ns' cs A B C D _ IH]; [constructor|].
      constructor; [auto|]. constructor; [auto|]. constructor; [auto|]. apply Forall_app. auto.
    + destruct L as [->|(s & -> & G)]; auto.
Qed.

(** The words of the AST are those of the tokens. *)
Theorem ast_tok_words : forall seg, seg_laws seg -> forall uuid s ts c a es, tokenize_str seg s = Ok ts ->
  parse ts = Ok c -> transform uuid c = Ok (a, es) -> ast_words a = tok_words (map tk ts).
Proof.
  intros seg L uuid s ts c a es T P X. destruct (parse_sound _ _ P) as (G & rest & E & S).
  rewrite (transform_words uuid c a es G X). pose proof (front_lossless seg L s ts c T P) as LT.
  assert (rest = []) as -> by (apply (app_inv_head ts); rewrite app_nil_r; rewrite <- LT at 1; symmetry; exact E).
  pose proof (words_document c [] G S) as W. unfold kw in W. cbn in W. rewrite !app_nil_r in W. rewrite LT in W.
  symmetry. exact W.
Qed.

(** ** Documents without commands *)
Lemma node_words : forall c n, In n (cst_nodes c) -> incl (cst_words n) (cst_words c).
Proof.
  induction c as [k v l|k cs l IH] using cst_ind'; intros n I; [destruct I as [<-|[]]; apply incl_refl|].
  cbn [cst_nodes] in I. apply in_app_or in I as [I|[<-|[]]]; [|apply incl_refl].
  apply in_flat_map in I as (x & X & I). rewrite Forall_forall in IH. intros w W. cbn [cst_words]. apply in_or_app. right.
  apply in_flat_map. exists x. split; [exact X|]. exact (IH x X n I w W).
Qed.

Lemma text_no_errors : forall uuid c a es xs, g_document c -> transform uuid c = Ok (a, es) ->
  cst_words c = map WText xs -> es = [].
Proof.
  intros uuid c a es xs G X W. rewrite (transform_own uuid c a es G X).
  assert (O : forall n, In n (cst_nodes c) -> own n = []).
  { intros n I. pose proof (node_words c n I) as N. rewrite W in N.
    assert (T : forall w, In w (cst_words n) -> exists s, w = WText s).
    { intros w H. apply N in H. apply in_map_iff in H as (s & <- & _). eauto. }
    destruct n as [k cs l|k v l]; [|reflexivity].
    destruct k; cbn; try reflexivity;
      try (destruct (T (WCommand NAngle) (or_introl eq_refl)) as [s E]; discriminate);
      try (destruct (T (WCommand NCurly) (or_introl eq_refl)) as [s E]; discriminate);
      try (destruct (T (WCommand NSquare) (or_introl eq_refl)) as [s E]; discriminate).
    destruct cs; [|reflexivity]. destruct (T WInvalid (or_introl eq_refl)) as [s E]. discriminate. }
  induction (cst_nodes c) as [|n ns IH]; [reflexivity|]. cbn. rewrite O by (left; reflexivity). apply IH.
  intros m I. apply O. right. exact I.
Qed.

Lemma map_text_app : forall a b xs, a ++ b = map WText xs ->
  exists x1 x2, a = map WText x1 /\ b = map WText x2 /\ xs = x1 ++ x2.
Proof.
  induction a as [|w a IH]; intros b xs E; [exists [], xs; auto|]. destruct xs as [|x xs]; [discriminate|].
  injection E as -> E. destruct (IH b xs E) as (x1 & x2 & -> & -> & ->). exists (x :: x1), x2. auto.
Qed.

Section Plain.
  Variable checks : bool.
  Variable w : world.
  Variable ps : plugins.
  Hypothesis HF : hook_free ps.

  Lemma passes_free : forall lv s h, passes w ps lv s h s h.
  Proof. destruct HF as (A & B & C & D). intros [] s h; unfold passes, hook; rewrite ?A, ?B, ?C, ?D; auto. Qed.

  Lemma text_item : forall c xs h, ag_item any_word c -> ast_words c = map WText xs ->
    exists i l, c = ALeaf FText i (Some (concat xs)) l /\ renders checks w ps c h (concat xs) h.
  Proof.
    intros c xs h G W. inversion G as [k i s l K|c' C]; subst.
    - destruct K as [<-|[<-|[<-|[]]]]; destruct xs as [|x [|y xs]]; try discriminate.
      injection W as ->. cbn [concat]. rewrite app_nil_r. exists i, l. split; [reflexivity|]. constructor. apply passes_free.
    - exfalso. inversion C as [k i m f args l K]; subst. destruct K as [<-|[<-|[<-|[]]]]; destruct xs; discriminate.
  Qed.

  Lemma text_parts : forall k (P : ast -> Prop), (forall c xs h, P c -> ast_words c = map WText xs ->
      stands_in c k /\ renders checks w ps c h (concat xs) h) ->
    forall cs xs h, Forall P cs -> flat_map ast_words cs = map WText xs ->
    exists ss, renders_all checks w ps k cs h ss h /\ concat ss = concat xs.
  Proof.
    intros k P HP cs xs h F. revert xs. induction F as [|c cs Hc _ IH]; intros xs E.
    - destruct xs; [|discriminate]. exists []. split; [constructor|reflexivity].
    - cbn in E. apply map_text_app in E as (x1 & x2 & E1 & E2 & ->). destruct (IH x2 E2) as (ss & R & C).
      destruct (HP c x1 h Hc E1) as [S R1]. exists (concat x1 :: ss). split; [econstructor; eassumption|].
      cbn. rewrite C, concat_app. reflexivity.
  Qed.

  Lemma text_node : forall k lv i cs l xs h ss, level_of k = Some lv ->
    renders_all checks w ps k cs h ss h -> concat ss = concat xs ->
    renders checks w ps (AInner k i cs l) h (concat xs) h.
  Proof. intros k lv i cs l xs h ss K R <-. eapply Re_parts; [exact K|exact R|apply passes_free]. Qed.

  Lemma text_expr : forall c xs h, ag_expr any_word c -> ast_words c = map WText xs ->
    stands_in c NStmt /\ renders checks w ps c h (concat xs) h.
  Proof.
    intros c xs h G W. inversion G as [i ys l _ F]; subst. split; [exact I|].
    destruct (text_parts NExpr (ag_item any_word)) with (cs := ys) (xs := xs) (h := h) as (ss & R & C); auto.
    - intros c zs h' Gc E. destruct (text_item c zs h' Gc E) as (j & l' & -> & R). split; [exact I|exact R].
    - exact (text_node NExpr Expr i ys l xs h ss eq_refl R C).
  Qed.
  Lemma text_stmt : forall c xs h, ag_stmt any_word c -> ast_words c = map WText xs ->
    stands_in c NDocument /\ renders checks w ps c h (concat xs) h.
  Proof.
    intros c xs h (i & ys & l & -> & F) W. split; [reflexivity|].
    destruct (text_parts NStmt (ag_expr any_word) text_expr ys xs h F W) as (ss & R & C).
    exact (text_node NStmt Stmt i ys l xs h ss eq_refl R C).
  Qed.
  Lemma text_generate : forall a xs h, ag_document any_word a -> ast_words a = map WText xs ->
    generate checks w ps a h = (Ok (concat xs), h).
  Proof.
    intros a xs h (i & ys & l & -> & F) W. apply generate_renders. split; [eauto|].
    destruct (text_parts NDocument (ag_stmt any_word) text_stmt ys xs h F W) as (ss & R & C).
    exact (text_node NDocument Document i ys l xs h ss eq_refl R C).
  Qed.

  Lemma no_words_meets : forall a, ~ In WInvalid (ast_words a) -> ~ In (WCommand NAngle) (ast_words a) -> meets a = [].
  Proof.
    induction a as [k i v l|k i cs l IH] using ast_ind'; intros N1 N2.
    - destruct k; try reflexivity; destruct N1; left; reflexivity.
    - assert (M : flat_map meets cs = []).
      { cbn [ast_words] in *. assert (N1' : ~ In WInvalid (flat_map ast_words cs)) by (intro H; apply N1, in_or_app; auto).
        assert (N2' : ~ In (WCommand NAngle) (flat_map ast_words cs)) by (intro H; apply N2, in_or_app; auto).
        clear N1 N2. induction IH as [|c cs Hc _ IH]; [reflexivity|]. cbn in *.
        rewrite Hc, IH; [reflexivity|..]; intro H;
          first [solve [apply N1', in_or_app; auto]|solve [apply N2', in_or_app; auto]]. }
      destruct k; cbn [meets]; try exact M. destruct N2. left. reflexivity.
  Qed.
  Lemma no_words_expander : forall a h, ~ In WInvalid (ast_words a) -> ~ In (WCommand NAngle) (ast_words a) ->
    expander w ps a h = (Ok a, h).
  Proof.
    intros a h N1 N2. destruct (expander w ps a h) as [r h'] eqn:E.
    destruct (expander_runs _ _ _ _ _ _ E) as (o & EO & R).
    assert (I : inside a = []).
    { destruct a as [k i cs l|k i v l]; [|exact (no_words_meets _ N1 N2)]. cbn [inside].
      destruct k; try exact (no_words_meets _ N1 N2). destruct N2. left. reflexivity. }
    rewrite I in R. inversion R as [h0| | | |]; subst. destruct r as [a'|?|?|]; cbn in EO; try discriminate; try destruct EO.
    rewrite (expander_same _ _ _ _ _ _ E). reflexivity.
  Qed.

  Theorem text_compiles : forall seg, seg_laws seg -> forall uuid s ts c a es xs h,
    tokenize_str seg s = Ok ts -> parse ts = Ok c -> transform uuid c = Ok (a, es) ->
    tok_words (map tk ts) = map WText xs -> compile seg uuid checks w ps s h = (Ok (concat xs), h).
  Proof.
    intros seg L uuid s ts c a es xs h T P X W. unfold compile, mbind, ret. rewrite T, P, X.
    pose proof (ast_tok_words seg L uuid s ts c a es T P X) as A. rewrite W in A.
    pose proof (proj1 (parse_sound _ _ P)) as G.
    assert (C : cst_words c = map WText xs) by (rewrite <- (transform_words uuid c a es G X); exact A).
    rewrite (text_no_errors uuid c a es xs G X C) in X. rewrite no_words_expander.
    - apply text_generate; [|exact A]. exact (document_shape c a G (transform_means uuid c a G X)).
    - rewrite A. intro H. apply in_map_iff in H as (? & ? & _). discriminate.
    - rewrite A. intro H. apply in_map_iff in H as (? & ? & _). discriminate.
  Qed.
End Plain.

(** ** Plain lines *)
Lemma lines_accepted : forall ls p, p = AtLineStart \/ p = AfterExpr -> accepts [] p (lines_kinds ls) = true.
Proof.
  induction ls as [|l ls IH]; intros p H; [reflexivity|]. destruct ls as [|l' ls].
  - destruct l; [reflexivity|]. destruct H as [-> | ->]; reflexivity.
  - change (accepts [] p (line_kinds l ++ TkNewLine :: lines_kinds (l' :: ls)) = true).
    destruct l; cbn [line_kinds app accepts].
    + destruct H as [-> | ->]; apply IH; auto.
    + destruct H as [-> | ->]; cbn [content_ok andb]; apply IH; auto.
Qed.
Lemma blank_accepted : forall ls p, p = AtDocStart \/ p = OnlyNewlines -> Forall (eq []) ls ->
  accepts [] p (lines_kinds ls) = true.
Proof.
  induction ls as [|l ls IH]; intros p H F; [reflexivity|]. inversion F as [|? ? <- F']; subst. destruct ls as [|l' ls]; [reflexivity|].
  change (accepts [] p (TkNewLine :: lines_kinds (l' :: ls)) = true). cbn [accepts].
  destruct H as [-> | ->]; apply IH; auto.
Qed.
Lemma document_accepted : forall ls, (exists c l ls', ls = (c :: l) :: ls') \/ Forall (eq []) ls ->
  accepts [] AtDocStart (lines_kinds ls) = true.
Proof.
  intros ls [(c & l & ls' & ->)|F]; [|apply blank_accepted; auto]. destruct ls' as [|l' ls']; [reflexivity|].
  change (accepts [] AtDocStart (TkText (c :: l) :: TkNewLine :: lines_kinds (l' :: ls')) = true). cbn [accepts content_ok andb].
  apply lines_accepted. auto.
Qed.
Lemma lines_outside : forall ls, outside [] (lines_kinds ls) = false.
Proof.
  induction ls as [|l ls IH]; [reflexivity|]. destruct ls as [|l' ls]; [destruct l; reflexivity|].
  change (outside [] (line_kinds l ++ TkNewLine :: lines_kinds (l' :: ls)) = false). destruct l; exact IH.
Qed.
Lemma lines_words : forall ls, exists xs, tok_words (lines_kinds ls) = map WText xs /\ concat xs = concat ls.
Proof.
  induction ls as [|l ls (xs & E & C)]; [exists []; auto|]. destruct ls as [|l' ls].
  - destruct l as [|c l]; [exists []; auto|]. exists [c :: l]. auto.
  - change (lines_kinds (l :: l' :: ls)) with (line_kinds l ++ TkNewLine :: lines_kinds (l' :: ls)).
    destruct l as [|c l]; [exists xs; auto|]. exists ((c :: l) :: xs). cbn [line_kinds app tok_words map]. split; [f_equal; exact E|].
    cbn [concat] in *. rewrite C. reflexivity.
Qed.

Theorem lines_compile : forall seg, seg_laws seg -> forall uuid checks w ps ls h,
  (forall l, In l ls -> (forall c, In c l -> ~ In c markup /\ c <> 10%N /\ c <> 0%N) /\ (forall l', l <> l' ++ [13%N])) ->
  (exists c l ls', ls = (c :: l) :: ls') \/ Forall (eq []) ls ->
  hook_free ps ->
  compile seg uuid checks w ps (join_lines ls) h = (Ok (concat ls), h).
Proof.
  intros seg L uuid checks w ps ls h HL HD HF. destruct (tokenize_total seg L (join_lines ls)) as [ts T].
  pose proof (tokenize_plain seg L ls ts HL T) as K.
  assert (A : acceptable ts = true) by (unfold acceptable; rewrite K; apply document_accepted; exact HD).
  apply parse_accepts in A as [c P].
  destruct (panics_outside uuid ts c P) as [[O _]|[_ (a & es & X)]]; [rewrite K, lines_outside in O; discriminate|].
  destruct (lines_words ls) as (xs & W & <-). rewrite <- K in W.
  exact (text_compiles checks w ps HF seg L uuid (join_lines ls) ts c a es xs h T P X W).
Qed.

(** ** Macros *)
Lemma angle_node : forall a, In (WCommand NAngle) (ast_words a) -> exists i cs l, In (AInner NAngle i cs l) (ast_nodes a).
Proof.
  induction a as [k i v l|k i cs l IH] using ast_ind'; intro W.
  - exfalso. destruct k; try destruct v; cbn in W; intuition discriminate.
  - cbn [ast_words] in W. apply in_app_or in W as [W|W].
    + destruct k; cbn in W; try (exfalso; intuition discriminate). exists i, cs, l. left. reflexivity.
    + apply in_flat_map in W as (c & I & W). rewrite Forall_forall in IH. destruct (IH c I W) as (j & ds & m & J).
      exists j, ds, m. right. apply in_flat_map. eauto.
Qed.

Theorem macro_never_compiles : forall seg, seg_laws seg -> forall uuid checks w ps s ts h g h',
  tokenize_str seg s = Ok ts -> In (WCommand NAngle) (tok_words (map tk ts)) ->
  compile seg uuid checks w ps s h <> (Ok g, h').
Proof.
  intros seg L uuid checks w ps s ts h g h' T W E. unfold compile, mbind, ret in E. rewrite T in E.
  destruct (parse ts) as [c|?|?|] eqn:P; try discriminate. destruct (transform uuid c) as [[a es]|?|?|] eqn:X; try discriminate.
  destruct (expander w ps a h) as [[b|?|?|] h1] eqn:EX; try discriminate. apply expander_same in EX as ->.
  rewrite <- (ast_tok_words seg L uuid s ts c a es T P X) in W. destruct (angle_node a W) as (i & cs & l & I).
  apply generate_renders in E as [_ R]. exact (renders_no_angle _ _ _ _ _ _ _ R _ _ _ I).
Qed.

(** ** Values and panics *)
Lemma missing_words : forall a, ~ In WMissing (ast_words a) -> has_values a.
Proof.
  induction a as [k i v l|k i cs l IH] using ast_ind'; intros N k0 i0 l0 I.
  - destruct I as [E|[]]. injection E as -> -> -> ->. destruct k0; cbn; auto; destruct N; left; reflexivity.
  - destruct I as [E|I]; [discriminate|]. apply in_flat_map in I as (c & J & I). rewrite Forall_forall in IH.
    refine (IH c J _ k0 i0 l0 I). intro H. apply N. cbn [ast_words]. apply in_or_app. right. apply in_flat_map. eauto.
Qed.

Lemma tok_words_there : forall n ks, length ks <= n -> ~ In WMissing (tok_words ks).
Proof.
  induction n as [|n IH]; intros ks LE; destruct ks as [|k ks]; try (cbn in LE; lia); [intros []|intros []|].
  cbn in LE. assert (IHk : ~ In WMissing (tok_words ks)) by (apply IH; lia).
  destruct k; cbn [tok_words]; try exact IHk; try (intros [H|H]; [discriminate|exact (IHk H)]).
  destruct ks as [|k ks]; [intros [H|[]]; discriminate|]. destruct (escaped_by k).
  - intros [H|H]; [discriminate|]. revert H. apply IH. cbn in LE. lia.
  - intros [H|H]; [discriminate|exact (IHk H)].
Qed.

Theorem transform_values : forall uuid ts c a es, parse ts = Ok c -> transform uuid c = Ok (a, es) -> has_values a.
Proof.
  intros uuid ts c a es P X. destruct (parse_sound _ _ P) as (G & rest & _ & S). apply missing_words.
  rewrite (transform_words uuid c a es G X). pose proof (words_document c rest G S) as W. intro H.
  apply (tok_words_there _ (map tk (leaf_toks c ++ rest)) (le_n _)). change (In WMissing (kw (leaf_toks c ++ rest))).
  rewrite W. apply in_or_app. auto.
Qed.

Theorem compile_calm : forall seg, seg_laws seg -> forall uuid checks w ps s ts,
  tokenize_str seg s = Ok ts -> outside [] (map tk ts) = false -> ~ In WInvalid (tok_words (map tk ts)) ->
  (forall n f t md, provides ps n f t md -> In t [TInline; TBlock] -> well_ordered (map snd (argument_types md))) ->
  calm (compile seg uuid checks w ps s).
Proof.
  intros seg L uuid checks w ps s ts T O N WO h e h' E. unfold compile, mbind, ret in E. rewrite T in E.
  destruct (parse ts) as [c|?|?|] eqn:P; try discriminate.
  2: { destruct (front_ok_or_err seg L s) as [[c F]|[x F]]; unfold front in F; rewrite T in F; cbn [bind] in F; congruence. }
  destruct (panics_outside uuid ts c P) as [[X _]|[_ (a & es & X)]]; [congruence|]. rewrite X in E.
  pose proof (ast_tok_words seg L uuid s ts c a es T P X) as A. rewrite <- A in N.
  destruct (expander w ps a h) as [[b|x|x|] h1] eqn:EX; try discriminate.
  - apply expander_same in EX as ->. exact (generate_calm checks w ps WO a (transform_values uuid ts c a es P X) _ _ _ E).
  - destruct (expander_runs _ _ _ _ _ _ EX) as (o & EO & R). cbn in EO. subst o.
    destruct (run_panicked _ _ _ _ _ _ R) as (b & I & B). exact (N (broken_words a b (inside_nodes _ _ I) B)).
Qed.

(** ** The order of the plugins *)
Theorem order_compile : forall ps ps' r, Permutation ps ps' -> NoDup (map p_name ps) -> plugins_new ps = Ok r ->
  exists r', plugins_new ps' = Ok r' /\
    (forall n p, entry (name_to_plugin r) n p <-> entry (name_to_plugin r') n p) /\ (forall lv, hook r lv = hook r' lv) /\
    forall seg uuid checks w s h, compile seg uuid checks w r s h = compile seg uuid checks w r' s h.
Proof.
  intros ps ps' r P N E. destruct (order_irrelevant ps ps' r P N E) as (r' & E' & S). exists r'.
  split; [exact E'|]. split; [exact (proj1 S)|]. split; [exact (proj2 S)|]. intros seg uuid checks w s h. unfold compile, mbind, ret.
  destruct (tokenize_str seg s) as [ts|?|?|]; try reflexivity. destruct (parse ts) as [c|?|?|]; try reflexivity.
  destruct (transform uuid c) as [[a es]|?|?|]; try reflexivity. rewrite (same_expander w r r' S a h).
  destruct (expander w r' a h) as [[b|?|?|] h1]; try reflexivity. apply same_generate. exact S.
Qed.

(** ** ASCII texts *)
Lemma compile_gseg : forall seg, seg_laws seg -> forall uuid checks w ps s h, ascii s = true ->
  compile seg uuid checks w ps s h = compile gseg uuid checks w ps s h.
Proof.
  intros seg L uuid checks w ps s h A. unfold compile, mbind, ret. rewrite (tokenize_gseg seg s L A). reflexivity.
Qed.
