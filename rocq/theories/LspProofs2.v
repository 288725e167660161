(** What the handlers of the language server do, and when the server goes on. *)
From Coq Require Import String List NArith ZArith Bool Lia ZifyBool Permutation.
From Verif Require Import Base Tokens Graphemes Tokenizer Parser ParserAccepts SpecTok SpecCST SpecTransform AST TransformError
  Transform Plugin PluginSets Utf8 Framing SemTok SpecServer SemTokProofs Json Server SpecLsp PropsTokenizer PropsParser PropsTransformer
  Boundaries LspProofs PathProofs TokenizerProofs.
Import ListNotations.

Section Handlers.
  Variable seg : str -> list str.
  Hypothesis L : seg_laws seg.
  Variable uuid : nat -> str.
  Variable checks : bool.
  Variable e : env.
  Variable st : server.

  (** ** Semantic tokens *)
  Lemma tokenize_cases : forall path,
    (exists text ts, read_file e path = inl text /\ tokenize_str seg text = Ok ts /\ tokenize seg e path = Ok ts)
    \/ (exists err, read_file e path = inr err /\ tokenize seg e path = Err err).
  Proof.
    intro path. unfold tokenize. destruct (read_file e path) as [text|err]; [left|right; eauto].
    destruct (tokenize_total seg L text) as [ts H]. eauto.
  Qed.

  Lemma semantic_tokens_cases : small_files e -> forall u,
    (exists path text ts sts, u = FilePath path /\ read_file e path = inl text /\ tokenize_str seg text = Ok ts
        /\ separate checks ts = Ok sts
        /\ map fst (decode 0 0 sts) = map span ts
        /\ map token_type sts = map (fun t => token_kind_to_type (tk t)) ts
        /\ handle_semantic_tokens_full seg checks e u = Ok (inr (semantic_tokens_json sts)))
    \/ (exists path err, u = FilePath path /\ read_file e path = inr err
        /\ handle_semantic_tokens_full seg checks e u = Ok (inl (lit "Failed to tokenize file: " ++ err)))
    \/ ((forall path, u <> FilePath path) /\ exists x, handle_semantic_tokens_full seg checks e u = Err x).
  Proof.
    intros SF u. destruct u as [| | |path]; try (right; right; split; [discriminate|eexists; reflexivity]).
    unfold handle_semantic_tokens_full. cbn [to_path bind].
    destruct (tokenize_cases path) as [(text & ts & R & T & ->)|(err & R & ->)].
    - left. destruct (semantic_tokens_decode seg L checks text ts T (SF path text R)) as (sts & S1 & S2 & S3).
      exists path, text, ts, sts. rewrite S1. repeat split; auto.
    - right. left. eauto.
  Qed.

  (** ** Completion *)
  Lemma load_plugins_ok : forall pr loaded, load_plugins e pr = Ok loaded <->
    Forall2 (fun entry p => exists metas, load_wasm e (fst (snd entry)) = Some metas
             /\ plugin_new (fst entry) metas (snd (snd entry)) = Ok p) pr loaded.
  Proof.
    induction pr as [|[n [path f]] pr IH]; intro loaded; cbn [load_plugins].
    - split; [intros [= <-]; constructor|]. intro H. inversion H. reflexivity.
    - split.
      + intro H. apply bind_ok in H as (metas & H1 & H). apply bind_ok in H as (p & H2 & H).
        apply bind_ok in H as (rest & H3 & H). injection H as <-. apply IH in H3. constructor; [|exact H3].
        exists metas. split; [|exact H2]. cbn. unfold ok_or in H1. destruct (load_wasm e path); [congruence|discriminate].
      + intro H. inversion H as [|a p b ps (metas & H1 & H2) H3]; subst. cbn in H1, H2. apply IH in H3.
        rewrite H1. cbn [ok_or bind]. rewrite H2. cbn [bind]. rewrite H3. reflexivity.
  Qed.

  Lemma load_plugins_res : forall pr, (exists ps, load_plugins e pr = Ok ps) \/ (exists x, load_plugins e pr = Err x).
  Proof.
    induction pr as [|[n [path f]] pr IH]; cbn [load_plugins]; [eauto|].
    destruct (load_wasm e path) as [metas|]; cbn [ok_or bind]; [|eauto].
    destruct (plugin_new_spec n metas f) as [[_ (p & -> & _)]|[_ (x & ->)]]; cbn [bind]; [|eauto].
    destruct IH as [(ps & ->)|(x & ->)]; cbn [bind]; eauto.
  Qed.

  Lemma plugins_new_res : forall ps, (exists r, plugins_new ps = Ok r) \/ (exists x, plugins_new ps = Err x).
  Proof. intro ps. destruct (plugins_new_spec ps) as [[_ (r & H & _)]|[_ H]]; eauto. Qed.

  (** The items of a list of plugins. *)
  Definition item_of (o : str * str) (j : json) : Prop := label_and_text j = Some o.

  Lemma items_of_plugin_ok : forall start name tbl, exists items,
    items_of_plugin e start name tbl = Ok items
    /\ map label_and_text items = map Some (flat_map (fun entry =>
      let label := name ++ lit "." ++ fst (fst entry) in
      match snd (fst entry) with
      | TInline => if str_eqb start (lit "[") then [(label, label ++ lit " $0]")] else []
      | TBlock => if str_eqb start (lit "{") then [(label, label ++ lit " $0}")] else []
      | _ => []
      end) tbl).
  Proof.
    intros start name. induction tbl as [|[[n t] m] tbl (items & E & M)]; [exists []; split; reflexivity|].
    cbn [items_of_plugin flat_map fst snd]. rewrite E.
    destruct t; destruct (str_eqb start (lit "[")); destruct (str_eqb start (lit "{")); cbn [andb orb build_completion_item bind];
      eexists; (split; [reflexivity|]); cbn [map app]; rewrite M; try reflexivity.
  Qed.

  Lemma items_of_plugins_ok : forall start ps, exists items,
    items_of_plugins e start ps = Ok items /\ map label_and_text items = map Some (offers start (map snd ps)).
  Proof.
    intros start. induction ps as [|[n p] ps (items & E & M)]; [exists []; split; reflexivity|].
    cbn [items_of_plugins map snd offers flat_map].
    destruct (items_of_plugin_ok start (p_name p) (p_metadata p)) as (its & E1 & M1).
    rewrite E1. cbn [bind]. rewrite E. cbn [bind]. exists (its ++ items). split; [reflexivity|].
    rewrite !map_app, M1, M. reflexivity.
  Qed.

  Lemma hm_insert_new : forall (m : list (str * plugin)) k v, ~ In k (map fst m) -> hm_insert str_eqb m k v = m ++ [(k, v)].
  Proof.
    induction m as [|[k' v'] m IH]; intros k v H; cbn [hm_insert app]; [reflexivity|].
    assert (Q : str_eqb k k' = false) by (apply str_eqb_neq; intro X; apply H; left; auto).
    rewrite Q, IH by (intro I; apply H; right; exact I). reflexivity.
  Qed.

  Lemma plugins_table : forall ps acc r, plugins_loop ps acc = Ok r ->
    NoDup (map fst (name_to_plugin acc) ++ map p_name ps) ->
    name_to_plugin r = name_to_plugin acc ++ map (fun p => (p_name p, p)) ps.
  Proof.
    induction ps as [|p ps IH]; intros acc r H N; cbn [plugins_loop] in H.
    - injection H as <-. cbn. rewrite app_nil_r. reflexivity.
    - repeat (match goal with H : (if ?b then Err _ else _) = Ok _ |- _ => destruct b; [discriminate|] end).
      cbn [map] in N. assert (Nin : ~ In (p_name p) (map fst (name_to_plugin acc))).
      { apply NoDup_remove_2 in N. intro I. apply N. apply in_or_app. auto. }
      apply IH in H; cbn [name_to_plugin] in *.
      + rewrite H, hm_insert_new by exact Nin. rewrite <- app_assoc. reflexivity.
      + rewrite hm_insert_new by exact Nin. rewrite map_app, <- app_assoc. exact N.
  Qed.

  Lemma loaded_names : forall pr loaded ps, loads e pr loaded ps -> map p_name loaded = map fst pr.
  Proof.
    intros pr loaded ps [F _]. induction F as [|[n [path f]] p pr loaded (metas & H1 & H2) F IH]; [reflexivity|].
    cbn in *. rewrite IH. destruct (plugin_new_spec n metas f) as [[_ (p' & E & N & _)]|[_ (x & E)]]; [|congruence].
    assert (p' = p) by congruence. subst p'. rewrite N. reflexivity.
  Qed.

  Lemma loads_fun : forall pr l1 p1 l2 p2, loads e pr l1 p1 -> loads e pr l2 p2 -> l1 = l2 /\ p1 = p2.
  Proof.
    intros pr l1 p1 l2 p2 [A1 B1] [A2 B2]. apply load_plugins_ok in A1. apply load_plugins_ok in A2.
    assert (l1 = l2) by congruence. subst. split; congruence.
  Qed.

  Lemma context_spec : forall msg,
    match completion_context (params_of msg) with
    | None => ~ has_context msg
    | Some None => has_context msg /\ ~ exists t, triggered msg t
    | Some (Some t) => has_context msg /\ triggered msg t
    end.
  Proof.
    intro msg. unfold completion_context, triggered. rewrite params_eq, path_params.
    destruct (field_opt "context" (params msg)) as [c|] eqn:C.
    - apply field_opt_spec in C as [C N].
      assert (HC : has_context msg).
      { exists c. rewrite path_params. cbn [lookup_path]. rewrite C. auto. }
      cbn [lookup_path]. rewrite C.
      destruct (field_opt "triggerCharacter" c) as [v|] eqn:T.
      + apply field_opt_spec in T as [T _]. rewrite T. 
        destruct v; split; try exact HC; try (intros (t & X); discriminate). reflexivity.
      + split; [exact HC|]. intros (t & X). destruct (lookup "triggerCharacter" c) as [v|] eqn:W; [|discriminate].
        injection X as ->. assert (Y : field_opt "triggerCharacter" c = Some (JStr t)) by (apply field_opt_spec; split; [exact W|discriminate]).
        congruence.
    - intros (c & X & N). rewrite path_params in X. cbn [lookup_path] in X.
      destruct (lookup "context" (params msg)) as [c'|] eqn:W; [|discriminate]. injection X as ->.
      assert (Y : field_opt "context" (params msg) = Some c) by (apply field_opt_spec; auto). congruence.
  Qed.

  Lemma completion_cases : forall msg,
    (srv_project st = None /\ handle_completion e st (completion_context (params_of msg)) = Ok None)
    \/ exists pr, srv_project st = Some pr /\
       ((~ (exists loaded ps, loads e pr loaded ps) /\ exists x, handle_completion e st (completion_context (params_of msg)) = Err x)
        \/ exists loaded ps, loads e pr loaded ps /\
           ((~ has_context msg /\ exists x, handle_completion e st (completion_context (params_of msg)) = Err x)
            \/ (has_context msg /\ (~ exists t, triggered msg t) /\ handle_completion e st (completion_context (params_of msg)) = Ok None)
            \/ (has_context msg /\ exists t items, triggered msg t
                /\ map label_and_text items = map Some (offers t (map snd (name_to_plugin ps)))
                /\ handle_completion e st (completion_context (params_of msg)) = Ok (Some (JArr (hash_order e items)))))).
  Proof.
    intro msg. unfold handle_completion. destruct (srv_project st) as [pr|]; [right|left; auto].
    exists pr. split; [reflexivity|].
    destruct (load_plugins_res pr) as [(loaded & E)|(x & E)]; rewrite E; cbn [bind].
    2:{ left. split; [|eauto]. intros (loaded & ps & [F _]). apply load_plugins_ok in F. congruence. }
    destruct (plugins_new_res loaded) as [(ps & N)|(x & N)]; rewrite N; cbn [bind].
    2:{ left. split; [|eauto]. intros (loaded' & ps & [F N']). apply load_plugins_ok in F. congruence. }
    right. exists loaded, ps. split; [split; [apply load_plugins_ok; exact E|exact N]|].
    pose proof (context_spec msg) as C. destruct (completion_context (params_of msg)) as [[t|]|]; cbn [ok_or bind].
    - right. right. destruct C as [C T]. split; [exact C|].
      destruct (items_of_plugins_ok t (name_to_plugin ps)) as (items & I & M). exists t, items. rewrite I. auto.
    - right. left. destruct C as [C T]. auto.
    - left. split; [exact C|eauto].
  Qed.

  (** ** Requests: answered and surviving *)
  Lemma request_outcome : small_files e -> forall msg id m st' out r, request_of msg = Some (id, m) ->
    dispatch seg uuid checks e st msg = (st', (out, r)) ->
    ((exists a, In a out /\ answer_of a = Some id) <-> answered e st msg m)
    /\ (r = Ok tt <-> survives seg e msg) /\ (r = Ok tt \/ exists x, r = Err x).
  Proof.
    intros SF msg id m st' out r R D. rewrite (dispatch_request seg uuid checks e st msg id m R) in D.
    unfold survives, answered. rewrite R. unfold handle_request in D.
    destruct (str_eqb m (lit "initialize")).
    { destruct (initialize_params_res e (params_of msg)) as [(c & H)|(x & H)]; rewrite H in D; cbn in D; injection D as <- <- <-.
      - pose proof (proj1 (initialize_ok e msg c H)) as I. split; [|split; [tauto|auto]]. split; [auto|]. intros _.
        eexists. split; [right; left; reflexivity|reflexivity].
      - assert (I : ~ initialize_decodes e msg) by (intro I; apply initialize_params_iff in I as (c & I); congruence).
        split; [|split; [split; [discriminate|tauto]|eauto]]. split; [|tauto]. intros (a & [<-|[]] & A). discriminate. }
    destruct (str_eqb m (lit "textDocument/semanticTokens/full")).
    { destruct (document_params_res e "textDocument/semanticTokens/full" (params_of msg)) as [(u & H)|(x & H)]; rewrite H in D.
      - apply document_params_iff in H.
        destruct (semantic_tokens_cases SF u) as [(path & text & ts & sts & -> & Hr & _ & _ & _ & _ & E)|[(path & err & -> & Hr & E)|[Hu (x & E)]]];
          rewrite E in D; cbn in D; injection D as <- <- <-; (split; [|split; [split; [eauto|reflexivity]|auto]]).
        + split; [|intros _; eexists; split; [left; reflexivity|reflexivity]]. intros _. exists (FilePath path).
          split; [exact H|]. intros p [= <-]. eauto.
        + split; [intros (a & [<-|[]] & A); discriminate|]. intros (u & Hu & F).
          destruct H as ((s & U & P) & _). destruct Hu as ((s' & U' & P') & _). unfold uri_of in *.
          assert (s' = s) by congruence. subst s'. destruct (F path) as (text & X); congruence.
        + split; [|intros _; eexists; split; [left; reflexivity|reflexivity]]. intros _. exists u. split; [exact H|].
          intros p Hp. exfalso. exact (Hu p Hp).
      - assert (N : ~ exists u, decodes e "textDocument/semanticTokens/full" msg u).
        { intros (u & X). apply document_params_iff in X. congruence. }
        cbn in D. injection D as <- <- <-. split; [|split; [split; [discriminate|tauto]|eauto]].
        split; [intros (a & [] & _)|]. intros (u & X & _). exfalso. eauto. }
    destruct (str_eqb m (lit "textDocument/completion")).
    { destruct (document_params_res e "textDocument/completion" (params_of msg)) as [(u & H)|(x & H)]; rewrite H in D.
      - apply document_params_iff in H.
        destruct (completion_cases msg) as [[P E]|(pr & P & [[Nl (x & E)]|(loaded & ps & Ld & [[Nc (x & E)]|[(C & T & E)|(C & t & items & T & M & E)]])])];
          rewrite E in D; cbn in D; injection D as <- <- <-; (split; [|split; [split; [eauto|reflexivity]|auto]]);
          try (split; [|intros _; eexists; split; [left; reflexivity|reflexivity]]; intros _; split; [eauto|];
               exists pr; split; [exact P|]; intros ((l0 & p0 & X) & Y & Z); eauto; fail).
        + split; [intros (a & [] & _)|]. intros (_ & pr & X & _). congruence.
        + split; [intros (a & [] & _)|]. intros (_ & pr' & X & Y). exfalso. assert (pr' = pr) by congruence. subst. eauto 8.
      - assert (N : ~ exists u, decodes e "textDocument/completion" msg u).
        { intros (u & X). apply document_params_iff in X. congruence. }
        cbn in D. injection D as <- <- <-. split; [|split; [split; [discriminate|tauto]|eauto]].
        split; [intros (a & [] & _)|]. tauto. }
    cbn in D. injection D as <- <- <-. split; [|split; [tauto|auto]]. split; [auto|]. intros _. eexists. split; [left; reflexivity|reflexivity].
  Qed.
End Handlers.
