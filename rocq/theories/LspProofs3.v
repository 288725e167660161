(** Notifications and histories of the language server. *)
From Coq Require Import String List NArith ZArith Bool Lia ZifyBool Permutation.
From Verif Require Import Base Tokens Graphemes Tokenizer Parser ParserAccepts SpecTok SpecCST SpecTransform AST TransformError
  Transform Plugin PluginSets Utf8 Framing SemTok SpecServer SemTokProofs Json Server SpecLsp PropsTokenizer PropsParser PropsTransformer
  Boundaries TokenizerProofs LspProofs PathProofs LspProofs2.
Import ListNotations.

(** ** The positions of errors *)
Lemma error_positions : forall seg, seg_laws seg -> forall uuid s ts c a es,
  tokenize_str seg s = Ok ts -> parse ts = Ok c -> transform uuid c = Ok (a, es) ->
  Forall (fun err => (exists t, In t ts /\ (lstart (snd err) = lstart (tl t) \/ lstart (snd err) = lend (tl t)))
                  /\ (exists t, In t ts /\ (lend (snd err) = lstart (tl t) \/ lend (snd err) = lend (tl t)))) es.
Proof.
  intros seg L uuid s ts c a es H P T.
  apply (transform_errors_ok (fun p => exists t, In t ts /\ (p = lstart (tl t) \/ p = lend (tl t))) ) with (V := fun _ => True) (uuid := uuid) (ts := ts) (c := c) (a := a);
    try assumption; try (intros; exact I).
  - pose proof (C04_ranges_tile seg L s ts H) as Ti. destruct (C02_single_final_eof seg L s ts H) as (body & e & E & _).
    destruct ts as [|t ts]; [destruct body; discriminate|]. exists t. split; [left; reflexivity|]. left.
    cbn [tiled] in Ti. destruct Ti as [-> _]. reflexivity.
  - apply Forall_forall. intros t I. split; [split; eauto|destruct (tk t); exact Logic.I].
Qed.

Lemma error_bounds : forall seg, seg_laws seg -> forall uuid s ts c a es,
  tokenize_str seg s = Ok ts -> parse ts = Ok c -> transform uuid c = Ok (a, es) ->
  Forall (fun err => pline (lstart (snd err)) <= length s /\ pchar (lstart (snd err)) <= length s
                  /\ pline (lend (snd err)) <= length s /\ pchar (lend (snd err)) <= length s) es.
Proof.
  intros seg L uuid s ts c a es H P T. pose proof (error_positions seg L uuid s ts c a es H P T) as F.
  destruct (tokenize_lossless seg L s ts H) as (rest & E & _).
  assert (B : forall t, In t ts -> pline (lstart (tl t)) <= length s /\ pline (lend (tl t)) <= length s
     /\ pchar (lstart (tl t)) <= length s /\ pchar (lend (tl t)) <= length s).
  { intros t I. pose proof (C04_ranges_tile seg L s ts H) as Ti.
    destruct (tiled_bounds (fun v => length (seg v)) (clusters_le seg L) ts 0 0 t Ti I) as (B1 & B2 & B3).
    assert (Same : pline (lend (tl t)) = pline (lstart (tl t))).
    { clear - Ti I. revert Ti I. generalize 0 at 1. generalize 0. induction ts as [|t0 ts IH]; intros c l Ti I; [destruct I|].
      cbn [tiled] in Ti. destruct Ti as [T0 Ti]. destruct I as [<-|I]; [rewrite T0; reflexivity|].
      destruct (tk t0); eapply IH; eassumption. }
    rewrite E, app_length. lia. }
  eapply Forall_impl; [|exact F]. intros err ((t1 & I1 & E1) & (t2 & I2 & E2)).
  pose proof (B t1 I1) as (A1 & A2 & A3 & A4). pose proof (B t2 I2) as (B1 & B2 & B3 & B4).
  destruct E1 as [-> | ->]; destruct E2 as [-> | ->]; repeat split; lia.
Qed.

Lemma u32_id : forall n : nat, (N.of_nat n < 2 ^ 32)%N -> Z.of_N (as_u32 (N.of_nat n)) = Z.of_nat n.
Proof. intros n H. unfold as_u32. change (2 ^ 32)%N with 4294967296%N in H. rewrite N.mod_small by exact H. lia. Qed.

Lemma diagnostic_shows : forall (s : str) err, (N.of_nat (length s) < 2 ^ 32)%N ->
  pline (lstart (snd err)) <= length s /\ pchar (lstart (snd err)) <= length s
  /\ pline (lend (snd err)) <= length s /\ pchar (lend (snd err)) <= length s -> shows err (diagnostic err).
Proof.
  intros s [k l] B (H1 & H2 & H3 & H4). cbn [snd] in *. unfold shows. cbn [fst snd].
  split; [destruct k; eexists; (split; [|reflexivity]); cbn; tauto|].
  repeat split; try reflexivity; rewrite <- u32_id by lia; reflexivity.
Qed.

Section Notifications.
  Variable seg : str -> list str.
  Hypothesis L : seg_laws seg.
  Variable uuid : nat -> str.
  Variable checks : bool.
  Variable e : env.
  Variable st : server.

  Lemma did_save_cases : forall u,
    (exists path text ts c a es, u = FilePath path /\ read_file e path = inl text /\ tokenize_str seg text = Ok ts /\ understood ts
        /\ parse ts = Ok c /\ transform uuid c = Ok (a, es)
        /\ handle_did_save seg uuid e st u = send_publish_diagnostics st path (map diagnostic es))
    \/ (exists path text ts r, u = FilePath path /\ read_file e path = inl text /\ tokenize_str seg text = Ok ts /\ ~ understood ts
        /\ handle_did_save seg uuid e st u = silent r
        /\ (if acceptable ts then exists x, r = Panic x else exists x, r = Err x))
    \/ (exists path err, u = FilePath path /\ read_file e path = inr err
        /\ handle_did_save seg uuid e st u = send (log_message (lit "Tokenize failed: " ++ err)))
    \/ ((forall path, u <> FilePath path) /\ exists x, handle_did_save seg uuid e st u = silent (Err x)).
  Proof.
    intros [| | |path]; try (right; right; right; split; [discriminate|eexists; reflexivity]).
    unfold handle_did_save. cbn [to_path].
    destruct (tokenize_cases seg L e path) as [(text & ts & R & T & ->)|(err & R & ->)].
    2:{ right. right. left. eauto. }
    destruct (acceptable ts) eqn:A.
    - destruct (proj2 (C13_accepted_documents ts) A) as (c & P). rewrite P. cbn [bind].
      destruct (C17_transform_panics_exactly uuid ts c P) as [[O (x & E)]|[O (a & es & E)]]; rewrite E.
      + right. left. exists path, text, ts, (Panic x). repeat split; auto.
        * intros [_ U]. congruence.
        * rewrite A. eauto.
      + left. exists path, text, ts, c, a, es. repeat split; auto.
    - destruct (C10_parse_text_no_panic seg L text) as (ts' & T' & [(c & P)|(x & P)]); assert (ts' = ts) by congruence; subst ts'.
      + exfalso. assert (acceptable ts = true) by (apply C13_accepted_documents; eauto). congruence.
      + rewrite P. cbn [bind]. right. left. exists path, text, ts, (Err x). repeat split; auto.
        * intros [U _]. congruence.
        * rewrite A. eauto.
  Qed.

  Lemma decodes_fun : forall m msg u u', decodes e m msg u -> decodes e m msg u' -> u = u'.
  Proof. intros m msg u u' ((s & U & P) & _) ((s' & U' & P') & _). unfold uri_of in *. congruence. Qed.

  (** What didSave does. *)
  Lemma save_dispatch : forall msg u, notification_of msg = Some (lit "textDocument/didSave") ->
    decodes e "textDocument/didSave" msg u ->
    dispatch seg uuid checks e st msg = (st, handle_did_save seg uuid e st u).
  Proof.
    intros msg u N D. rewrite (dispatch_notification seg uuid checks e st msg _ N). unfold handle_notification.
    apply document_params_iff in D. cbn [str_eqb] in *.
    change (str_eqb (lit "textDocument/didSave") (lit "initialized")) with false.
    change (str_eqb (lit "textDocument/didSave") (lit "textDocument/didOpen")) with false.
    change (str_eqb (lit "textDocument/didSave") (lit "textDocument/didChange")) with false.
    change (str_eqb (lit "textDocument/didSave") (lit "textDocument/didSave")) with true.
    cbv iota. rewrite D. reflexivity.
  Qed.

  Lemma save_shows_errors : forall msg path text ts c a es, notification_of msg = Some (lit "textDocument/didSave") ->
    decodes e "textDocument/didSave" msg (FilePath path) ->
    read_file e path = inl text -> (N.of_nat (length text) < 2 ^ 32)%N ->
    tokenize_str seg text = Ok ts -> parse ts = Ok c -> transform uuid c = Ok (a, es) ->
    exists out, dispatch seg uuid checks e st msg = (st, (out, Ok tt))
      /\ (publish_diagnostics st = false -> out = [])
      /\ (publish_diagnostics st = true -> exists d ds, out = [d] /\ is_diagnostics d = true
          /\ lookup_path ["params"; "uri"]%string d = Some (JStr path)
          /\ lookup_path ["params"; "diagnostics"]%string d = Some (JArr ds) /\ Forall2 shows es ds).
  Proof.
    intros msg path text ts c a es N D R B T P E. rewrite (save_dispatch msg (FilePath path) N D).
    destruct (did_save_cases (FilePath path)) as [(path' & text' & ts' & c' & a' & es' & Hu & R' & T' & _ & P' & E' & S1)|
      [(path' & text' & ts' & r & Hu & R' & T' & U & S1 & A)|[(path' & err & Hu & R' & _)|[Hu _]]]].
    - injection Hu as <-. assert (text' = text) by congruence. subst. assert (ts' = ts) by congruence. subst.
      assert (c' = c) by congruence. subst. assert (es' = es) by congruence. subst.
      rewrite S1. unfold send_publish_diagnostics. destruct (publish_diagnostics st); cbn [negb]; eexists; (split; [reflexivity|]).
      + split; [discriminate|]. intros _. eexists _, (map diagnostic es). repeat split.
        pose proof (error_bounds seg L uuid text ts c a es T P E) as F. clear - F B.
        induction F as [|err es H F IH]; constructor; [|exact IH]. eapply diagnostic_shows; eassumption.
      + split; [reflexivity|discriminate].
    - injection Hu as <-. exfalso. assert (text' = text) by congruence. subst. assert (ts' = ts) by congruence. subst.
      apply U. split; [apply C13_accepted_documents; eauto|].
      destruct (C17_transform_panics_exactly uuid ts c P) as [[O (x & E')]|[O _]]; congruence.
    - injection Hu as <-. congruence.
    - exfalso. exact (Hu path eq_refl).
  Qed.

  (** ** didOpen *)
  Lemma open_cases : forall u, (forall path, u = FilePath path -> absolute path) ->
    (exists path root, u = FilePath path /\ length (components path) >= 2 /\ project_root path root
        /\ handle_did_open e st u = match open_project e root with
           | None => (st, ([], Ok tt))
           | Some (Some project) => (mkserver (publish_diagnostics st) (Some project), ([], Ok tt))
           | Some None => (st, ([], Err (lit "Failed to download plugin")))
           end)
    \/ ((forall path, u = FilePath path -> length (components path) < 2) /\ exists x, handle_did_open e st u = (st, ([], Err x))).
  Proof.
    intros [| | |path] A; try (right; split; [discriminate|eexists; reflexivity]).
    unfold handle_did_open. cbn [to_path bind].
    destruct (grandparent_spec path (A path eq_refl)) as [[C G]|[C (root & G & R)]]; unfold grandparent in G.
    - right. split; [intros p [= <-]; exact C|]. destruct (parent path) as [d|]; cbn [ok_or bind]; [|eauto]. rewrite G. cbn. eauto.
    - left. exists path, root. repeat split; try apply R; auto.
      destruct (parent path) as [d|]; [|discriminate]. cbn [ok_or bind]. rewrite G. reflexivity.
  Qed.

  Lemma open_dispatch : forall msg u, notification_of msg = Some (lit "textDocument/didOpen") ->
    decodes e "textDocument/didOpen" msg u ->
    dispatch seg uuid checks e st msg = handle_did_open e st u.
  Proof.
    intros msg u N D. rewrite (dispatch_notification seg uuid checks e st msg _ N). unfold handle_notification.
    apply document_params_iff in D.
    change (str_eqb (lit "textDocument/didOpen") (lit "initialized")) with false.
    change (str_eqb (lit "textDocument/didOpen") (lit "textDocument/didOpen")) with true.
    cbv iota. rewrite D. reflexivity.
  Qed.

  Lemma open_loads_project : forall msg path root, notification_of msg = Some (lit "textDocument/didOpen") ->
    decodes e "textDocument/didOpen" msg (FilePath path) -> absolute path ->
    length (components path) >= 2 -> project_root path root ->
    dispatch seg uuid checks e st msg = match open_project e root with
           | None => (st, ([], Ok tt))
           | Some (Some project) => (mkserver (publish_diagnostics st) (Some project), ([], Ok tt))
           | Some None => (st, ([], Err (lit "Failed to download plugin")))
           end.
  Proof.
    intros msg path root N D A C R. rewrite (open_dispatch msg _ N D).
    destruct (open_cases (FilePath path)) as [(path' & root' & [= <-] & _ & R' & H)|[H _]].
    - intros p [= <-]. exact A.
    - rewrite (project_root_unique path root root' R R'). exact H.
    - specialize (H path eq_refl). lia.
  Qed.

  (** ** Which notifications end the server *)
  Lemma notification_outcome : absolute_paths e -> forall msg st' out r, request_of msg = None ->
    dispatch seg uuid checks e st msg = (st', (out, r)) ->
    (r = Ok tt <-> survives seg e msg)
    /\ ((exists x, r = Panic x) <-> exists path text ts, notification_of msg = Some (lit "textDocument/didSave")
          /\ decodes e "textDocument/didSave" msg (FilePath path) /\ read_file e path = inl text
          /\ tokenize_str seg text = Ok ts /\ acceptable ts = true /\ outside [] (map tk ts) = true)
    /\ r <> Fuel.
  Proof.
    intros AP msg st' out r R D. unfold survives. rewrite R.
    destruct (notification_of msg) as [m|] eqn:N.
    2:{ destruct (dispatch_other seg uuid checks e st msg R N) as [H|H]; rewrite H in D; cbn in D; injection D as <- <- <-;
          (split; [tauto|]); (split; [|discriminate]); (split; [intros (x & X); discriminate|intros (p & t & ts & X & _); discriminate]). }
    assert (Other : forall q : Prop, (Some m = Some (lit "textDocument/didSave") -> False) -> (exists x, @Ok unit tt = Panic x) <->
       (exists path text ts, Some m = Some (lit "textDocument/didSave")
          /\ decodes e "textDocument/didSave" msg (FilePath path) /\ read_file e path = inl text
          /\ tokenize_str seg text = Ok ts /\ acceptable ts = true /\ outside [] (map tk ts) = true)).
    { intros _ H. split; [intros (x & X); discriminate|intros (p & t & ts & X & _); tauto]. }
    assert (OtherE : forall z, (Some m = Some (lit "textDocument/didSave") -> False) -> (exists x, @Err unit z = Panic x) <->
       (exists path text ts, Some m = Some (lit "textDocument/didSave")
          /\ decodes e "textDocument/didSave" msg (FilePath path) /\ read_file e path = inl text
          /\ tokenize_str seg text = Ok ts /\ acceptable ts = true /\ outside [] (map tk ts) = true)).
    { intros z H. split; [intros (x & X); discriminate|intros (p & t & ts & X & _); tauto]. }
    rewrite (dispatch_notification seg uuid checks e st msg m N) in D. unfold handle_notification in D.
    destruct (str_eqb m (lit "initialized")) eqn:M0.
    { apply str_eqb_eq in M0. subst m. cbn in D. injection D as <- <- <-. cbv [str_eqb] in *.
      split; [split; [intros _; exact I|reflexivity]|]. split; [apply (Other True); discriminate|discriminate]. }
    destruct (str_eqb m (lit "textDocument/didOpen")) eqn:M1.
    { apply str_eqb_eq in M1. subst m.
      destruct (document_params_res e "textDocument/didOpen" (params_of msg)) as [(u & H)|(x & H)]; rewrite H in D.
      - apply document_params_iff in H.
        assert (Ab : forall path, u = FilePath path -> absolute path).
        { intros path ->. destruct H as ((s & U & P) & _). exact (AP s path P). }
        destruct (open_cases u Ab) as [(path & root & -> & C & Ro & O)|[C (x & O)]]; rewrite O in D.
        + destruct (open_project e root) as [[pr|]|] eqn:OP; injection D as <- <- <-.
          * split; [split; [intros _; exists path, root; repeat split; try apply H; try apply Ro; auto; congruence|reflexivity]|].
            split; [apply (Other True); discriminate|discriminate].
          * split; [split; [discriminate|]|split; [apply OtherE; discriminate|discriminate]].
            intros (path' & root' & D' & _ & Ro' & X). exfalso. pose proof (decodes_fun _ _ _ _ H D') as [= <-].
            rewrite (project_root_unique path root' root Ro' Ro) in X. contradiction.
          * split; [split; [intros _; exists path, root; repeat split; try apply H; try apply Ro; auto; congruence|reflexivity]|].
            split; [apply (Other True); discriminate|discriminate].
        + injection D as <- <- <-. split; [split; [discriminate|]|split; [apply OtherE; discriminate|discriminate]].
          intros (path' & root' & D' & C' & _). exfalso. pose proof (decodes_fun _ _ _ _ H D') as ->. specialize (C path' eq_refl). lia.
      - cbn in D. injection D as <- <- <-. split; [split; [discriminate|]|split; [apply OtherE; discriminate|discriminate]].
        intros (path' & root' & D' & _). apply document_params_iff in D'. congruence. }
    destruct (str_eqb m (lit "textDocument/didChange")) eqn:M2.
    { apply str_eqb_eq in M2. subst m.
      destruct (document_params_res e "textDocument/didChange" (params_of msg)) as [(u & H)|(x & H)]; rewrite H in D;
        cbn in D; injection D as <- <- <-.
      - apply document_params_iff in H. split; [split; [eauto|reflexivity]|]. split; [apply (Other True); discriminate|discriminate].
      - split; [split; [discriminate|]|split; [apply OtherE; discriminate|discriminate]].
        intros (u & D'). apply document_params_iff in D'. congruence. }
    destruct (str_eqb m (lit "textDocument/didSave")) eqn:M3.
    2:{ cbn in D. injection D as <- <- <-. split; [tauto|]. split; [|discriminate]. apply (Other True). intros [= ->].
        vm_compute in M3. discriminate. }
    apply str_eqb_eq in M3. subst m.
    destruct (document_params_res e "textDocument/didSave" (params_of msg)) as [(u & H)|(x & H)]; rewrite H in D.
    2:{ cbn in D. injection D as <- <- <-. split; [split; [discriminate|]|split; [|discriminate]].
        - intros (path & D' & _). apply document_params_iff in D'. congruence.
        - split; [intros (z & X); discriminate|]. intros (path & text & ts & _ & D' & _). apply document_params_iff in D'. congruence. }
    apply document_params_iff in H.
    destruct (did_save_cases u) as [(path & text & ts & c & a & es & -> & Rf & T & U & P & E & S1)|
      [(path & text & ts & r' & -> & Rf & T & U & S1 & A)|[(path & err & -> & Rf & S1)|[Hu (x & S1)]]]]; rewrite S1 in D.
    - assert (r = Ok tt) by (unfold send_publish_diagnostics in D; destruct (publish_diagnostics st); injection D as <- <- <-; reflexivity).
      subst r. split; [split; [|reflexivity]|split; [|discriminate]].
      + intros _. exists path. split; [exact H|]. intros text' ts' Rf' T'.
        assert (text' = text) by congruence. subst. assert (ts' = ts) by congruence. subst. exact U.
      + split; [intros (z & X); discriminate|]. intros (path' & text' & ts' & _ & D' & Rf' & T' & _ & O).
        pose proof (decodes_fun _ _ _ _ H D') as [= <-]. assert (text' = text) by congruence. subst.
        assert (ts' = ts) by congruence. subst. destruct U as [_ U]. congruence.
    - cbn in D. injection D as <- <- <-.
      split; [split|split].
      + intro X. exfalso. destruct (acceptable ts); destruct A as (x & A); congruence.
      + intros (path' & D' & F). exfalso. apply U. pose proof (decodes_fun _ _ _ _ H D') as [= <-]. eauto.
      + destruct (acceptable ts) eqn:Ac; destruct A as (x & ->).
        * split; [|eauto]. intros _. exists path, text, ts. repeat split; try apply H; auto.
          destruct (outside [] (map tk ts)) eqn:O; [reflexivity|]. exfalso. apply U. split; auto.
        * split; [intros (z & X); discriminate|]. intros (path' & text' & ts' & _ & D' & Rf' & T' & Ac' & _).
          pose proof (decodes_fun _ _ _ _ H D') as [= <-]. assert (text' = text) by congruence. subst.
          assert (ts' = ts) by congruence. subst. congruence.
      + destruct (acceptable ts); destruct A as (x & ->); discriminate.
    - cbn in D. injection D as <- <- <-. split; [split; [|reflexivity]|split; [|discriminate]].
      + intros _. exists path. split; [exact H|]. intros; congruence.
      + split; [intros (z & X); discriminate|]. intros (path' & text' & ts' & _ & D' & Rf' & _).
        pose proof (decodes_fun _ _ _ _ H D') as [= <-]. congruence.
    - cbn in D. injection D as <- <- <-. split; [split; [discriminate|]|split; [|discriminate]].
      + intros (path & D' & _). exfalso. exact (Hu path (decodes_fun _ _ _ _ H D')).
      + split; [intros (z & X); discriminate|]. intros (path & text & ts & _ & D' & _). exfalso. exact (Hu path (decodes_fun _ _ _ _ H D')).
  Qed.

  (** ** What changes the state and what sends diagnostics *)
  Lemma flag_step : forall msg st' out r, dispatch seg uuid checks e st msg = (st', (out, r)) -> r = Ok tt ->
    if is_initialize msg then publish_diagnostics st' = true <-> announces_diagnostics msg
    else publish_diagnostics st' = publish_diagnostics st.
  Proof.
    intros msg st' out r D Hr. subst r. unfold is_initialize. destruct (request_of msg) as [[id m]|] eqn:R.
    - rewrite (dispatch_request seg uuid checks e st msg id m R) in D. unfold handle_request in D.
      destruct (str_eqb m (lit "initialize")) eqn:M.
      + apply str_eqb_eq in M. subst m. change (str_eqb (lit "initialize") (lit "initialize")) with true. cbv iota.
        destruct (initialize_params_res e (params_of msg)) as [(c & H)|(x & H)]; rewrite H in D; cbn in D; [|discriminate].
        injection D as <- <-. cbn. exact (proj2 (initialize_ok e msg c H)).
      + assert (M' : str_eqb (lit "initialize") m = false).
        { apply str_eqb_neq. apply str_eqb_neq in M. congruence. }
        rewrite M'. destruct (str_eqb m (lit "textDocument/semanticTokens/full")); [injection D as <- _; reflexivity|].
        destruct (str_eqb m (lit "textDocument/completion")); injection D as <- _; reflexivity.
    - destruct (notification_of msg) as [m|] eqn:N.
      2:{ destruct (dispatch_other seg uuid checks e st msg R N) as [H|H]; rewrite H in D; injection D as <- _; reflexivity. }
      rewrite (dispatch_notification seg uuid checks e st msg m N) in D. unfold handle_notification in D.
      destruct (str_eqb m (lit "initialized")); [injection D as <- _; reflexivity|].
      destruct (str_eqb m (lit "textDocument/didOpen")).
      { destruct (document_params_res e "textDocument/didOpen" (params_of msg)) as [(u & H)|(x & H)]; rewrite H in D;
          [|injection D as <- _; reflexivity].
        unfold handle_did_open in D.
        destruct (let! path := to_path u in let! dir := ok_or (parent path) "Invalid file path" in ok_or (parent dir) "Invalid file path")
          as [root|x|x|]; try (injection D as <- _; reflexivity).
        destruct (open_project e root) as [[pr|]|]; injection D as <- _; reflexivity. }
      destruct (str_eqb m (lit "textDocument/didChange")); [injection D as <- _; reflexivity|].
      destruct (str_eqb m (lit "textDocument/didSave")); injection D as <- _; reflexivity.
  Qed.

  Lemma diagnostics_only : forall msg st' out r d, dispatch seg uuid checks e st msg = (st', (out, r)) ->
    In d out -> is_diagnostics d = true ->
    publish_diagnostics st = true /\ notification_of msg = Some (lit "textDocument/didSave").
  Proof.
    intros msg st' out r d D I Di. destruct (request_of msg) as [[id m]|] eqn:R.
    { exfalso. destruct (request_answers seg uuid checks e st msg id m st' out r R D) as [(logs & a & -> & Hl & Ha)|Hn].
      - apply in_app_or in I as [I|[<-|[]]].
        + rewrite Forall_forall in Hl. apply Hl in I as [I _]. apply log_method in I. unfold is_diagnostics, method_is in *.
          destruct (lookup "method" d) as [[]|]; try discriminate. apply str_eqb_eq in I. apply str_eqb_eq in Di. subst s. discriminate.
        + unfold answer_of, is_diagnostics, method_is in *. destruct (lookup "id" a) as [[]|]; try discriminate.
          destruct (lookup "method" a); discriminate.
      - unfold no_answer in Hn. rewrite Forall_forall in Hn. apply Hn in I as [I _]. apply log_method in I. unfold is_diagnostics, method_is in *.
        destruct (lookup "method" d) as [[]|]; try discriminate. apply str_eqb_eq in I. apply str_eqb_eq in Di. subst s. discriminate. }
    destruct (notification_of msg) as [m|] eqn:N.
    2:{ exfalso. destruct (dispatch_other seg uuid checks e st msg R N) as [H|H]; rewrite H in D; injection D as <- <- <-;
          [destruct I|destruct I as [<-|[]]; discriminate]. }
    rewrite (dispatch_notification seg uuid checks e st msg m N) in D. unfold handle_notification in D.
    destruct (str_eqb m (lit "initialized")).
    { exfalso. injection D as <- <- <-. destruct I as [<-|[]]. discriminate. }
    destruct (str_eqb m (lit "textDocument/didOpen")).
    { exfalso. destruct (document_params_res e "textDocument/didOpen" (params_of msg)) as [(u & H)|(x & H)]; rewrite H in D.
      - pose proof (handle_did_open_silent e st u) as S'. rewrite D in S'. cbn in S'. subst out. destruct I.
      - injection D as <- <- <-. destruct I. }
    destruct (str_eqb m (lit "textDocument/didChange")).
    { exfalso. destruct (document_params_res e "textDocument/didChange" (params_of msg)) as [(u & H)|(x & H)]; rewrite H in D;
        injection D as <- <- <-; destruct I. }
    destruct (str_eqb m (lit "textDocument/didSave")) eqn:M; [|injection D as <- <- <-; destruct I].
    apply str_eqb_eq in M. subst m. split; [|reflexivity].
    destruct (document_params_res e "textDocument/didSave" (params_of msg)) as [(u & H)|(x & H)]; rewrite H in D;
      [|injection D as <- <- <-; destruct I].
    destruct (did_save_cases u) as [(path & text & ts & c & a & es & -> & Rf & T & U & P & E & S1)|
      [(path & text & ts & r' & -> & Rf & T & U & S1 & A)|[(path & err & -> & Rf & S1)|[Hu (x & S1)]]]]; rewrite S1 in D.
    - unfold send_publish_diagnostics in D. destruct (publish_diagnostics st); [reflexivity|]. injection D as <- <- <-. destruct I.
    - injection D as <- <- <-. destruct I.
    - injection D as <- <- <-. destruct I as [<-|[]]. discriminate.
    - injection D as <- <- <-. destruct I.
  Qed.

  (** The project changes only when a document is opened. *)
  Lemma project_step : forall msg st' out r, dispatch seg uuid checks e st msg = (st', (out, r)) ->
    notification_of msg <> Some (lit "textDocument/didOpen") -> srv_project st' = srv_project st.
  Proof.
    intros msg st' out r D NO. destruct (request_of msg) as [[id m]|] eqn:R.
    - rewrite (dispatch_request seg uuid checks e st msg id m R) in D. unfold handle_request in D.
      destruct (str_eqb m (lit "initialize")).
      { destruct (initialize_params_res e (params_of msg)) as [(c & H)|(x & H)]; rewrite H in D; injection D as <- _; reflexivity. }
      destruct (str_eqb m (lit "textDocument/semanticTokens/full")); [injection D as <- _; reflexivity|].
      destruct (str_eqb m (lit "textDocument/completion")); injection D as <- _; reflexivity.
    - destruct (notification_of msg) as [m|] eqn:N.
      2:{ destruct (dispatch_other seg uuid checks e st msg R N) as [H|H]; rewrite H in D; injection D as <- _; reflexivity. }
      rewrite (dispatch_notification seg uuid checks e st msg m N) in D. unfold handle_notification in D.
      destruct (str_eqb m (lit "initialized")); [injection D as <- _; reflexivity|].
      destruct (str_eqb m (lit "textDocument/didOpen")) eqn:M; [apply str_eqb_eq in M; congruence|].
      destruct (str_eqb m (lit "textDocument/didChange")); [injection D as <- _; reflexivity|].
      destruct (str_eqb m (lit "textDocument/didSave")); injection D as <- _; reflexivity.
  Qed.

  Lemma diagnostics_uri : forall msg st' out r d, dispatch seg uuid checks e st msg = (st', (out, r)) ->
    In d out -> is_diagnostics d = true ->
    exists u path, uri_of msg u /\ parse_url e u = FilePath path /\
      lookup_path ["params"; "uri"]%string d = Some (JStr path).
  Proof.
    intros msg st' out r d D I Di. destruct (diagnostics_only msg st' out r d D I Di) as [PD N].
    pose proof D as D'. rewrite (dispatch_notification seg uuid checks e st msg _ N) in D'. unfold handle_notification in D'.
    change (str_eqb (lit "textDocument/didSave") (lit "initialized")) with false in D'.
    change (str_eqb (lit "textDocument/didSave") (lit "textDocument/didOpen")) with false in D'.
    change (str_eqb (lit "textDocument/didSave") (lit "textDocument/didChange")) with false in D'.
    change (str_eqb (lit "textDocument/didSave") (lit "textDocument/didSave")) with true in D'. cbv iota in D'.
    destruct (document_params_res e "textDocument/didSave" (params_of msg)) as [(u & H)|(x & H)]; rewrite H in D'.
    2:{ injection D' as <- <- <-. destruct I. }
    apply document_params_iff in H as ((s & US & PU) & _ & _). injection D' as <- D'.
    destruct (did_save_cases u) as [(path & text & ts & c & a & es & -> & _ & _ & _ & _ & _ & S1)|
      [(path & text & ts & r' & -> & _ & _ & _ & S1 & _)|[(path & err & -> & _ & S1)|[_ (x & S1)]]]]; rewrite S1 in D'.
    - exists s, path. split; [exact US|]. split; [exact PU|]. unfold send_publish_diagnostics in D'. rewrite PD in D'. cbn [negb] in D'.
      injection D' as <- <-. destruct I as [<-|[]]. reflexivity.
    - injection D' as <- <-. destruct I.
    - injection D' as <- <-. destruct I as [<-|[]]. discriminate Di.
    - injection D' as <- <-. destruct I.
  Qed.

  Lemma diagnostics_uri_never : absolute_paths e -> forall msg st' out r d u, dispatch seg uuid checks e st msg = (st', (out, r)) ->
    In d out -> is_diagnostics d = true -> uri_of msg u -> ~ absolute u ->
    lookup_path ["params"; "uri"]%string d <> Some (JStr u).
  Proof.
    intros AP msg st' out r d u D I Di U NA E. destruct (diagnostics_uri msg st' out r d D I Di) as (u' & path & _ & PU & E').
    rewrite E in E'. injection E' as ->. apply NA. exact (AP _ _ PU).
  Qed.
End Notifications.
