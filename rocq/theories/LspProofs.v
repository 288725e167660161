(** What the language server answers. *)
From Coq Require Import String List NArith ZArith Bool Lia ZifyBool Permutation.
From Verif Require Import Base Tokens Graphemes Tokenizer Parser ParserAccepts SpecTok SpecCST SpecTransform AST TransformError
  Transform Plugin Utf8 Framing SemTok SpecServer SemTokProofs Json Server SpecLsp PropsTokenizer PropsParser PropsTransformer Boundaries.
Import ListNotations.

(** ** Looking up fields *)
Lemma lookup_get : forall k j, lookup k j = json_get (lit k) j.
Proof.
  intros k [| | | | | |fs]; try reflexivity. cbn [lookup json_get].
  induction fs as [|[k' v] fs IH]; [reflexivity|].
  cbn [rev field_get]. rewrite <- IH.
  assert (F : forall l, find (fun kv : str * json => str_eqb (lit k) (fst kv)) (l ++ [(k', v)])
    = match find (fun kv => str_eqb (lit k) (fst kv)) l with
      | Some r => Some r
      | None => if str_eqb (lit k) k' then Some (k', v) else None
      end).
  { induction l as [|y l IHl]; cbn [app find fst]; [reflexivity|].
    destruct (str_eqb (lit k) (fst y)); [reflexivity|exact IHl]. }
  rewrite F. destruct (find _ (rev fs)); [reflexivity|]. cbn [option_map].
  destruct (str_eqb (lit k) k'); reflexivity.
Qed.

Lemma params_eq : forall msg, params_of msg = params msg.
Proof. intro msg. unfold params_of, params. rewrite lookup_get. reflexivity. Qed.

Lemma path_params : forall k ks msg, lookup_path ("params" :: k :: ks)%string msg = lookup_path (k :: ks) (params msg).
Proof.
  intros k ks msg. unfold params. cbn [lookup_path]. destruct (lookup "params" msg); reflexivity.
Qed.

Lemma request_ids : forall msg id m, request_of msg = Some (id, m) ->
  (match json_get (lit "id") msg with Some i => as_i64 i | None => None end) = Some id
  /\ (match json_get (lit "method") msg with Some m => as_str m | None => None end) = Some m.
Proof.
  intros msg id m H. unfold request_of in H. rewrite !lookup_get in H.
  destruct (json_get (lit "id") msg) as [[]|]; try discriminate.
  destruct (json_get (lit "method") msg) as [[]|]; try discriminate.
  destruct ((- 2 ^ 63 <=? z) && (z <? 2 ^ 63))%Z eqn:E; [|discriminate]. injection H as <- <-.
  split; [|reflexivity]. unfold as_i64.
  replace ((-9223372036854775808 <=? z) && (z <=? 9223372036854775807))%Z with true by lia. reflexivity.
Qed.

Lemma not_request : forall msg, request_of msg = None ->
  (match json_get (lit "id") msg with Some i => as_i64 i | None => None end) = None
  \/ (match json_get (lit "method") msg with Some m => as_str m | None => None end) = None.
Proof.
  intros msg H. unfold request_of in H. rewrite !lookup_get in H.
  destruct (json_get (lit "id") msg) as [[]|]; auto.
  destruct (json_get (lit "method") msg) as [[]|]; auto.
  destruct ((- 2 ^ 63 <=? z) && (z <? 2 ^ 63))%Z eqn:E; [discriminate|]. left. unfold as_i64.
  replace ((-9223372036854775808 <=? z) && (z <=? 9223372036854775807))%Z with false by lia. reflexivity.
Qed.

Section Dispatch.
  Variable seg : str -> list str.
  Variable uuid : nat -> str.
  Variable checks : bool.
  Variable e : env.
  Variable st : server.

  Lemma dispatch_request : forall msg id m, request_of msg = Some (id, m) ->
    dispatch seg uuid checks e st msg = handle_request seg checks e st msg id m.
  Proof. intros msg id m H. destruct (request_ids msg id m H) as [A B]. unfold dispatch. rewrite A, B. reflexivity. Qed.

  Lemma dispatch_notification : forall msg m, notification_of msg = Some m ->
    dispatch seg uuid checks e st msg = handle_notification seg uuid e st msg m.
  Proof.
    intros msg m H. unfold notification_of in H. destruct (request_of msg) eqn:R; [discriminate|].
    rewrite lookup_get in H. unfold dispatch. pose proof (not_request msg R) as N.
    destruct (json_get (lit "method") msg) as [[]|]; try discriminate. injection H as ->. cbn [as_str] in *.
    destruct N as [N|N]; [|discriminate]. rewrite N. reflexivity.
  Qed.

  Lemma dispatch_other : forall msg, request_of msg = None -> notification_of msg = None ->
    dispatch seg uuid checks e st msg = (st, silent (Ok tt))
    \/ dispatch seg uuid checks e st msg = (st, send invalid_request_response).
  Proof.
    intros msg R H. unfold notification_of in H. rewrite R, lookup_get in H. unfold dispatch.
    destruct (json_get (lit "method") msg) as [[]|]; try discriminate; cbn [as_str];
      destruct (match json_get (lit "id") msg with Some i => as_i64 i | None => None end); auto.
  Qed.

  (** ** Parameters *)
  Lemma field_opt_spec : forall k j v, field_opt k j = Some v <-> lookup k j = Some v /\ v <> JNull.
  Proof.
    intros k j v. unfold field_opt. rewrite lookup_get. destruct (json_get (lit k) j) as [w|].
    - split.
      + intro H. destruct w; try discriminate; injection H as <-; split; try reflexivity; discriminate.
      + intros [H N]. injection H as ->. destruct v; try reflexivity. congruence.
    - split; [discriminate|]. intros [H _]. discriminate.
  Qed.

  Lemma initialize_ok : forall msg caps, initialize_params e (params_of msg) = Ok caps ->
    initialize_decodes e msg /\ (caps = true <-> announces_diagnostics msg).
  Proof.
    intros msg caps H. rewrite params_eq in H. unfold initialize_params in H.
    destruct (field_opt "capabilities" (params msg)) as [c|] eqn:C; [|discriminate].
    apply field_opt_spec in C as [C N]. destruct c as [| | | | | |fs]; try discriminate.
    destruct (accepts e (lit "initialize") (params msg)) eqn:A; [|discriminate]. injection H as <-.
    assert (Cp : lookup_path ["params"; "capabilities"]%string msg = Some (JObj fs)).
    { rewrite path_params. cbn [lookup_path]. rewrite C. reflexivity. }
    split; [split; [eexists; exact Cp|exact A]|].
    assert (Path : lookup_path ["params"; "capabilities"; "textDocument"; "publishDiagnostics"]%string msg
      = lookup_path ["textDocument"; "publishDiagnostics"]%string (JObj fs)).
    { rewrite path_params. cbn [lookup_path]. rewrite C. reflexivity. }
    unfold announces_diagnostics. rewrite Path. cbn [lookup_path].
    destruct (field_opt "textDocument" (JObj fs)) as [td|] eqn:T.
    - apply field_opt_spec in T as [T Nt]. rewrite T.
      destruct (field_opt "publishDiagnostics" td) as [v|] eqn:P.
      + apply field_opt_spec in P as [P Np]. rewrite P. split; [|reflexivity]. intros _. exists v. auto.
      + split; [discriminate|]. intros (v & Hv & Nv). exfalso.
        destruct (lookup "publishDiagnostics" td) as [w|] eqn:W; [|discriminate]. injection Hv as ->.
        assert (X : field_opt "publishDiagnostics" td = Some v) by (apply field_opt_spec; auto). congruence.
    - split; [discriminate|]. intros (v & Hv & Nv). exfalso.
      destruct (lookup "textDocument" (JObj fs)) as [td|] eqn:W; [|discriminate].
      destruct td; cbn in Hv; try discriminate.
      assert (X : field_opt "textDocument" (JObj fs) = Some (JObj fields)) by (apply field_opt_spec; split; [exact W|discriminate]).
      congruence.
  Qed.

  Lemma initialize_params_iff : forall msg,
    (exists caps, initialize_params e (params_of msg) = Ok caps) <-> initialize_decodes e msg.
  Proof.
    intro msg. split; [intros (caps & H); exact (proj1 (initialize_ok msg caps H))|].
    intros [(fs & H) A]. rewrite path_params in H. cbn [lookup_path] in H.
    destruct (lookup "capabilities" (params msg)) as [c|] eqn:C; [|discriminate]. injection H as ->.
    rewrite params_eq. unfold initialize_params.
    assert (X : field_opt "capabilities" (params msg) = Some (JObj fs)) by (apply field_opt_spec; split; [exact C|discriminate]).
    rewrite X, A. eexists. reflexivity.
  Qed.

  Lemma initialize_params_res : forall p, (exists caps, initialize_params e p = Ok caps) \/ (exists x, initialize_params e p = Err x).
  Proof.
    intro p. unfold initialize_params. destruct (field_opt "capabilities" p) as [[]|]; eauto.
    destruct (accepts _ _ _); eauto.
  Qed.

  Lemma document_params_iff : forall m msg u,
    document_params e m (params_of msg) = Ok u <-> decodes e m msg u.
  Proof.
    intros m msg u. unfold document_params, decodes, uri_of. rewrite params_eq, path_params. cbn [lookup_path].
    rewrite !lookup_get. destruct (json_get (lit "textDocument") (params msg)) as [td|].
    - cbn [lookup_path]. rewrite lookup_get. destruct (json_get (lit "uri") td) as [[]|];
        try (split; [discriminate|intros ((s0 & H & _) & _); discriminate]).
      split.
      + intro H. destruct (parse_url e s) eqn:U; try discriminate;
          (destruct (accepts e (lit m) (params msg)) eqn:A; [|discriminate]); injection H as <-;
          (split; [eexists; split; [reflexivity|exact U]|]; split; [discriminate|reflexivity]).
      + intros ((s0 & H & U) & N & A). injection H as <-. rewrite U, A. destruct u; try reflexivity. congruence.
    - split; [discriminate|]. intros ((s0 & H & _) & _). discriminate.
  Qed.

  Lemma document_params_res : forall m p, (exists u, document_params e m p = Ok u) \/ (exists x, document_params e m p = Err x).
  Proof.
    intros m p. unfold document_params. destruct (json_get (lit "textDocument") p) as [td|]; eauto.
    destruct (json_get (lit "uri") td) as [[]|]; eauto.
    destruct (parse_url e s); eauto; destruct (accepts _ _ _); eauto.
  Qed.

  (** ** Answers *)
  Lemma answer_result : forall id r, answer_of (bls_result id r) = Some id.
  Proof. reflexivity. Qed.
  Lemma answer_error : forall id c m, answer_of (error_response (Some id) c m) = Some id.
  Proof. reflexivity. Qed.
  Lemma answer_log : forall m, answer_of (log_message m) = None.
  Proof. reflexivity. Qed.
  Lemma log_method : forall j, is_log j = true -> method_is "window/logMessage" j = true.
  Proof. intros j. unfold is_log, logged. destruct (method_is "window/logMessage" j); [reflexivity|discriminate]. Qed.
  Lemma log_is_log : forall m, is_log (log_message m) = true.
  Proof. reflexivity. Qed.

  (** The three shapes of what a request produces. *)
  Definition one_answer (id : Z) (out : list json) : Prop :=
    exists logs a, out = logs ++ [a] /\ Forall (fun j => is_log j = true /\ answer_of j = None) logs
      /\ answer_of a = Some id.
  Definition no_answer (out : list json) : Prop := Forall (fun j => is_log j = true /\ answer_of j = None) out.

  Lemma one_send : forall id a, answer_of a = Some id -> one_answer id [a].
  Proof. intros id a H. exists [], a. repeat split; [constructor|exact H]. Qed.

  Lemma request_answers : forall msg id m st' out r, request_of msg = Some (id, m) ->
    dispatch seg uuid checks e st msg = (st', (out, r)) -> one_answer id out \/ no_answer out.
  Proof.
    intros msg id m st' out r R D. rewrite (dispatch_request msg id m R) in D. unfold handle_request in D.
    destruct (str_eqb m (lit "initialize")).
    { destruct (initialize_params_res (params_of msg)) as [(c & H)|(x & H)]; rewrite H in D;
        cbn in D; injection D as <- <- <-.
      - left. exists [log_message (lit "Brack Language Server is initializing...")], (bls_result id initialize_result).
        split; [reflexivity|]. split; [repeat constructor|reflexivity].
      - right. repeat constructor. }
    destruct (str_eqb m (lit "textDocument/semanticTokens/full")).
    { destruct (document_params_res "textDocument/semanticTokens/full" (params_of msg)) as [(u & H)|(x & H)]; rewrite H in D.
      - destruct (handle_semantic_tokens_full seg checks e u) as [[l|j]|x|x|]; cbn in D; injection D as <- <- <-;
          try (right; repeat constructor; fail); left; apply one_send; reflexivity.
      - cbn in D. injection D as <- <- <-. right. constructor. }
    destruct (str_eqb m (lit "textDocument/completion")).
    { destruct (document_params_res "textDocument/completion" (params_of msg)) as [(u & H)|(x & H)]; rewrite H in D.
      - destruct (handle_completion e st (completion_context (params_of msg))) as [[j|]|x|x|]; cbn in D;
          injection D as <- <- <-; try (right; repeat constructor; fail); left; apply one_send; reflexivity.
      - cbn in D. injection D as <- <- <-. right. constructor. }
    cbn in D. injection D as <- <- <-. left. apply one_send. reflexivity.
  Qed.

  Lemma handle_did_open_silent : forall u, fst (snd (handle_did_open e st u)) = [].
  Proof.
    intro u. unfold handle_did_open. destruct (let! path := to_path u in _) as [root|x|x|]; try reflexivity.
    destruct (open_project e root) as [[|]|]; reflexivity.
  Qed.

  Lemma no_request_no_answer : forall msg st' out r, request_of msg = None ->
    dispatch seg uuid checks e st msg = (st', (out, r)) -> Forall (fun j => answer_of j = None) out.
  Proof.
    intros msg st' out r R D. destruct (notification_of msg) as [m|] eqn:N.
    2:{ destruct (dispatch_other msg R N) as [H|H]; rewrite H in D; cbn in D; injection D as <- <- <-; repeat constructor. }
    rewrite (dispatch_notification msg m N) in D. unfold handle_notification in D.
    destruct (str_eqb m (lit "initialized")); [cbn in D; injection D as <- <- <-; repeat constructor|].
    destruct (str_eqb m (lit "textDocument/didOpen")).
    { destruct (document_params_res "textDocument/didOpen" (params_of msg)) as [(u & H)|(x & H)]; rewrite H in D.
      - pose proof (handle_did_open_silent u) as S'. rewrite D in S'. cbn in S'. subst out. constructor.
      - cbn in D. injection D as <- <- <-. constructor. }
    destruct (str_eqb m (lit "textDocument/didChange")).
    { destruct (document_params_res "textDocument/didChange" (params_of msg)) as [(u & H)|(x & H)]; rewrite H in D;
        cbn in D; injection D as <- <- <-; constructor. }
    destruct (str_eqb m (lit "textDocument/didSave")); [|cbn in D; injection D as <- <- <-; constructor].
    destruct (document_params_res "textDocument/didSave" (params_of msg)) as [(u & H)|(x & H)]; rewrite H in D;
      [|cbn in D; injection D as <- <- <-; constructor].
    unfold handle_did_save in D. destruct (to_path u) as [path|x|x|]; try (cbn in D; injection D as <- <- <-; constructor).
    destruct (tokenize seg e path) as [ts|x|x|]; try (cbn in D; injection D as <- <- <-; repeat constructor; fail).
    destruct (let! cst := parse ts in transform uuid cst) as [[a es]|x|x|];
      try (cbn in D; injection D as <- <- <-; constructor).
    unfold send_publish_diagnostics in D. destruct (negb (publish_diagnostics st)); cbn in D; injection D as <- <- <-;
      repeat constructor.
  Qed.
End Dispatch.
