(** The properties of the messages that the language server exchanges. Every theorem is closed by a
    lemma proved elsewhere; beside each one an example shows that its hypotheses can be met. *)
From Coq Require Import String List NArith ZArith Bool Lia Permutation.
From Verif Require Import Base Tokens Graphemes UAX29 Tokenizer Parser AST TransformError Transform SpecTok SpecCST SpecTransform Plugin GenWitness Utf8
  Framing SemTok SpecServer Json SpecJson Server SpecLsp JsonTotal LspProofs PathProofs LspProofs2 LspProofs3 LspHistory LspReadable LspProofs4 LspProofs5 LspWitness.
Import ListNotations.
Local Open Scope string_scope.
Local Open Scope list_scope.

(** A whole session, with a document that has two errors. *)
Definition demo_text := lit "[m. a" ++ [10%N] ++ lit "b".
Definition demo_run := process_all gseg (fun _ n => [N.of_nat n]) true (demo_envs demo_text) session process_start.
Definition demo_server := mkserver true (Some [(lit "m", (lit "plugins/m.wasm", no_flags))]).

Example session_example : exists p, demo_run = (p, Ok tt) /\ length (proc_sent p) = 7
  /\ filter_map answer_of (proc_sent p) = [1; 2; 3; 4]%Z /\ proc_server p = demo_server.
Proof. eexists. vm_compute. repeat split. Qed.

(** * C42 *)

(** Whatever messages the server gets, and in whatever environment it runs, a client that reads
    what it has written gets exactly the messages sent. *)
Theorem C42_client_reads : forall seg, seg_laws seg -> forall uuid checks envs msgs p r,
  (forall n, env_texts (envs n)) -> (forall n, some_order (envs n)) -> Forall texts msgs ->
  process_all seg uuid checks envs msgs process_start = (p, r) -> Forall fits (proc_sent p) ->
  forall checks', run checks' read_json (fun seen j => (seen ++ [j], Ok tt)) (map (fun j => send_message (print j)) (proc_sent p)) []
  = (proc_sent p, Ok tt).
Proof. exact client_reads. Qed.
Print Assumptions C42_client_reads.

(** Reading JSON ends with a value or an error for every text. *)
Theorem C42_reading_ends : forall s, (exists j, from_str s = Ok j) \/ (exists x, from_str s = Err x).
Proof. exact from_str_total. Qed.
Print Assumptions C42_reading_ends.

Example C42_client_example : (forall n, env_texts (demo_envs demo_text n)) /\ (forall n, some_order (demo_envs demo_text n))
  /\ Forall fits (proc_sent (fst demo_run)) /\ Forall texts session.
Proof.
  split; [intro; apply demo_texts|]. split; [intro; apply demo_order|]. split.
  - apply Forall_forall. intros j I. unfold fits. apply N.ltb_lt.
    apply (proj1 (forallb_forall (fun j => N.ltb (N.of_nat (length (utf8 (print j)))) (2 ^ 31)) (proc_sent (fst demo_run)))); [|exact I].
    vm_compute. reflexivity.
  - unfold session. repeat (apply Forall_cons || apply Forall_nil); cbn -[scalar lit]; repeat split; letters.
Qed.

(** * C43 *)

(** The answer to a request for semantic tokens carries numbers that decode to the tokens. *)
Theorem C43_answer : forall seg, seg_laws seg -> forall uuid checks e st msg id path text ts,
  request_of msg = Some (id, lit "textDocument/semanticTokens/full") ->
  decodes e "textDocument/semanticTokens/full" msg (FilePath path) ->
  read_file e path = inl text -> (N.of_nat (length text) < 2 ^ 32)%N -> tokenize_str seg text = Ok ts ->
  exists a sts, dispatch seg uuid checks e st msg = (st, ([a], Ok tt)) /\ answer_of a = Some id
    /\ lookup_path ["result"; "data"] a = Some (JArr (flat_map (fun t => map (fun n => JInt (Z.of_N n))
         [delta_line t; delta_start t; sem_length t; token_type t; token_modifiers_bitset t]) sts))
    /\ map fst (decode 0 0 sts) = map span ts
    /\ map token_type sts = map (fun t => token_kind_to_type (tk t)) ts.
Proof. exact tokens_answer. Qed.
Print Assumptions C43_answer.

Example C43_answer_example : request_of (tokens_request 2) = Some (2%Z, lit "textDocument/semanticTokens/full")
  /\ decodes (demo_env demo_text) "textDocument/semanticTokens/full" (tokens_request 2) (FilePath demo_path)
  /\ read_file (demo_env demo_text) demo_path = inl demo_text
  /\ exists ts, tokenize_str gseg demo_text = Ok ts /\ length ts = 8.
Proof.
  split; [reflexivity|]. split; [split; [exists demo_uri; split; reflexivity|split; [discriminate|reflexivity]]|].
  split; [reflexivity|]. eexists. vm_compute. split; reflexivity.
Qed.

(** * C45: requests and their answers *)

(** To a request the server sends some log messages and then at most one answer, with the number of
    the request. *)
Theorem C45_at_most_one : forall seg uuid checks e st msg id m st' out r,
  request_of msg = Some (id, m) -> dispatch seg uuid checks e st msg = (st', (out, r)) ->
  exists logs ans, out = logs ++ ans /\ Forall (fun j => is_log j = true /\ answer_of j = None) logs
    /\ (ans = [] \/ exists a, ans = [a] /\ answer_of a = Some id).
Proof. exact answers_shape. Qed.
Print Assumptions C45_at_most_one.

(** Nothing else is ever answered. *)
Theorem C45_only_requests : forall seg uuid checks e st msg st' out r,
  request_of msg = None -> dispatch seg uuid checks e st msg = (st', (out, r)) ->
  Forall (fun j => answer_of j = None) out.
Proof. exact no_request_no_answer. Qed.
Print Assumptions C45_only_requests.

(** Over a whole session the answers come in the order of the requests, and none comes twice. *)
Theorem C45_in_order : forall seg uuid checks envs msgs p r,
  process_all seg uuid checks envs msgs process_start = (p, r) ->
  subsequence (filter_map answer_of (proc_sent p)) (map fst (filter_map request_of msgs)).
Proof. exact answers_subsequence. Qed.
Print Assumptions C45_in_order.

(** Which requests are answered: [answered] in SpecLsp.v. *)
Theorem C45_answered_exactly : forall seg, seg_laws seg -> forall uuid checks e st,
  small_files e -> forall msg id m st' out r, request_of msg = Some (id, m) ->
  dispatch seg uuid checks e st msg = (st', (out, r)) ->
  ((exists a, In a out /\ answer_of a = Some id) <-> answered e st msg m).
Proof. exact (fun seg L uuid checks e st SF msg id m st' out r R D =>
  proj1 (request_outcome seg L uuid checks e st SF msg id m st' out r R D)). Qed.
Print Assumptions C45_answered_exactly.

(** What is answered: an unknown method gets an error, initialize all that is announced. *)
Theorem C45_unknown_method : forall seg uuid checks e st msg id m, request_of msg = Some (id, m) ->
  ~ In m [lit "initialize"; lit "textDocument/semanticTokens/full"; lit "textDocument/completion"] ->
  exists a, dispatch seg uuid checks e st msg = (st, ([a], Ok tt)) /\ answer_of a = Some id
    /\ error_code a = Some (-32601)%Z /\ is_result a = false.
Proof. exact unknown_method. Qed.
Print Assumptions C45_unknown_method.

Theorem C45_initialize : forall seg uuid checks e st msg id, request_of msg = Some (id, lit "initialize") ->
  initialize_decodes e msg ->
  exists log a, dispatch seg uuid checks e st msg
    = (mkserver (publish_diagnostics (fst (dispatch seg uuid checks e st msg))) (srv_project st), ([log; a], Ok tt))
    /\ logged log = Some (lit "Brack Language Server is initializing...") /\ answer_of a = Some id
    /\ Forall (fun kv => lookup_path ("result"%string :: fst kv) a = Some (snd kv)) announced.
Proof. exact initialize_answer. Qed.
Print Assumptions C45_initialize.

(** Histories are what the server does with bytes: with well-framed ones in separate reads exactly, and
    with all others too, for some messages. *)
Theorem C45_bytes : forall seg uuid checks envs msgs, Forall readable msgs -> Forall fits msgs ->
  server_run seg uuid checks envs (map (fun j => send_message (print j)) msgs)
  = process_all seg uuid checks envs msgs process_start.
Proof. exact server_run_is_history. Qed.
Print Assumptions C45_bytes.

Theorem C45_any_bytes : forall seg uuid checks envs reads p r, server_run seg uuid checks envs reads = (p, r) ->
  exists msgs r', process_all seg uuid checks envs msgs process_start = (p, r') /\ (r' = Ok tt \/ r' = r).
Proof. exact (fun seg uuid checks envs reads => run_is_history seg uuid checks envs reads [] process_start). Qed.
Print Assumptions C45_any_bytes.

(** Not every request is answered. A number given as a string is one that the protocol allows: *)
Theorem C45_string_id_refuted : forall seg uuid checks e st,
  let msg := obj [("id", text "1"); ("method", text "shutdown")] in
  notification_of msg = Some (lit "shutdown") /\ dispatch seg uuid checks e st msg = (st, ([], Ok tt)).
Proof. exact string_id. Qed.
Print Assumptions C45_string_id_refuted.

(** a file that cannot be read: *)
Theorem C45_unreadable_refuted : forall seg, seg_laws seg -> forall uuid checks, exists e st msg log,
  request_of msg = Some (7%Z, lit "textDocument/semanticTokens/full")
  /\ dispatch seg uuid checks e st msg = (st, ([log], Ok tt)) /\ logged log = Some (lit "Failed to tokenize file: gone") /\ answer_of log = None.
Proof. exact unreadable. Qed.
Print Assumptions C45_unreadable_refuted.

(** completion without a project: *)
Theorem C45_no_project_refuted : forall seg uuid checks s, exists msg,
  request_of msg = Some (7%Z, lit "textDocument/completion")
  /\ dispatch seg uuid checks (demo_env s) server_default msg = (server_default, ([], Ok tt)).
Proof. exact no_project. Qed.
Print Assumptions C45_no_project_refuted.

Example C45_example : small_files (demo_env demo_text)
  /\ map fst (filter_map request_of session) = [1; 2; 3; 4]%Z
  /\ answered (demo_env demo_text) server_default (init_request 1) (lit "initialize")
  /\ answered (demo_env demo_text) server_default (tokens_request 2) (lit "textDocument/semanticTokens/full")
  /\ answered (demo_env demo_text) demo_server (completion_request 3 "[") (lit "textDocument/completion")
  /\ ~ answered (demo_env demo_text) server_default (completion_request 3 "[") (lit "textDocument/completion").
Proof.
  split; [apply demo_small; vm_compute; reflexivity|]. split; [vm_compute; reflexivity|].
  split; [split; [eexists; reflexivity|reflexivity]|].
  split.
  - exists (FilePath demo_path). split; [split; [exists demo_uri; split; reflexivity|split; [discriminate|reflexivity]]|].
    intros p [= <-]. exists demo_text. reflexivity.
  - split.
    + split; [exists (FilePath demo_path); split; [exists demo_uri; split; reflexivity|split; [discriminate|reflexivity]]|].
      eexists. split; [reflexivity|]. intros (_ & _ & N). apply N. exists (lit "["). reflexivity.
    + intros (_ & pr & P & _). discriminate.
Qed.

(** * C46: no diagnostics without the capability *)
Theorem C46_capability : forall seg, seg_laws seg -> forall uuid checks envs msgs p r d,
  process_all seg uuid checks envs msgs process_start = (p, r) -> In d (proc_sent p) -> is_diagnostics d = true ->
  exists before i between save after, msgs = before ++ i :: between ++ save :: after
    /\ is_initialize i = true /\ announces_diagnostics i
    /\ Forall (fun m => is_initialize m = false) between
    /\ notification_of save = Some (lit "textDocument/didSave").
Proof. exact diagnostics_history. Qed.
Print Assumptions C46_capability.

(** The server remembers exactly whether the last client to initialize it has announced them, so by C47
    a save then publishes them. *)
Theorem C46_remembered : forall seg uuid checks envs msgs p,
  process_all seg uuid checks envs msgs process_start = (p, Ok tt) ->
  (publish_diagnostics (proc_server p) = true <->
   exists before i after, msgs = before ++ i :: after /\ is_initialize i = true /\ announces_diagnostics i
     /\ Forall (fun m => is_initialize m = false) after).
Proof. exact flag_history. Qed.
Print Assumptions C46_remembered.

Example C46_example : exists d, In d (proc_sent (fst demo_run)) /\ is_diagnostics d = true
  /\ is_initialize (init_request 1) = true /\ announces_diagnostics (init_request 1)
  /\ ~ announces_diagnostics (plain_init 1).
Proof.
  eexists. split; [vm_compute; do 5 right; left; reflexivity|]. split; [vm_compute; reflexivity|]. split; [reflexivity|].
  split; [exists (obj []); split; [reflexivity|discriminate]|]. intros (v & H & _). discriminate.
Qed.

(** * C47: diagnostics mirror the transform errors *)
Theorem C47_one_diagnostic_per_error : forall seg, seg_laws seg -> forall uuid checks e st msg path text ts c a es,
  notification_of msg = Some (lit "textDocument/didSave") ->
  decodes e "textDocument/didSave" msg (FilePath path) ->
  read_file e path = inl text -> (N.of_nat (length text) < 2 ^ 32)%N ->
  tokenize_str seg text = Ok ts -> parse ts = Ok c -> transform uuid c = Ok (a, es) ->
  exists out, dispatch seg uuid checks e st msg = (st, (out, Ok tt))
    /\ (publish_diagnostics st = false -> out = [])
    /\ (publish_diagnostics st = true -> exists d ds, out = [d] /\ is_diagnostics d = true
        /\ lookup_path ["params"; "uri"] d = Some (JStr path)
        /\ lookup_path ["params"; "diagnostics"] d = Some (JArr ds) /\ Forall2 shows es ds).
Proof. exact save_shows_errors. Qed.
Print Assumptions C47_one_diagnostic_per_error.

(** A document that cannot be read is logged. *)
Theorem C47_unreadable : forall seg uuid checks e st msg path err,
  notification_of msg = Some (lit "textDocument/didSave") ->
  decodes e "textDocument/didSave" msg (FilePath path) -> read_file e path = inr err ->
  exists log, dispatch seg uuid checks e st msg = (st, ([log], Ok tt)) /\ logged log = Some (lit "Tokenize failed: " ++ err).
Proof. exact save_unreadable. Qed.
Print Assumptions C47_unreadable.

Example C47_example : decodes (demo_env demo_text) "textDocument/didSave" save (FilePath demo_path)
  /\ (let! ts := tokenize_str gseg demo_text in let! c := parse ts in
      let! x := transform (fun n => [N.of_nat n]) c in Ok (length (snd x))) = Ok 2.
Proof. split; [apply save_decodes|]. vm_compute. reflexivity. Qed.

(** * C48: saving a broken document *)

(** The exact condition under which the server goes on after a save. *)
Theorem C48_goes_on_exactly : forall seg, seg_laws seg -> forall uuid checks e st, small_files e -> absolute_paths e ->
  forall msg st' out r, notification_of msg = Some (lit "textDocument/didSave") ->
  dispatch seg uuid checks e st msg = (st', (out, r)) ->
  (r = Ok tt <-> exists path, decodes e "textDocument/didSave" msg (FilePath path)
      /\ forall text ts, read_file e path = inl text -> tokenize_str seg text = Ok ts -> understood ts).
Proof.
  intros seg L uuid checks e st SF AP msg st' out r N D.
  destruct (ends_exactly seg L uuid checks e st SF AP msg st' out r D) as [H _]. rewrite H. unfold survives. rewrite N.
  unfold notification_of in N. destruct (request_of msg); [discriminate|]. reflexivity.
Qed.
Print Assumptions C48_goes_on_exactly.

(** An empty first line or a mismatched bracket ends the server with an error, an escaped bracket
    before a space with a panic. *)
Theorem C48_broken_refuted : forall seg, seg_laws seg -> forall uuid checks st,
  (exists x, snd (snd (dispatch seg uuid checks (demo_env ([10%N] ++ lit "a")) st save)) = Err x)
  /\ (exists x, snd (snd (dispatch seg uuid checks (demo_env (lit "[m.f a>")) st save)) = Err x)
  /\ (exists x, snd (snd (dispatch seg uuid checks (demo_env (lit "\[ a")) st save)) = Panic x).
Proof. exact save_refuted. Qed.
Print Assumptions C48_broken_refuted.

Example C48_example : small_files (demo_env demo_text) /\ absolute_paths (demo_env demo_text)
  /\ match tokenize_str gseg demo_text with Ok ts => understood ts | _ => False end
  /\ match tokenize_str gseg (lit "[m.f a>") with Ok ts => ~ understood ts | _ => False end.
Proof.
  split; [apply demo_small; vm_compute; reflexivity|]. split; [apply demo_absolute|].
  split; [vm_compute; repeat split|]. vm_compute. intros [H _]. discriminate.
Qed.

(** * C67: errors lie at token boundaries *)
Theorem C67_token_boundaries : forall seg, seg_laws seg -> forall uuid s ts c a es,
  tokenize_str seg s = Ok ts -> parse ts = Ok c -> transform uuid c = Ok (a, es) ->
  Forall (fun err => (exists t, In t ts /\ (lstart (snd err) = lstart (tl t) \/ lstart (snd err) = lend (tl t)))
                  /\ (exists t, In t ts /\ (lend (snd err) = lstart (tl t) \/ lend (snd err) = lend (tl t)))) es.
Proof. exact error_positions. Qed.
Print Assumptions C67_token_boundaries.

Theorem C67_inside_text : forall seg, seg_laws seg -> forall uuid s ts c a es,
  tokenize_str seg s = Ok ts -> parse ts = Ok c -> transform uuid c = Ok (a, es) ->
  Forall (fun err => pline (lstart (snd err)) <= length s /\ pchar (lstart (snd err)) <= length s
                  /\ pline (lend (snd err)) <= length s /\ pchar (lend (snd err)) <= length s) es.
Proof. exact error_bounds. Qed.
Print Assumptions C67_inside_text.

Example C67_example :
  (let! ts := tokenize_str gseg demo_text in let! c := parse ts in let! x := transform (fun n => [N.of_nat n]) c in
   Ok (map (fun e => (pchar (lstart (snd e)), pline (lend (snd e)), pchar (lend (snd e)))) (snd x)))
  = Ok [(0, 1, 1); (3, 0, 4)].
Proof. vm_compute. reflexivity. Qed.

(** * C68: diagnostics name the document *)
Theorem C68_uri_refuted : forall seg, seg_laws seg -> forall uuid checks, exists e st msg out d u,
  uri_of msg u /\ dispatch seg uuid checks e st msg = (st, (out, Ok tt)) /\ In d out /\ is_diagnostics d = true
  /\ exists u', lookup_path ["params"; "uri"] d = Some (JStr u') /\ u' <> u.
Proof. exact uri_refuted. Qed.
Print Assumptions C68_uri_refuted.

(** It is never named: what is sent is the path, which starts with a slash. *)
Theorem C68_path_instead : forall seg, seg_laws seg -> forall uuid checks e st msg st' out r d,
  dispatch seg uuid checks e st msg = (st', (out, r)) -> In d out -> is_diagnostics d = true ->
  exists u path, uri_of msg u /\ parse_url e u = FilePath path /\ lookup_path ["params"; "uri"] d = Some (JStr path).
Proof. exact diagnostics_uri. Qed.
Print Assumptions C68_path_instead.

Theorem C68_never_the_uri_refuted : forall seg, seg_laws seg -> forall uuid checks e st, absolute_paths e ->
  forall msg st' out r d u, dispatch seg uuid checks e st msg = (st', (out, r)) -> In d out -> is_diagnostics d = true ->
  uri_of msg u -> ~ absolute u -> lookup_path ["params"; "uri"] d <> Some (JStr u).
Proof. exact diagnostics_uri_never. Qed.
Print Assumptions C68_never_the_uri_refuted.

Example C68_example : absolute_paths (demo_env demo_text) /\ uri_of save demo_uri /\ ~ absolute demo_uri /\
  exists d, In d (fst (snd (dispatch gseg (fun n => [N.of_nat n]) true (demo_env demo_text) (mkserver true None) save))) /\
    is_diagnostics d = true.
Proof.
  split; [apply demo_absolute|]. split; [reflexivity|]. split; [intros [r H]; discriminate|].
  eexists. split; [vm_compute; left; reflexivity|]. reflexivity.
Qed.

(** * C69: what ends the server *)
Theorem C69_ends_exactly : forall seg, seg_laws seg -> forall uuid checks e st, small_files e -> absolute_paths e ->
  forall msg st' out r, dispatch seg uuid checks e st msg = (st', (out, r)) ->
  (r = Ok tt <-> survives seg e msg) /\ r <> Fuel.
Proof. exact ends_exactly. Qed.
Print Assumptions C69_ends_exactly.

Theorem C69_panics_exactly : forall seg, seg_laws seg -> forall uuid checks e st, small_files e -> absolute_paths e ->
  forall msg st' out r, dispatch seg uuid checks e st msg = (st', (out, r)) ->
  ((exists x, r = Panic x) <-> exists path text ts, notification_of msg = Some (lit "textDocument/didSave")
        /\ decodes e "textDocument/didSave" msg (FilePath path) /\ read_file e path = inl text
        /\ tokenize_str seg text = Ok ts /\ acceptable ts = true /\ outside [] (map tk ts) = true).
Proof. exact panics_exactly. Qed.
Print Assumptions C69_panics_exactly.

(** Malformed parameters are not answered with an error, they end the server. *)
Theorem C69_bad_params_refuted : forall seg uuid checks e st, exists x,
  dispatch seg uuid checks e st (request 1 "textDocument/completion" JNull) = (st, ([], Err x)).
Proof. intros. eexists. reflexivity. Qed.
Print Assumptions C69_bad_params_refuted.

Example C69_example : survives gseg (demo_env demo_text) open_doc /\ survives gseg (demo_env demo_text) (tokens_request 1)
  /\ ~ survives gseg (demo_env demo_text) (request 1 "textDocument/completion" JNull).
Proof.
  split; [|split].
  - exists demo_path, (lit "/p"). split; [split; [exists demo_uri; split; reflexivity|split; [discriminate|reflexivity]]|].
    split; [vm_compute; repeat constructor|]. split; [|discriminate]. split; [eexists; reflexivity|]. split; [reflexivity|].
    right. split; [vm_compute; discriminate|]. eexists. reflexivity.
  - exists (FilePath demo_path). split; [exists demo_uri; split; reflexivity|split; [discriminate|reflexivity]].
  - intros (u & (s & H & _) & _). discriminate.
Qed.

(** * C70: completion *)
Theorem C70_offers_commands : forall seg uuid checks e st msg id u pr loaded ps t, some_order e ->
  request_of msg = Some (id, lit "textDocument/completion") -> decodes e "textDocument/completion" msg u ->
  srv_project st = Some pr -> NoDup (map fst pr) -> loads e pr loaded ps -> triggered msg t ->
  exists a items, dispatch seg uuid checks e st msg = (st, ([a], Ok tt)) /\ answer_of a = Some id
    /\ lookup "result" a = Some (JArr items)
    /\ Permutation (map label_and_text items) (map Some (offers t loaded)).
Proof. exact completion_answer. Qed.
Print Assumptions C70_offers_commands.

(** After an angle bracket no macro is offered. *)
Theorem C70_macros_refuted : forall loaded, offers (lit "<") loaded = [].
Proof. exact no_macros. Qed.
Print Assumptions C70_macros_refuted.

Example C70_example : exists loaded ps, loads (demo_env demo_text) [(lit "m", (lit "plugins/m.wasm", no_flags))] loaded ps
  /\ triggered (completion_request 3 "{") (lit "{")
  /\ offers (lit "{") loaded = map (fun n => (lit "m." ++ lit n, lit "m." ++ lit n ++ lit " $0}")) ["g"; "document"; "stmt"].
Proof.
  eexists _, _. split; [split; [constructor; [exists demo_commands; split; vm_compute; reflexivity|constructor]|vm_compute; reflexivity]|].
  split; vm_compute; reflexivity.
Qed.

(** * C71: the project of a document *)
Theorem C71_two_directories_up : forall seg uuid checks e st msg path root,
  notification_of msg = Some (lit "textDocument/didOpen") ->
  decodes e "textDocument/didOpen" msg (FilePath path) -> absolute path ->
  length (components path) >= 2 -> project_root path root ->
  dispatch seg uuid checks e st msg = match open_project e root with
         | None => (st, ([], Ok tt))
         | Some (Some project) => (mkserver (publish_diagnostics st) (Some project), ([], Ok tt))
         | Some None => (st, ([], Err (lit "Failed to download plugin")))
         end.
Proof. exact open_loads_project. Qed.
Print Assumptions C71_two_directories_up.

(** Every absolute path with two components has exactly one such directory. *)
Theorem C71_root_exists : forall path, absolute path -> length (components path) >= 2 -> exists root, project_root path root.
Proof.
  intros path A C. destruct (grandparent_spec path A) as [[H _]|[_ (root & _ & R)]]; [lia|eauto].
Qed.
Print Assumptions C71_root_exists.
Theorem C71_root_unique : forall path r1 r2, project_root path r1 -> project_root path r2 -> r1 = r2.
Proof. exact project_root_unique. Qed.
Print Assumptions C71_root_unique.

(** Nothing else changes the project. *)
Theorem C71_only_open : forall seg uuid checks e st msg st' out r,
  dispatch seg uuid checks e st msg = (st', (out, r)) ->
  notification_of msg <> Some (lit "textDocument/didOpen") -> srv_project st' = srv_project st.
Proof. exact project_step. Qed.
Print Assumptions C71_only_open.

(** A document in a subdirectory of the documents does not find its project. *)
Theorem C71_subdirectory_refuted : project_root (lit "/p/docs/sub/a.[]") (lit "/p/docs").
Proof.
  split; [eexists; reflexivity|]. split; [reflexivity|]. right. split; [vm_compute; discriminate|]. eexists. reflexivity.
Qed.
Print Assumptions C71_subdirectory_refuted.

Example C71_example : decodes (demo_env demo_text) "textDocument/didOpen" open_doc (FilePath demo_path)
  /\ absolute demo_path /\ components demo_path = [lit "p"; lit "docs"; lit "a.[]"] /\ project_root demo_path (lit "/p").
Proof.
  split; [split; [exists demo_uri; split; reflexivity|split; [discriminate|reflexivity]]|].
  split; [eexists; reflexivity|]. split; [reflexivity|]. split; [eexists; reflexivity|]. split; [reflexivity|].
  right. split; [vm_compute; discriminate|]. eexists. reflexivity.
Qed.

(** * C72: other messages *)
Theorem C72_response_ignored : forall seg uuid checks e st msg id,
  lookup "id" msg = Some (JInt id) -> (-2 ^ 63 <= id < 2 ^ 63)%Z ->
  (forall m, lookup "method" msg <> Some (JStr m)) -> dispatch seg uuid checks e st msg = (st, ([], Ok tt)).
Proof. exact response_ignored. Qed.
Print Assumptions C72_response_ignored.

Theorem C72_invalid_request : forall seg uuid checks e st msg,
  (forall id, lookup "id" msg = Some (JInt id) -> ~ (-2 ^ 63 <= id < 2 ^ 63)%Z) ->
  (forall m, lookup "method" msg <> Some (JStr m)) ->
  exists a, dispatch seg uuid checks e st msg = (st, ([a], Ok tt)) /\ error_code a = Some (-32600)%Z
    /\ lookup "id" a = Some JNull.
Proof. exact invalid_request. Qed.
Print Assumptions C72_invalid_request.

Theorem C72_other_notification : forall seg uuid checks e st msg m, notification_of msg = Some m ->
  ~ In m [lit "initialized"; lit "textDocument/didOpen"; lit "textDocument/didChange"; lit "textDocument/didSave"] ->
  dispatch seg uuid checks e st msg = (st, ([], Ok tt)).
Proof. exact other_notification. Qed.
Print Assumptions C72_other_notification.

Theorem C72_initialized_logged : forall seg uuid checks e st msg, notification_of msg = Some (lit "initialized") ->
  exists log, dispatch seg uuid checks e st msg = (st, ([log], Ok tt)) /\ logged log = Some (lit "Brack Language Server has been initialized!").
Proof. exact initialized_logged. Qed.
Print Assumptions C72_initialized_logged.

Theorem C72_change_ignored : forall seg uuid checks e st msg u,
  notification_of msg = Some (lit "textDocument/didChange") -> decodes e "textDocument/didChange" msg u ->
  dispatch seg uuid checks e st msg = (st, ([], Ok tt)).
Proof. exact change_ignored. Qed.
Print Assumptions C72_change_ignored.

Example C72_example :
  lookup "id" (obj [("id", JInt 3); ("result", JNull)]) = Some (JInt 3)
  /\ (forall id, lookup "id" (obj [("jsonrpc", text "2.0")]) <> Some (JInt id))
  /\ notification_of (notification "exit" JNull) = Some (lit "exit")
  /\ decodes (demo_env demo_text) "textDocument/didChange" (notification "textDocument/didChange" (document demo_uri)) (FilePath demo_path).
Proof.
  split; [reflexivity|]. split; [intros id H; discriminate|]. split; [reflexivity|].
  split; [exists demo_uri; split; reflexivity|split; [discriminate|reflexivity]].
Qed.
