(** brack-language-server: server.rs, request.rs, request/, response.rs, result.rs,
    notification.rs and notification/. Framing and semantic tokens are in Framing.v and
    SemTok.v. *)
From Coq Require Import String List NArith ZArith Bool.
From Verif Require Import Base Tokens Tokenizer Parser AST TransformError Transform Plugin Utf8 Framing SemTok Json.
Import ListNotations.

(** brack-project-manager/src/project.rs 14-19: of a project the server uses
    [plugins_metadata], the path and the hooks of each plugin. *)
Definition project := list (str * (str * flags)).

(** [lsp_types::Url] of a string, with [to_file_path] and [to_str] *)
Inductive url := NotUrl | NoPath | NotUtf8 | FilePath (path : str).

(** What the server finds around it while it handles one message. Nothing is assumed about it; it
    may be different for every message. *)
Record env := mkenv {
  (** parsing of URLs *)
  parse_url : str -> url;
  (** whether [lsp_types] accepts the parameters of a method, apart from the fields that are
      read below *)
  accepts : str -> json -> bool;
  (** [File::open] and [read_to_string]: the text, or the error as it is shown *)
  read_file : str -> str + str;
  (** [Project::new], [load_brack_toml] and [download_plugins_using_config] for the given root:
      [None] if there is no readable Brack.toml, [Some None] if the download fails *)
  open_project : str -> option (option project);
  (** reading and starting the WASM module at a path and asking it for its metadata, which may fail *)
  load_wasm : str -> option (list metadata);
  (** [format!("Argument Types: {:?}\nReturn Type: {:?}", ..)] *)
  detail_text : metadata -> str;
  (** the order in which the two maps of [handle_completion] happen to be iterated *)
  hash_order : list json -> list json
}.

(** server.rs 11-15: of the capabilities the server only looks at
    [text_document.publish_diagnostics], and only whether it is there. *)
Record server := mkserver { publish_diagnostics : bool; srv_project : option project }.

(** [#[derive(Default)]], server.rs 10 *)
Definition server_default : server := mkserver false None.

(** What a handler does: the messages it sends, in order, and its [Result]. *)
Definition sends : Type := (list json * res unit)%type.
Definition send (j : json) : sends := ([j], Ok tt).
Definition silent (r : res unit) : sends := ([], r).
Definition send_first (j : json) (s : sends) : sends := (j :: fst s, snd s).

(** A [json!] object: [serde_json] keeps the fields sorted by name. *)
Definition obj (fs : list (string * json)) : json := JObj (map (fun kv => (lit (fst kv), snd kv)) fs).
Definition text (s : string) : json := JStr (lit s).

(** server.rs 36-47 *)
Definition log_message (message : str) : json :=
  obj [("jsonrpc", text "2.0"); ("method", text "window/logMessage");
       ("params", obj [("message", JStr message); ("type", JInt 3)])]%string.

(** server.rs 49-65 *)
Definition error_response (id : option Z) (code : Z) (message : str) : json :=
  obj [("error", obj [("code", JInt code); ("message", JStr message)]);
       ("id", match id with Some i => JInt i | None => JNull end);
       ("jsonrpc", text "2.0")]%string.

(** server.rs 67-70 *)
Definition invalid_request_response : json :=
  error_response None (-32600) (lit "received an invalid request").

(** server.rs 72-75 *)
Definition method_not_found_response (id : Z) (method : str) : json :=
  error_response (Some id) (-32601) (method ++ lit " is not supported").

(** server.rs 83-109 *)
Definition send_publish_diagnostics (st : server) (uri : str) (diagnostics : list json) : sends :=
  if negb (publish_diagnostics st) then silent (Ok tt)
  else send (obj [("jsonrpc", text "2.0"); ("method", text "textDocument/publishDiagnostics");
                  ("params", obj [("diagnostics", JArr diagnostics); ("uri", JStr uri)])]%string).

(** result.rs 3-18 with its derived serialization *)
Definition bls_result (id : Z) (result : json) : json :=
  obj [("jsonrpc", text "2.0"); ("id", JInt id); ("result", result)]%string.

(** [msg["params"]]: [null] if there is none *)
Definition params_of (msg : json) : json :=
  match json_get (lit "params") msg with Some p => p | None => JNull end.

(** A field that is [null] or missing is [None] for serde. *)
Definition field_opt (k : string) (j : json) : option json :=
  match json_get (lit k) j with Some JNull | None => None | Some v => Some v end.

(** [InitializeParams::deserialize]: [capabilities] is required, and whether
    [capabilities.textDocument.publishDiagnostics] is there is kept. (Here and below: [lsp_types] is
    not in the repository; clients send objects, so serde's positional notation of structs as
    arrays is left out, and the remaining fields are left to [accepts].) *)
Definition initialize_params (e : env) (p : json) : res bool :=
  match field_opt "capabilities" p with
  | Some (JObj fs) =>
      if accepts e (lit "initialize") p
      then Ok match field_opt "textDocument" (JObj fs) with
              | Some td => match field_opt "publishDiagnostics" td with Some _ => true | None => false end
              | None => false
              end
      else Err (lit "invalid params")
  | _ => Err (lit "missing field `capabilities`")
  end.

(** The deserialization of the parameters of the other methods: all have
    [textDocument.uri]. *)
Definition document_params (e : env) (method : string) (p : json) : res url :=
  match json_get (lit "textDocument") p with
  | Some td =>
      match json_get (lit "uri") td with
      | Some (JStr u) =>
          match parse_url e u with
          | NotUrl => Err (lit "invalid url")
          | u' => if accepts e (lit method) p then Ok u' else Err (lit "invalid params")
          end
      | _ => Err (lit "missing field `uri`")
      end
  | None => Err (lit "missing field `textDocument`")
  end.

(** [CompletionParams::context], with its [trigger_character] (which [accepts] requires to be a string) *)
Definition completion_context (p : json) : option (option str) :=
  match field_opt "context" p with
  | Some c => Some (match field_opt "triggerCharacter" c with Some (JStr s) => Some s | _ => None end)
  | None => None
  end.

(** [to_file_path] and [to_str] with their [?]; the three handlers differ in the text of the error *)
Definition to_path (u : url) : res str :=
  match u with
  | FilePath path => Ok path
  | _ => Err (lit "Invalid file path")
  end.

(** ** Requests *)

(** request.rs 29-101: what is announced, in the order of the fields of [lsp_types] 0.95. *)
Definition initialize_result : json :=
  obj [("capabilities",
        obj [("textDocumentSync", JInt 1);
             ("completionProvider",
              obj [("resolveProvider", JBool false);
                   ("triggerCharacters", JArr [text "["; text "{"; text "<"; text " "; text "."])]);
             ("semanticTokensProvider",
              obj [("legend",
                    obj [("tokenTypes", JArr (map JStr legend));
                         ("tokenModifiers",
                          JArr (map text ["declaration"; "definition"; "readonly"; "static"; "abstract";
                                          "deprecated"; "async"; "modification"; "documentation";
                                          "defaultLibrary"]))]);
                   ("range", JBool false); ("full", JBool true)])]);
       ("serverInfo", obj [("name", text "Brack Language Server"); ("version", text "0.1.0")])]%string.

(** [SemanticTokens] and its [data], which is one flat array of numbers *)
Definition semantic_tokens_json (sts : list semtok) : json :=
  obj [("data", JArr (flat_map (fun t => map (fun n => JInt (Z.of_N n))
    [delta_line t; delta_start t; sem_length t; token_type t; token_modifiers_bitset t]) sts))]%string.

(** brack-tokenizer/src/tokenize.rs 6-11 *)
Definition tokenize (seg : str -> list str) (e : env) (path : str) : res (list token) :=
  match read_file e path with inl text => tokenize_str seg text | inr err => Err err end.

(** request/semantic_tokens.rs 77-105; [inl]: logged, and [None] is returned. *)
Definition handle_semantic_tokens_full (seg : str -> list str) (checks : bool) (e : env) (u : url)
  : res (str + json) :=
  let! path := to_path u in
  match tokenize seg e path with
  | Ok tokens => let! separated := separate checks tokens in Ok (inr (semantic_tokens_json separated))
  | Err err => Ok (inl (lit "Failed to tokenize file: " ++ err))
  | Panic x => Panic x
  | Fuel => Fuel
  end.

(** request/completion.rs 7-29. [detail] is [detail_text]. *)
Definition build_completion_item (module_name name : str) (typ : ptype) (detail : str) : res json :=
  let label := module_name ++ lit "." ++ name in
  let! insert_text :=
    match typ with
    | TInline => Ok (label ++ lit " $0]")
    | TBlock => Ok (label ++ lit " $0}")
    | TAST => Ok (label ++ lit " $0>")
    | _ => Panic (lit "Invalid type")
    end in
  Ok (obj [("label", JStr label); ("detail", JStr detail); ("insertText", JStr insert_text);
           ("insertTextFormat", JInt 2)]%string).

(** completion.rs 43-46 and project.rs 122-124: [Plugin::new] for every entry of [plugins_metadata] *)
Fixpoint load_plugins (e : env) (ps : project) : res (list plugin) :=
  match ps with
  | [] => Ok []
  | (name, (path, flag)) :: ps' =>
      let! metas := ok_or (load_wasm e path) "cannot load plugin" in
      let! p := plugin_new name metas flag in
      let! rest := load_plugins e ps' in
      Ok (p :: rest)
  end.

(** completion.rs 57-67, the inner loop *)
Fixpoint items_of_plugin (e : env) (start : str) (module_name : str) (tbl : list ((str * ptype) * metadata))
  : res (list json) :=
  match tbl with
  | [] => Ok []
  | ((name, typ), meta) :: tbl' =>
      if (str_eqb start (lit "[") && match typ with TInline => true | _ => false end)
         || (str_eqb start (lit "{") && match typ with TBlock => true | _ => false end)
      then let! item := build_completion_item module_name name typ (detail_text e meta) in
           let! items := items_of_plugin e start module_name tbl' in Ok (item :: items)
      else items_of_plugin e start module_name tbl'
  end.

(** completion.rs 56-69, the outer loop *)
Fixpoint items_of_plugins (e : env) (start : str) (ps : list (str * plugin)) : res (list json) :=
  match ps with
  | [] => Ok []
  | (_, p) :: ps' =>
      let! items := items_of_plugin e start (p_name p) (p_metadata p) in
      let! rest := items_of_plugins e start ps' in Ok (items ++ rest)
  end.

(** completion.rs 32-71 *)
Definition handle_completion (e : env) (st : server) (context : option (option str)) : res (option json) :=
  match srv_project st with
  | None => Ok None
  | Some project =>
      let! plugin_vec := load_plugins e project in
      let! plugins := plugins_new plugin_vec in
      let! trigger := ok_or context "No context" in
      match trigger with
      | None => Ok None
      | Some start =>
          let! items := items_of_plugins e start (name_to_plugin plugins) in
          Ok (Some (JArr (hash_order e items)))
      end
  end.

(** request.rs 17-142 *)
Definition handle_request (seg : str -> list str) (checks : bool) (e : env) (st : server)
  (msg : json) (id : Z) (method : str) : server * sends :=
  let params := params_of msg in
  if str_eqb method (lit "initialize") then
    let log := log_message (lit "Brack Language Server is initializing...") in
    match initialize_params e params with
    | Ok caps => (mkserver caps (srv_project st), send_first log (send (bls_result id initialize_result)))
    | Err x => (st, send_first log (silent (Err x)))
    | Panic x => (st, send_first log (silent (Panic x)))
    | Fuel => (st, send_first log (silent Fuel))
    end
  else if str_eqb method (lit "textDocument/semanticTokens/full") then
    (st, match document_params e "textDocument/semanticTokens/full" params with
         | Ok u =>
             match handle_semantic_tokens_full seg checks e u with
             | Ok (inr response) => send (bls_result id response)
             | Ok (inl log) => send (log_message log)
             | Err _ => send (error_response (Some id) (-32000) (lit "semantic tokens failed"))
             | Panic x => silent (Panic x)
             | Fuel => silent Fuel
             end
         | Err x => silent (Err x)
         | Panic x => silent (Panic x)
         | Fuel => silent Fuel
         end)
  else if str_eqb method (lit "textDocument/completion") then
    (st, match document_params e "textDocument/completion" params with
         | Ok _ =>
             match handle_completion e st (completion_context params) with
             | Ok (Some response) => send (bls_result id response)
             | Ok None => silent (Ok tt)
             | Err _ => send (error_response (Some id) (-32000) (lit "completion failed"))
             | Panic x => silent (Panic x)
             | Fuel => silent Fuel
             end
         | Err x => silent (Err x)
         | Panic x => silent (Panic x)
         | Fuel => silent Fuel
         end)
  else (st, send (method_not_found_response id method)).

(** ** Notifications *)

(** [Path::parent] of an absolute path: without the last component; [None] for the root. *)
Fixpoint drop_slashes (rev_path : str) : str :=
  match rev_path with
  | 47%N :: r => drop_slashes r
  | _ => rev_path
  end.
Fixpoint drop_component (rev_path : str) : str :=
  match rev_path with
  | [] => []
  | 47%N :: _ => rev_path
  | _ :: r => drop_component r
  end.
Definition parent (path : str) : option str :=
  match drop_slashes (rev path) with
  | [] => None
  | r => match drop_slashes (drop_component r) with
         | [] => Some (lit "/")
         | r' => Some (rev r')
         end
  end.

(** notification/did_open.rs 7-31. ([to_str] is not called here: a path that is not UTF-8 would go on
    where this model stops with an error.) *)
Definition handle_did_open (e : env) (st : server) (u : url) : server * sends :=
  match (let! path := to_path u in
         let! dir := ok_or (parent path) "Invalid file path" in
         ok_or (parent dir) "Invalid file path") with
  | Ok root =>
      match open_project e root with
      | None => (st, silent (Ok tt))
      | Some (Some project) => (mkserver (publish_diagnostics st) (Some project), silent (Ok tt))
      | Some None => (st, silent (Err (lit "Failed to download plugin")))
      end
  | Err x => (st, silent (Err x))
  | Panic x => (st, silent (Panic x))
  | Fuel => (st, silent Fuel)
  end.

(** did_save.rs 38-52: one diagnostic, as [lsp_types] serializes it, without the fields that are
    [None] *)
Definition position_json (line char : nat) : json :=
  obj [("character", JInt (Z.of_N (as_u32 (N.of_nat char)))); ("line", JInt (Z.of_N (as_u32 (N.of_nat line))))]%string.
Definition diagnostic (err : terror) : json :=
  let l := snd err in
  obj [("message", JStr (get_message err));
       ("range", obj [("end", position_json (pline (lend l)) (pchar (lend l)));
                      ("start", position_json (pline (lstart l)) (pchar (lstart l)))])]%string.

(** did_save.rs 10-56; both branches of its end publish the list of diagnostics. *)
Definition handle_did_save (seg : str -> list str) (uuid : nat -> str) (e : env) (st : server) (u : url) : sends :=
  match to_path u with
  | Ok path =>
      match tokenize seg e path with
      | Ok tokens =>
          match (let! cst := parse tokens in transform uuid cst) with
          | Ok (_, errors) => send_publish_diagnostics st path (map diagnostic errors)
          | Err x => silent (Err x)
          | Panic x => silent (Panic x)
          | Fuel => silent Fuel
          end
      | Err x => send (log_message (lit "Tokenize failed: " ++ x))
      | Panic x => silent (Panic x)
      | Fuel => silent Fuel
      end
  | Err x => silent (Err x)
  | Panic x => silent (Panic x)
  | Fuel => silent Fuel
  end.

(** notification.rs 14-35; did_change.rs 7-12 does nothing. *)
Definition handle_notification (seg : str -> list str) (uuid : nat -> str) (e : env) (st : server)
  (msg : json) (method : str) : server * sends :=
  let params := params_of msg in
  if str_eqb method (lit "initialized") then
    (st, send (log_message (lit "Brack Language Server has been initialized!")))
  else if str_eqb method (lit "textDocument/didOpen") then
    match document_params e "textDocument/didOpen" params with
    | Ok u => handle_did_open e st u
    | Err x => (st, silent (Err x))
    | Panic x => (st, silent (Panic x))
    | Fuel => (st, silent Fuel)
    end
  else if str_eqb method (lit "textDocument/didChange") then
    (st, match document_params e "textDocument/didChange" params with
         | Ok _ => silent (Ok tt)
         | Err x => silent (Err x)
         | Panic x => silent (Panic x)
         | Fuel => silent Fuel
         end)
  else if str_eqb method (lit "textDocument/didSave") then
    (st, match document_params e "textDocument/didSave" params with
         | Ok u => handle_did_save seg uuid e st u
         | Err x => silent (Err x)
         | Panic x => silent (Panic x)
         | Fuel => silent Fuel
         end)
  else (st, silent (Ok tt)).

(** server.rs 111-121; response.rs 6-8 ignores responses. *)
Definition dispatch (seg : str -> list str) (uuid : nat -> str) (checks : bool) (e : env)
  (st : server) (msg : json) : server * sends :=
  match match json_get (lit "id") msg with Some i => as_i64 i | None => None end,
        match json_get (lit "method") msg with Some m => as_str m | None => None end with
  | Some id, Some method => handle_request seg checks e st msg id method
  | Some _, None => (st, silent (Ok tt))
  | None, Some method => handle_notification seg uuid e st msg method
  | None, None => (st, send invalid_request_response)
  end.

(** ** The whole server *)

(** The state of the process: the server, all messages sent so far, and the number of messages
    handled so far, which selects the environment. *)
Record process := mkprocess { proc_server : server; proc_sent : list json; proc_count : nat }.

Definition process_start : process := mkprocess server_default [] 0.

Definition process_dispatch (seg : str -> list str) (uuid : nat -> nat -> str) (checks : bool)
  (envs : nat -> env) (p : process) (msg : json) : process * res unit :=
  let '(st, (out, r)) :=
    dispatch seg (uuid (proc_count p)) checks (envs (proc_count p)) (proc_server p) msg in
  (mkprocess st (proc_sent p ++ out) (S (proc_count p)), r).

(** server.rs 164: [from_str] of the part of the buffer *)
Definition read_json (b : bytes) : res json :=
  match from_utf8 b with
  | Some s => from_str s
  | None => Err (lit "invalid utf-8 sequence")
  end.

(** server.rs 123-171 *)
Definition server_run (seg : str -> list str) (uuid : nat -> nat -> str) (checks : bool)
  (envs : nat -> env) (reads : list bytes) : process * res unit :=
  run checks read_json (process_dispatch seg uuid checks envs) reads process_start.

(** server.rs 17-34: the bytes that [server_run] writes *)
Definition written (p : process) : bytes := concat (map (fun j => send_message (print j)) (proc_sent p)).

(** The loop of [run] without the bytes: the messages are handled one after the other, until one
    fails. *)
Fixpoint process_all (seg : str -> list str) (uuid : nat -> nat -> str) (checks : bool)
  (envs : nat -> env) (msgs : list json) (p : process) : process * res unit :=
  match msgs with
  | [] => (p, Ok tt)
  | msg :: msgs' =>
      match process_dispatch seg uuid checks envs p msg with
      | (p', Ok _) => process_all seg uuid checks envs msgs' p'
      | r => r
      end
  end.
