(** Concrete messages and environments for the language server. *)
From Coq Require Import String List NArith ZArith Bool Lia Permutation.
From Verif Require Import Base Tokens Graphemes UAX29 Tokenizer TokenizerWitness Parser AST TransformError Transform SpecCST SpecTransform Plugin GenWitness Utf8 Framing
  SemTok SpecServer Json SpecJson Server SpecLsp JsonTotal LspProofs LspProofs2 LspProofs3 LspHistory LspReadable.
Import ListNotations.
Local Open Scope string_scope.
Local Open Scope list_scope.

(** A machine with one document of the given text in a project with one plugin. *)
Definition demo_path : str := lit "/p/docs/a.[]".
Definition demo_uri : str := lit "file:///p/docs/a.[]".
Definition demo_env (text : str) : env :=
  mkenv (fun s => if str_eqb s demo_uri then FilePath demo_path
                  else if str_eqb s (lit "untitled:1") then NoPath else NotUrl)
        (fun _ _ => true)
        (fun path => if str_eqb path demo_path then inl text else inr (lit "No such file or directory (os error 2)"))
        (fun root => if str_eqb root (lit "/p") then Some (Some [(lit "m", (lit "plugins/m.wasm", no_flags))]) else None)
        (fun path => if str_eqb path (lit "plugins/m.wasm") then Some demo_commands else None)
        (fun _ => lit "detail")
        (@rev json).
Definition demo_envs (text : str) (n : nat) : env := demo_env text.

Definition request (id : Z) (m : string) (params : json) : json :=
  obj [("id", JInt id); ("jsonrpc", text "2.0"); ("method", text m); ("params", params)].
Definition notification (m : string) (params : json) : json :=
  obj [("jsonrpc", text "2.0"); ("method", text m); ("params", params)].
Definition document (u : str) : json := obj [("textDocument", obj [("uri", JStr u)])].
Definition init_request (id : Z) : json :=
  request id "initialize" (obj [("capabilities", obj [("textDocument", obj [("publishDiagnostics", obj [])])])]).
Definition plain_init (id : Z) : json := request id "initialize" (obj [("capabilities", obj [])]).
Definition tokens_request (id : Z) : json := request id "textDocument/semanticTokens/full" (document demo_uri).
Definition completion_request (id : Z) (trigger : string) : json :=
  request id "textDocument/completion"
    (obj [("context", obj [("triggerCharacter", text trigger); ("triggerKind", JInt 2)]);
          ("textDocument", obj [("uri", JStr demo_uri)])]).
Definition save : json := notification "textDocument/didSave" (document demo_uri).
Definition open_doc : json := notification "textDocument/didOpen" (document demo_uri).
Definition session : list json :=
  [init_request 1; notification "initialized" (obj []); open_doc; tokens_request 2; completion_request 3 "["; save;
   request 4 "shutdown" JNull].

Definition letters_of (s : str) : bool := forallb (fun c => c <? 128)%N s.

Lemma demo_small : forall s, (N.of_nat (length s) < 2 ^ 32)%N -> small_files (demo_env s).
Proof.
  intros s H path t E. unfold demo_env in E. cbn [read_file] in E. destruct (str_eqb path demo_path); [injection E as <-; exact H|discriminate].
Qed.
Lemma demo_absolute : forall s, absolute_paths (demo_env s).
Proof.
  intros s u path E. unfold demo_env in E. cbn [parse_url] in E. destruct (str_eqb u demo_uri); [|destruct (str_eqb u _); discriminate]. injection E as <-.
  eexists. reflexivity.
Qed.
Lemma demo_order : forall s, some_order (demo_env s).
Proof. intros s l. cbn. symmetry. apply Permutation_rev. Qed.
Lemma demo_texts : forall s, env_texts (demo_env s).
Proof.
  intro s. unfold demo_env. repeat split; cbn [read_file parse_url open_project load_wasm detail_text].
  - intros path err H. destruct (str_eqb path demo_path); [discriminate|]. injection H as <-. letters.
  - intros u path E. destruct (str_eqb u demo_uri); [|destruct (str_eqb u _); discriminate]. injection E as <-. letters.
  - intros root pr H. destruct (str_eqb root (lit "/p")); [|discriminate]. injection H as <-. repeat constructor.
  - intros path metas H. destruct (str_eqb path _); [|discriminate]. injection H as <-.
    repeat (apply Forall_cons; [cbn; letters|]). apply Forall_nil.
  - intros _. letters.
Qed.

Lemma save_decodes : forall s, decodes (demo_env s) "textDocument/didSave" save (FilePath demo_path).
Proof. intro s. split; [exists demo_uri; split; reflexivity|]. split; [discriminate|reflexivity]. Qed.

(** ** C45 *)
Lemma string_id : forall seg uuid checks e st,
  let msg := obj [("id", text "1"); ("method", text "shutdown")] in
  notification_of msg = Some (lit "shutdown") /\ dispatch seg uuid checks e st msg = (st, ([], Ok tt)).
Proof. intros. split; reflexivity. Qed.

Lemma unreadable : forall seg, seg_laws seg -> forall uuid checks, exists e st msg log,
  request_of msg = Some (7%Z, lit "textDocument/semanticTokens/full")
  /\ dispatch seg uuid checks e st msg = (st, ([log], Ok tt)) /\ logged log = Some (lit "Failed to tokenize file: gone") /\ answer_of log = None.
Proof.
  intros seg L uuid checks.
  exists (mkenv (fun _ => FilePath (lit "/x")) (fun _ _ => true) (fun _ => inr (lit "gone")) (fun _ => None) (fun _ => None)
    (fun _ => []) (fun l => l)), server_default, (tokens_request 7), (log_message (lit "Failed to tokenize file: gone")).
  repeat split.
Qed.

Lemma no_project : forall seg uuid checks s, exists msg,
  request_of msg = Some (7%Z, lit "textDocument/completion")
  /\ dispatch seg uuid checks (demo_env s) server_default msg = (server_default, ([], Ok tt)).
Proof. intros. exists (completion_request 7 "["). split; reflexivity. Qed.

(** ** C48 *)
Lemma save_refuted : forall seg, seg_laws seg -> forall uuid checks st,
  (exists x, snd (snd (dispatch seg uuid checks (demo_env ([10%N] ++ lit "a")) st save)) = Err x)
  /\ (exists x, snd (snd (dispatch seg uuid checks (demo_env (lit "[m.f a>")) st save)) = Err x)
  /\ (exists x, snd (snd (dispatch seg uuid checks (demo_env (lit "\[ a")) st save)) = Panic x).
Proof.
  intros seg L uuid checks st.
  assert (D : forall s ts, tokenize_str gseg s = Ok ts -> TokenizerWitness.ascii s = true ->
    dispatch seg uuid checks (demo_env s) st save = (st,
      match (let! cst := parse ts in transform uuid cst) with
          | Ok (_, errors) => send_publish_diagnostics st demo_path (map diagnostic errors)
          | Err x => silent (Err x)
          | Panic x => silent (Panic x)
          | Fuel => silent Fuel
          end)).
  { intros s ts T A. rewrite (save_dispatch seg uuid checks (demo_env s) st save (FilePath demo_path) eq_refl (save_decodes s)).
    unfold handle_did_save. cbn [to_path]. unfold tokenize.
    change (read_file (demo_env s) demo_path) with (@inl str str s). cbv iota beta.
    rewrite (tokenize_gseg seg s L A), T. reflexivity. }
  repeat split; (erewrite D; [|vm_compute; reflexivity|reflexivity]); eexists; vm_compute; reflexivity.
Qed.

(** ** C68 *)
Lemma uri_refuted : forall seg, seg_laws seg -> forall uuid checks, exists e st msg out d u,
  uri_of msg u /\ dispatch seg uuid checks e st msg = (st, (out, Ok tt)) /\ In d out /\ is_diagnostics d = true
  /\ exists u', lookup_path ["params"; "uri"] d = Some (JStr u') /\ u' <> u.
Proof.
  intros seg L uuid checks. exists (demo_env []), (mkserver true None), save.
  rewrite (save_dispatch seg uuid checks (demo_env []) (mkserver true None) save (FilePath demo_path) eq_refl (save_decodes [])).
  unfold handle_did_save. cbn [to_path]. unfold tokenize.
  change (read_file (demo_env []) demo_path) with (@inl str str []). cbv iota beta.
  rewrite (tokenize_gseg seg [] L eq_refl).
  eexists _, _, demo_uri. split; [reflexivity|]. split; [vm_compute; reflexivity|]. split; [left; reflexivity|].
  split; [reflexivity|]. exists demo_path. split; [reflexivity|]. vm_compute. discriminate.
Qed.
