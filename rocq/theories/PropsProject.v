(** Property theorems C49 to C56, C73 to C76 and C91 (projects). *)
From Coq Require Import String List NArith Arith Bool Permutation.
From Verif Require Import Base UAX29 Plugin GenWitness Utf8 Json Serde Compile Sha256 Project SpecProject ProjectProofs CacheProofs
  DownloadProofs DownloadProofs2 AddProofs AddProofs2 Utf8Proofs BuildProofs Cli CliMore ProjectMore SpecLsp WitnessProject
  Toml TomlProofs TomlNew TomlWf.
Import ListNotations.

(** ** C49 *)
Theorem C49_round_trip : forall s, de_schema (ser_schema s) = Ok s.
Proof. exact de_ser_schema. Qed.
Print Assumptions C49_round_trip.

(** Exactly the tables that describe an entry are accepted. *)
Theorem C49_exact : forall kvs s, de_schema (JObj kvs) = Ok s <-> entry_of kvs s.
Proof. exact schema_exact. Qed.
Print Assumptions C49_exact.

Theorem C49_field_order : forall kvs kvs' s, Permutation kvs kvs' -> de_schema (JObj kvs) = Ok s -> de_schema (JObj kvs') = Ok s.
Proof. exact field_order. Qed.
Print Assumptions C49_field_order.

Theorem C49_other_rejected : forall j, ((forall kvs, j <> JObj kvs) -> exists e, de_schema j = Err e) /\
  ((exists s, de_schema j = Ok s) \/ exists e, de_schema j = Err e).
Proof. intro j. split; [apply not_a_table|apply schema_answered]. Qed.
Print Assumptions C49_other_rejected.

Theorem C49_config : forall c, de_config (ser_config c) = Ok c.
Proof. exact de_ser_config. Qed.
Print Assumptions C49_config.

(** The same in TOML syntax. *)
Theorem C49_text : forall c, config_storable c ->
  exists s, toml_text (ser_config c) = Ok s /\ Forall scalar s /\ (let! j := toml_parse s in de_config j) = Ok c.
Proof.
  intros c H. destruct (toml_crate_law c H) as (s & W & S & R). exists s. split; [exact W|]. split; [exact S|].
  cbn in R. rewrite R. apply de_ser_config.
Qed.
Print Assumptions C49_text.

(** Every string is read back as it was written. *)
Theorem C49_strings : forall s rest, after_string rest -> read_string (write_str s ++ rest) = Some (s, rest).
Proof. exact string_read. Qed.
Print Assumptions C49_strings.

Definition shuffled : list (str * json) :=
  [(lit "text_hook", JBool false); (lit "version", JStr (lit "1")); (lit "repo", JStr (lit "r")); (lit "schema", JStr (lit "github")); (lit "owner", JStr (lit "o"))].
Example C49_example :
  de_schema (JObj shuffled) = Ok (mkSchema (lit "o") (lit "r") (lit "1") None None None (Some false)) /\
  de_schema (JObj ((lit "owner", JStr (lit "o")) :: shuffled)) = Err (lit "duplicate field") /\
  de_schema (JObj ((lit "expr_hook", JStr (lit "true")) :: shuffled)) = Err (lit "invalid type") /\
  de_schema (JObj ((lit "hook", JBool true) :: shuffled)) = Err (lit "unknown field") /\
  de_schema (JObj (removelast shuffled)) = Err (lit "missing field `owner`") /\
  de_schema (JObj [(lit "schema", JStr (lit "gitlab")); (lit "owner", JStr []); (lit "repo", JStr []); (lit "version", JStr [])]) = Err (lit "invalid value") /\
  de_config (ser_config demo_config) = Ok demo_config.
Proof. vm_compute. repeat split; reflexivity. Qed.

Definition odd_config : config :=
  mkConfig (mkDocument (lit "a ""b"" \c") [] [9; 10; 13; 127; 955]%N [[]; lit "'''"; lit "x, y"; lit "it's \"])
    (Some [(lit "p.q", mkSchema (lit "me") (lit "p.html") (lit "v1") None (Some true) None (Some false)); ([], mkSchema [] [] [] None None None None)]).
Example C49_text_example : config_storable odd_config /\ toml_text (ser_config odd_config) = Ok (lit "[document]
name = 'a ""b"" \c'
version = """"
backend = """"""
\t
\r\u007F" ++ [955%N] ++ lit """""""
authors = ["""", ""'''"", ""x, y"", '''it's \''']

[plugins.""p.q""]
schema = ""github""
owner = ""me""
repo = ""p.html""
version = ""v1""
stmt_hook = true
text_hook = false

[plugins.""""]
schema = ""github""
owner = """"
repo = """"
version = """"
").
Proof.
  split; [|vm_compute; reflexivity].
  assert (A : forall s, forallb (fun c => N.ltb c 0xD800) s = true -> Forall scalar s).
  { intros s H. rewrite forallb_forall in H. apply Forall_forall. intros c I. left. apply N.ltb_lt, H, I. }
  unfold config_storable, odd_config, schema_scalar. cbn [c_document c_plugins d_name d_version d_backend d_authors].
  split; [apply A; reflexivity|]. split; [constructor|]. split; [apply A; reflexivity|].
  split; [repeat (constructor; [apply A; reflexivity|]); constructor|].
  split; [repeat constructor; cbn [In]; intuition discriminate|].
  repeat (constructor; [repeat split; apply A; reflexivity|]). constructor.
Qed.

(** ** C50 *)
(** [toml_law]: what is asked of the [toml] crate, namely to read back the configurations it wrote. *)
Theorem C50_records : forall t o owner repo version c f os,
  toml_law t -> config_storable c -> Forall scalar (github owner repo version) ->
  no 47 owner -> no 58 owner -> no 64 owner -> no 47 repo -> no 64 repo -> repo <> [] -> no 64 version ->
  snd (load_brack_toml t f) = Ok c -> add_plugin t o (github owner repo version) f = (os, Ok tt) ->
  ~ In (before_dot repo) (map fst (entries c)) /\
  snd (load_brack_toml t (apply_all f os)) = Ok (with_entry c (before_dot repo) (hookless owner repo version)) /\
  (exists body, serves o (added_url owner repo version) body /\ file (apply_all f os) (added_file repo) = Some body) /\
  requests os = [added_url owner repo version] /\
  forall p, p <> brack_toml -> p <> added_file repo -> file (apply_all f os) p = file f p.
Proof. exact add_records. Qed.
Print Assumptions C50_records.

Theorem C50_succeeds : forall t o owner repo version c f body,
  toml_law t -> config_storable c -> Forall scalar (github owner repo version) ->
  no 47 owner -> no 58 owner -> no 64 owner -> no 47 repo -> no 64 repo -> repo <> [] -> no 64 version ->
  snd (load_brack_toml t f) = Ok c -> ~ In (before_dot repo) (map fst (entries c)) ->
  serves o (added_url owner repo version) body ->
  (dir f (lit "plugins") = true \/ (file f (lit "plugins") = None /\ denied o (lit "plugins") = false)) ->
  dir f (added_file repo) = false -> denied o (added_file repo) = false ->
  dir f brack_toml = false -> denied o brack_toml = false ->
  exists os, add_plugin t o (github owner repo version) f = (os, Ok tt).
Proof. exact add_succeeds. Qed.
Print Assumptions C50_succeeds.

(** The [toml] crate of Toml.v is such, and it only reads such configurations. *)
Theorem C50_crate : toml_law toml_crate /\ forall f c, snd (load_brack_toml toml_crate f) = Ok c -> config_storable c.
Proof. exact (conj toml_crate_law loaded_storable). Qed.
Print Assumptions C50_crate.

Theorem C50_records_toml : forall o owner repo version c f os,
  Forall scalar (github owner repo version) ->
  no 47 owner -> no 58 owner -> no 64 owner -> no 47 repo -> no 64 repo -> repo <> [] -> no 64 version ->
  snd (load_brack_toml toml_crate f) = Ok c -> add_plugin toml_crate o (github owner repo version) f = (os, Ok tt) ->
  ~ In (before_dot repo) (map fst (entries c)) /\
  snd (load_brack_toml toml_crate (apply_all f os)) = Ok (with_entry c (before_dot repo) (hookless owner repo version)) /\
  (exists body, serves o (added_url owner repo version) body /\ file (apply_all f os) (added_file repo) = Some body) /\
  requests os = [added_url owner repo version] /\
  forall p, p <> brack_toml -> p <> added_file repo -> file (apply_all f os) p = file f p.
Proof.
  intros o owner repo version c f os S A B C D E F G L. apply (add_records toml_crate o owner repo version c f os toml_crate_law (loaded_storable f c L) S); assumption.
Qed.
Print Assumptions C50_records_toml.

Theorem C50_succeeds_toml : forall o owner repo version c f body,
  Forall scalar (github owner repo version) ->
  no 47 owner -> no 58 owner -> no 64 owner -> no 47 repo -> no 64 repo -> repo <> [] -> no 64 version ->
  snd (load_brack_toml toml_crate f) = Ok c -> ~ In (before_dot repo) (map fst (entries c)) ->
  serves o (added_url owner repo version) body ->
  (dir f (lit "plugins") = true \/ (file f (lit "plugins") = None /\ denied o (lit "plugins") = false)) ->
  dir f (added_file repo) = false -> denied o (added_file repo) = false ->
  dir f brack_toml = false -> denied o brack_toml = false ->
  exists os, add_plugin toml_crate o (github owner repo version) f = (os, Ok tt).
Proof.
  intros o owner repo version c f body S A B C D E F G L.
  apply (add_succeeds toml_crate o owner repo version c f body toml_crate_law (loaded_storable f c L) S); assumption.
Qed.
Print Assumptions C50_succeeds_toml.

Definition toml_fs : fs := fs_of
  [(lit "Brack.toml", lit "# a book
document.name = 'b'  # short
document.version = ""1""
document.backend = ""html""
document.authors = [ 'me',
  ""you"", ]
plugins = { html.schema = ""github"", html.owner = ""me"", html.repo = ""html"", html.version = ""v1"", html.text_hook = true }
")] [].
Example C50_toml_example :
  let run := add_plugin toml_crate mirror (lit "github:me/more.html@v1") toml_fs in
  snd run = Ok tt /\ file (apply_all toml_fs (fst run)) brack_toml = Some (lit "[document]
name = ""b""
version = ""1""
backend = ""html""
authors = [""me"", ""you""]

[plugins.html]
schema = ""github""
owner = ""me""
repo = ""html""
version = ""v1""
text_hook = true

[plugins.more]
schema = ""github""
owner = ""me""
repo = ""more.html""
version = ""v1""
").
Proof. vm_compute. repeat split; reflexivity. Qed.

(** Whatever is wrong, the configuration stays as it was. *)
Theorem C50_fails : forall t o s f, (forall x, snd (add_plugin t o s f) <> Ok x) ->
  file (after (add_plugin t o s) f) brack_toml = file f brack_toml.
Proof. exact add_fails. Qed.
Print Assumptions C50_fails.

(** All that is accepted, also what is not of the form `github:owner/repo@version`. *)
Theorem C50_accepted : forall s owner repo version,
  parse_schema s = Ok (owner, repo, version) <->
  exists a b v, s = lit "github:" ++ a ++ lit "/" ++ b /\ no 47 a /\ past 64 s = Some v /\
    owner = upto 58 a /\ repo = upto 64 (upto 47 b) /\ version = upto 64 v.
Proof. exact parse_schema_exact. Qed.
Print Assumptions C50_accepted.

Definition added_demo := add_plugin json_toml mirror (lit "github:me/more.html@v1") demo_fs.
Example C50_example : toml_law json_toml /\ config_storable demo_config /\
  snd (load_brack_toml json_toml demo_fs) = Ok demo_config /\ snd added_demo = Ok tt /\
  snd (load_brack_toml json_toml (apply_all demo_fs (fst added_demo)))
  = Ok (mkConfig demo_document (Some [plain_entry; hook_entry; (lit "more", mkSchema (lit "me") (lit "more.html") (lit "v1") None None None None)])) /\
  file (apply_all demo_fs (fst added_demo)) (lit "plugins/more.html.wasm")
  = Some (lit "https://github.com/me/more.html/releases/download/v1/more.html.wasm") /\
  (let f' := apply_all demo_fs (fst added_demo) in
   add_plugin json_toml mirror (lit "github:you/more.latex@v2") f' = ([], Err (lit "Plugin already exists."))).
Proof. split; [exact json_toml_law|]. split; [exact demo_storable|]. vm_compute. repeat split; reflexivity. Qed.

(** Without a repository the plugin gets the name of the owner; some more texts that are accepted. *)
Theorem C50_name_refuted :
  let run := add_plugin json_toml mirror (github (lit "me") [] (lit "v1")) demo_fs in
  snd run = Ok tt /\ before_dot [] = [] /\
  snd (load_brack_toml json_toml (apply_all demo_fs (fst run)))
  = Ok (mkConfig demo_document (Some [plain_entry; hook_entry; (lit "me", mkSchema (lit "me") [] (lit "v1") None None None None)])) /\
  parse_schema (lit "github:a:x/b@c@d") = Ok (lit "a", lit "b", lit "c") /\
  parse_schema (lit "github:a@1/b") = Ok (lit "a@1", lit "b", lit "1/b") /\
  parse_schema (lit "github:a/b/x@c") = Ok (lit "a", lit "b", lit "c").
Proof. vm_compute. repeat split; reflexivity. Qed.
Print Assumptions C50_name_refuted.

(** ** C51 *)
Theorem C51_cache : forall shown n s n' s', Forall scalar n -> Forall scalar n' -> schema_scalar s -> schema_scalar s' ->
  (sha256_hex (utf8 (debug_schema shown s)) = sha256_hex (utf8 (debug_schema shown s')) ->
   utf8 (debug_schema shown s) = utf8 (debug_schema shown s')) ->
  (cache_path shown n s = cache_path shown n' s' <-> n = n' /\ s = s').
Proof. exact cache_exact. Qed.
Print Assumptions C51_cache.

(** The name is always part of it, whatever the hash. *)
Theorem C51_name : forall shown n s n' s', Forall scalar n -> Forall scalar n' ->
  cache_path shown n s = cache_path shown n' s' -> n = n' /\ hash_sha256 shown s = hash_sha256 shown s'.
Proof. exact cache_path_name. Qed.
Print Assumptions C51_name.

(** With another backend, nothing is downloaded and the files of the first are used. *)
Theorem C51_backend_refuted : forall shown o order c ps t f os t' c2 o2 order2 t2, c_plugins c = Some ps -> all_end order ps ->
  NoDup (map fst ps) -> Forall (fun e : str * schema => Forall scalar (fst e)) ps ->
  download_plugins_using_config shown o order c t f = (os, Ok t') ->
  c_plugins c2 = Some ps -> all_end order2 ps ->
  exists t2', download_plugins_using_config shown o2 order2 c2 t2 (apply_all f os) = ([], Ok t2') /\
    forall n s, In (n, s) ps -> hm_get str_eqb t2' n = Some (cache_path shown n s, schema_flags s) /\
      (present f (cache_path shown n s) = false ->
       exists b, serves o (plugin_url (d_backend (c_document c)) n s) b /\ file (apply_all f os) (cache_path shown n s) = Some b).
Proof. exact backend_reused. Qed.
Print Assumptions C51_backend_refuted.

Definition run_demo := download_plugins_using_config ascii_shown mirror [1; 0]%nat demo_config [] demo_fs.
Definition html_path := cache_path ascii_shown (fst plain_entry) (snd plain_entry).
Definition latex_config := mkConfig (mkDocument (lit "Demo") (lit "0.1.0") (lit "latex") []) (c_plugins demo_config).
Example C51_example : schema_scalar (snd plain_entry) /\ schema_scalar (snd hook_entry) /\
  sha256_hex (lit "abc") = lit "ba7816bf8f01cfea414140de5dae2223b00361a396177a9cb410ff61f20015ad" /\
  html_path = lit "plugins/html_ec57f22f32c885cc1680e4c4fcbe8e34bbceb1a111bbb1b1b3a7dc7dfe3178b5.wasm" /\
  html_path <> cache_path ascii_shown (fst hook_entry) (snd plain_entry) /\
  html_path <> cache_path ascii_shown (fst plain_entry) (mkSchema (lit "brack-lang") (lit "brack-html") (lit "v0.2") None None None (Some false)) /\
  (let f' := apply_all demo_fs (fst run_demo) in
   file f' html_path = Some (lit "https://github.com/brack-lang/brack-html/releases/download/v0.2/html.html.wasm") /\
   fst (download_plugins_using_config ascii_shown offline [0; 1]%nat latex_config [] f') = []).
Proof.
  destruct demo_storable as (_ & _ & _ & _ & _ & F). inversion F as [|? ? [_ A] F']; subst. inversion F' as [|? ? [_ B] _]; subst.
  split; [exact A|]. split; [exact B|].
  vm_compute. repeat split; first [reflexivity|intro H; discriminate H].
Qed.

(** ** C52 *)
Theorem C52_completion_order : forall shown o order order2 c t f,
  (forall ps, c_plugins c = Some ps -> all_end order ps /\ all_end order2 ps) ->
  download_plugins_using_config shown o order c t f = download_plugins_using_config shown o order2 c t f.
Proof. exact completion_order. Qed.
Print Assumptions C52_completion_order.

(** Nor does a success depend on the order in which the hash map gives the entries. *)
Theorem C52_map_order : forall shown o order order2 c c2 ps ps2 t f os t', c_plugins c = Some ps -> c_plugins c2 = Some ps2 ->
  c_document c2 = c_document c -> Permutation ps ps2 -> all_end order ps -> all_end order2 ps2 ->
  NoDup (map fst ps) -> Forall (fun e : str * schema => Forall scalar (fst e)) ps ->
  download_plugins_using_config shown o order c t f = (os, Ok t') ->
  exists os2 t2', download_plugins_using_config shown o order2 c2 t f = (os2, Ok t2') /\
    (forall n, hm_get str_eqb t2' n = hm_get str_eqb t' n) /\ same_files (apply_all f os) (apply_all f os2).
Proof. exact map_order. Qed.
Print Assumptions C52_map_order.

(** A server that has only one of the two plugins. *)
Definition only_html : outside := mkOutside (fun _ => false)
  (fun url => if str_eqb url (plugin_url (lit "html") (fst plain_entry) (snd plain_entry)) then Response 200 (Some [1%N]) else Response 404 (Some [2%N])).
Definition turned_config := mkConfig demo_document (Some [hook_entry; plain_entry]).
Example C52_example :
  match download_plugins_using_config ascii_shown mirror [1; 0]%nat demo_config [] demo_fs, download_plugins_using_config ascii_shown mirror [0; 1]%nat turned_config [] demo_fs with
  | (os, Ok t), (os2, Ok t2) => length t = 2 /\ t <> t2 /\ os <> os2 /\
      file (apply_all demo_fs os) html_path = file (apply_all demo_fs os2) html_path /\ length (requests os) = 2
  | _, _ => False
  end /\
  download_plugins_using_config ascii_shown only_html [1; 0]%nat demo_config [] demo_fs
  = download_plugins_using_config ascii_shown only_html [0; 1]%nat demo_config [] demo_fs /\
  download_plugins_using_config ascii_shown mirror [0]%nat demo_config [] demo_fs
  <> download_plugins_using_config ascii_shown mirror [0; 1]%nat demo_config [] demo_fs.
Proof. vm_compute. repeat split; first [reflexivity|intro H; discriminate H]. Qed.

(** What a failing run leaves behind depends on the order of the hash map. *)
Theorem C52_failure_refuted :
  let a := download_plugins_using_config ascii_shown only_html [0; 1]%nat demo_config [] demo_fs in
  let b := download_plugins_using_config ascii_shown only_html [0; 1]%nat turned_config [] demo_fs in
  (exists e, snd a = Err e) /\ (exists e, snd b = Err e) /\
  file (apply_all demo_fs (fst a)) html_path = Some [1%N] /\ file (apply_all demo_fs (fst b)) html_path = None.
Proof. vm_compute. split; [eexists; reflexivity|]. split; [eexists; reflexivity|]. split; reflexivity. Qed.
Print Assumptions C52_failure_refuted.

(** ** C53 *)
Theorem C53_available : forall shown o order c ps t f os t', c_plugins c = Some ps -> all_end order ps ->
  NoDup (map fst ps) -> Forall (fun e : str * schema => Forall scalar (fst e)) ps ->
  download_plugins_using_config shown o order c t f = (os, Ok t') ->
  (forall n s, In (n, s) ps ->
     hm_get str_eqb t' n = Some (cache_path shown n s, schema_flags s) /\
     present (apply_all f os) (cache_path shown n s) = true /\
     (present f (cache_path shown n s) = true ->
        file (apply_all f os) (cache_path shown n s) = file f (cache_path shown n s)) /\
     (present f (cache_path shown n s) = false ->
        exists b, serves o (plugin_url (d_backend (c_document c)) n s) b /\
                  file (apply_all f os) (cache_path shown n s) = Some b)) /\
  (forall n, ~ In n (map fst ps) -> hm_get str_eqb t' n = hm_get str_eqb t n) /\
  (forall p, (forall n s, In (n, s) ps -> cache_path shown n s <> p) -> file (apply_all f os) p = file f p) /\
  (forall p, dir (apply_all f os) p = dir f p).
Proof. exact downloaded. Qed.
Print Assumptions C53_available.

(** When it succeeds, and what it asks for. *)
Theorem C53_when : forall shown o order c ps t f, c_plugins c = Some ps -> all_end order ps ->
  ((exists t', snd (download_plugins_using_config shown o order c t f) = Ok t') <->
   forall n s, In (n, s) ps -> present f (cache_path shown n s) = false ->
     (exists b, serves o (plugin_url (d_backend (c_document c)) n s) b) /\ writable o f (cache_path shown n s)).
Proof. exact download_ok_iff. Qed.
Print Assumptions C53_when.

Theorem C53_requests : forall shown o order c ps t f, c_plugins c = Some ps ->
  requests (fst (download_plugins_using_config shown o order c t f))
  = map (fun e => plugin_url (d_backend (c_document c)) (fst e) (snd e)) (filter (missing shown f) ps).
Proof. exact download_requests. Qed.
Print Assumptions C53_requests.

(** The address names the owner, the repository, the version, the plugin and the backend, and a hook
    is used exactly if the entry says so. *)
Theorem C53_address_and_hooks : forall backend name s,
  plugin_url backend name s
  = concat [lit "https://github.com/"; s_owner s; lit "/"; s_repo s; lit "/releases/download/"; s_version s; lit "/"; name; lit "."; backend; lit ".wasm"] /\
  (document_hook (schema_flags s) = true <-> s_document_hook s = Some true) /\
  (stmt_hook (schema_flags s) = true <-> s_stmt_hook s = Some true) /\
  (expr_hook (schema_flags s) = true <-> s_expr_hook s = Some true) /\
  (text_hook (schema_flags s) = true <-> s_text_hook s = Some true).
Proof. exact address_and_hooks. Qed.
Print Assumptions C53_address_and_hooks.

Example C53_hooks_example :
  let f := schema_flags (mkSchema (lit "o") (lit "r") (lit "v1") (Some true) (Some false) None (Some true)) in
  (document_hook f, stmt_hook f, expr_hook f, text_hook f) = (false, false, true, true).
Proof. reflexivity. Qed.

Example C53_example :
  match run_demo with
  | (os, Ok t) =>
      hm_get str_eqb t (lit "html") = Some (html_path, mkFlags false false false false) /\
      hm_get str_eqb t (lit "list") = Some (cache_path ascii_shown (fst hook_entry) (snd hook_entry), mkFlags true false false false) /\
      requests os = [lit "https://github.com/brack-lang/brack-html/releases/download/v0.2/html.html.wasm";
                     lit "https://github.com/me/my list""s/releases/download/1/list.html.wasm"]
  | _ => False
  end.
Proof. vm_compute. repeat split; reflexivity. Qed.

(** ** C54 *)
(** A run that is killed can leave an empty file, which every later run uses. *)
Theorem C54_refuted : forall shown o order c ps t f n s os t', c_plugins c = Some ps -> all_end order ps ->
  NoDup (map fst ps) -> Forall (fun e : str * schema => Forall scalar (fst e)) ps ->
  download_plugins_using_config shown o order c t f = (os, Ok t') -> In (n, s) ps -> present f (cache_path shown n s) = false ->
  exists f', killed (download_plugins_using_config shown o order c t) f f' /\ file f' (cache_path shown n s) = Some [] /\
    forall o2 order2 t2 os2 r2, all_end order2 ps -> download_plugins_using_config shown o2 order2 c t2 f' = (os2, r2) ->
      file (apply_all f' os2) (cache_path shown n s) = Some [] /\
      forall t2', r2 = Ok t2' -> hm_get str_eqb t2' n = Some (cache_path shown n s, schema_flags s).
Proof. exact poisoned. Qed.
Print Assumptions C54_refuted.

(** What is true: only files that were not there are incomplete, and they are beginnings of what was downloaded. *)
Theorem C54_killed_partial : forall shown o order c ps t f f', c_plugins c = Some ps -> all_end order ps ->
  killed (download_plugins_using_config shown o order c t) f f' ->
  forall p, dir f' p = dir f p /\
    (file f' p = file f p \/
     exists n s b m, In (n, s) ps /\ p = cache_path shown n s /\ present f p = false /\
       serves o (plugin_url (d_backend (c_document c)) n s) b /\ file f' p = Some (firstn m b)).
Proof. exact download_killed. Qed.
Print Assumptions C54_killed_partial.

Example C54_example : let f' := apply_all demo_fs (firstn 5 (fst run_demo)) in
  file f' html_path = Some (lit "ht") /\
  match download_plugins_using_config ascii_shown mirror [0; 1]%nat demo_config [] f' with
  | (os, Ok t) => requests os = [plugin_url (lit "html") (fst hook_entry) (snd hook_entry)] /\
      file (apply_all f' os) html_path = Some (lit "ht") /\ hm_get str_eqb t (lit "html") = Some (html_path, mkFlags false false false false)
  | _ => False
  end.
Proof. vm_compute. repeat split; reflexivity. Qed.

(** ** C55 *)
(** Killed at the wrong moment the configuration is empty, and no command works any more. *)
Theorem C55_refuted : forall t o s f os, add_plugin t o s f = (os, Ok tt) ->
  exists f', killed (add_plugin t o s) f f' /\ file f' brack_toml = Some [] /\
    (toml_read t [] = Ok (JObj []) ->
       (exists e, snd (load_brack_toml t f') = Err e) /\
       forall o' s', fst (add_plugin t o' s' f') = [] /\ forall x, snd (add_plugin t o' s' f') <> Ok x).
Proof. exact add_empties. Qed.
Print Assumptions C55_refuted.

Theorem C55_killed_partial : forall t o s f f', killed (add_plugin t o s) f f' ->
  file f' brack_toml = file f brack_toml \/
  exists g n, add_plugin t o s f = (g, Ok tt) /\
    exists new, file (apply_all f g) brack_toml = Some new /\ file f' brack_toml = Some (firstn n new).
Proof. exact add_killed. Qed.
Print Assumptions C55_killed_partial.

Example C55_example : toml_read json_toml [] = Ok (JObj []) /\ snd added_demo = Ok tt /\
  (let f' := apply_all demo_fs (firstn (4 + length (added_url (lit "me") (lit "more.html") (lit "v1"))) (fst added_demo)) in
   file f' brack_toml = Some (lit "{") /\ (exists e, snd (load_brack_toml json_toml f') = Err e) /\
   file f' (lit "plugins/more.html.wasm") = Some (lit "https://github.com/me/more.html/releases/download/v1/more.html.wasm")).
Proof. vm_compute. repeat split; try reflexivity. eexists. reflexivity. Qed.

(** ** C56 *)
Theorem C56_outputs : forall seg uuid checks w o wasm outs_of backend docs t f os,
  build seg uuid checks w o wasm docs outs_of backend t f = (os, Ok tt) -> (forall entries, docs = Some entries -> NoDup entries) ->
  exists entries pv ps outs h', docs = Some entries /\ open_plugins wasm t f = ([], Ok pv) /\ plugins_new pv = Ok ps /\
    compiled seg uuid checks w ps f 0 entries [] outs h' /\
    (forall stem, In stem (map fst outs) <-> stem <> [] /\ Forall scalar stem /\ In (utf8 stem ++ lit ".[]") entries) /\
    (forall stem gen, In (stem, gen) outs -> file (apply_all f os) (out_file backend stem) = Some (utf8 gen)) /\
    (forall p, (forall stem, In stem (map fst outs) -> out_file backend stem <> p) -> file (apply_all f os) p = file f p).
Proof. exact build_outputs. Qed.
Print Assumptions C56_outputs.

Theorem C56_stops : forall seg uuid checks w o wasm outs_of backend docs t f,
  (forall x, snd (build seg uuid checks w o wasm docs outs_of backend t f) <> Ok x) -> (forall entries, docs = Some entries -> NoDup entries) ->
  exists entries ps outs h', (docs = Some entries \/ docs = None /\ entries = []) /\
    ((outs = [] /\ fst (build seg uuid checks w o wasm docs outs_of backend t f) = []) \/
     exists before rest, entries = before ++ rest /\ compiled seg uuid checks w ps f 0 before [] outs h' /\
       (forall name rest', rest = name :: rest' ->
          from_utf8 (stem_of name) = None \/ unbuilt seg uuid checks w ps o backend f (length before) name h')) /\
    (forall stem gen, In (stem, gen) outs ->
       file (apply_all f (fst (build seg uuid checks w o wasm docs outs_of backend t f))) (out_file backend stem) = Some (utf8 gen)) /\
    (forall p, (forall stem, In stem (map fst outs) -> out_file backend stem <> p) ->
       file (apply_all f (fst (build seg uuid checks w o wasm docs outs_of backend t f))) p = file f p).
Proof. exact build_stops. Qed.
Print Assumptions C56_stops.

Theorem C56_succeeds : forall seg uuid checks w o wasm outs_of backend entries t f pv ps outs h',
  open_plugins wasm t f = ([], Ok pv) -> plugins_new pv = Ok ps -> compiled seg uuid checks w ps f 0 entries [] outs h' ->
  Forall (fun name => from_utf8 (stem_of name) <> None) entries ->
  (dir f (lit "out") = true \/ (file f (lit "out") = None /\ denied o (lit "out") = false /\ outs <> [])) ->
  Forall (fun x => writable o (apply f (Mkdir (lit "out"))) (out_file backend (fst x))) outs ->
  (forall g, Forall (fun n => from_utf8 n <> None) (outs_of g)) ->
  snd (build seg uuid checks w o wasm (Some entries) outs_of backend t f) = Ok tt.
Proof. exact build_succeeds. Qed.
Print Assumptions C56_succeeds.

(** Outputs of different documents are different files. *)
Theorem C56_distinct : forall backend stem stem', Forall scalar stem -> Forall scalar stem' ->
  out_file backend stem = out_file backend stem' -> stem = stem'.
Proof. exact out_file_inj. Qed.
Print Assumptions C56_distinct.

Definition wasm_demo (b : bytes) : option (list metadata) := match b with [] => None | _ => Some demo_commands end.
Definition docs_demo : list bytes := [lit "b.[]"; lit "notes.txt"; lit "a.[]"; lit ".[]"].
Definition built_fs : fs := fs_of
  [(lit "docs/a.[]", lit "x [html.f y]"); (lit "docs/b.[]", lit "*z*"); (lit "docs/notes.txt", [255%N]); (html_path, [1%N]); (lit "out/c.html", lit "old")]
  [lit "docs"; lit "plugins"; lit "out"].
Definition table_demo : table := [(lit "html", (html_path, no_flags))].
Definition marks (n k : nat) : str := [N.of_nat n; N.of_nat k].
Definition build_demo := build gseg marks true echo mirror wasm_demo (Some docs_demo) (fun _ => [lit "a.html"; lit "c.html"]) (lit "html") table_demo.
Example C56_example : NoDup docs_demo /\
  match build_demo built_fs with
  | (os, Ok tt) =>
      let f' := apply_all built_fs os in
      file f' (lit "out/a.html") = Some (lit "x (f:y)") /\ file f' (lit "out/b.html") = Some (lit "*z*") /\
      file f' (lit "out/c.html") = Some (lit "old") /\ file f' (lit "out/notes.html") = None
  | _ => False
  end /\
  (let f := apply_all built_fs [Create (lit "docs/a.[]"); Append (lit "docs/a.[]") 91%N] in
   match build_demo f with
   | (os, Err _) => let f' := apply_all f os in file f' (lit "out/b.html") = Some (lit "*z*") /\ file f' (lit "out/a.html") = None
   | _ => False
   end).
Proof.
  split; [repeat constructor; cbn [In]; intuition discriminate|]. vm_compute. repeat split; reflexivity.
Qed.

(** A file whose name is only the extension is no document. *)
Theorem C56_hidden : ~ is_document (lit ".[]").
Proof. intros (stem & E & N). apply N. destruct stem as [|a [|b [|c [|]]]]; [reflexivity|..]; discriminate E. Qed.
Print Assumptions C56_hidden.

(** ** C73: `new` *)
Theorem C73_exists : forall o name f, present f (utf8 name) = true -> exists e, new_project o name f = ([], Err e).
Proof. exact new_exists. Qed.
Print Assumptions C73_exists.

Theorem C73_files : forall o name f os, new_project o name f = (os, Ok tt) ->
  (forall p, dir (apply_all f os) p = true <-> p = utf8 name \/ p = utf8 (name ++ lit "/docs") \/ dir f p = true) /\
  file (apply_all f os) (utf8 (name ++ lit "/docs/main.[]")) = Some [] /\
  file (apply_all f os) (utf8 (name ++ lit "/Brack.toml")) = Some (utf8 (new_toml name)) /\
  file (apply_all f os) (utf8 (name ++ lit "/.gitignore")) = Some (utf8 new_ignore) /\
  (forall p, p <> utf8 (name ++ lit "/docs/main.[]") -> p <> utf8 (name ++ lit "/Brack.toml") -> p <> utf8 (name ++ lit "/.gitignore") ->
     file (apply_all f os) p = file f p).
Proof. exact new_files. Qed.
Print Assumptions C73_files.

Theorem C73_succeeds : forall o name f, Forall scalar name -> no 47 name -> present f (utf8 name) = false ->
  (forall r, present f (utf8 (name ++ lit "/" ++ r)) = false) -> (forall p, denied o p = false) ->
  exists os, new_project o name f = (os, Ok tt).
Proof. exact new_succeeds. Qed.
Print Assumptions C73_succeeds.

Theorem C73_killed : forall o o2 name f f', killed (new_project o name) f f' ->
  same_files f f' \/ (exists e, new_project o2 name f' = ([], Err e)).
Proof. exact new_killed. Qed.
Print Assumptions C73_killed.

Example C73_example :
  match new_project mirror (lit "book") (fs_of [] []) with
  | (os, Ok tt) =>
      let f' := apply_all (fs_of [] []) os in
      dir f' (lit "book/docs") = true /\ file f' (lit "book/docs/main.[]") = Some [] /\ dir f' (lit "book/plugins") = false /\
      file f' (lit "book/Brack.toml") = Some (lit "[document]
name = ""book""
version = ""0.1.0""
backend = """"
authors = [""your name <your email>""]

[plugins]
") /\ file f' (lit "book/.gitignore") = Some (lit "plugins
out
") /\ (exists e, new_project mirror (lit "book") f' = ([], Err e))
  | _ => False
  end.
Proof. vm_compute. repeat split; try reflexivity. eexists. reflexivity. Qed.

(** ** C91: the configuration of a new project *)
Theorem C91_config : forall o name f os g, Forall scalar name -> new_project o name f = (os, Ok tt) ->
  seen_from name (apply_all f os) g -> plain_name name -> load_brack_toml toml_crate g = ([], Ok (fresh_config name)).
Proof. exact new_loaded. Qed.
Print Assumptions C91_config.

Theorem C91_exactly : forall o name f os g, Forall scalar name -> new_project o name f = (os, Ok tt) ->
  seen_from name (apply_all f os) g ->
  ((exists c, snd (load_brack_toml toml_crate g) = Ok c /\ d_name (c_document c) = name) <-> plain_name name).
Proof. exact new_loaded_exactly. Qed.
Print Assumptions C91_exactly.

Definition new_view (name : str) : fs :=
  let f := apply_all (fs_of [] []) (fst (new_project mirror name (fs_of [] []))) in
  mkfs (fun p => file f (utf8 name ++ [47%N] ++ p)) (fun p => dir f (utf8 name ++ [47%N] ++ p)).
(** Names that are not read back: one that cannot be read, one that ends early and one that is read as another. *)
Theorem C91_other_names :
  snd (new_project mirror (lit "my ""book""") (fs_of [] [])) = Ok tt /\
  load_brack_toml toml_crate (new_view (lit "my ""book""")) = ([], Err (lit "TOML parse error")) /\
  (let name := lit "book"" # "  in snd (new_project mirror name (fs_of [] [])) = Ok tt /\
   load_brack_toml toml_crate (new_view name) = ([], Ok (fresh_config (lit "book")))) /\
  (let name := lit "new\text" in snd (new_project mirror name (fs_of [] [])) = Ok tt /\
   load_brack_toml toml_crate (new_view name) = ([], Ok (fresh_config (lit "new" ++ [9%N] ++ lit "ext")))).
Proof. vm_compute. repeat split; reflexivity. Qed.
Print Assumptions C91_other_names.

Example C91_example : plain_name (lit "it's #1") /\ seen_from (lit "it's #1")
    (apply_all (fs_of [] []) (fst (new_project mirror (lit "it's #1") (fs_of [] [])))) (new_view (lit "it's #1")) /\
  snd (new_project mirror (lit "it's #1") (fs_of [] [])) = Ok tt /\
  load_brack_toml toml_crate (new_view (lit "it's #1")) = ([], Ok (fresh_config (lit "it's #1"))).
Proof.
  split; [|split; [intro p; split; reflexivity|vm_compute; split; reflexivity]].
  intros c I. cbn in I. repeat (destruct I as [<-|I]; [right; repeat split; discriminate|]). contradiction.
Qed.

(** ** C74: what `add` downloads *)
(** The next build does not use it: unless it had been built before, it is downloaded again, from another address. *)
Theorem C74_add_not_used_refuted : forall shown t o owner repo version c f os,
  toml_law t -> config_storable c -> Forall scalar (github owner repo version) ->
  no 47 owner -> no 58 owner -> no 64 owner -> no 47 repo -> no 64 repo -> repo <> [] -> no 64 version ->
  snd (load_brack_toml t f) = Ok c -> add_plugin t o (github owner repo version) f = (os, Ok tt) ->
  let name := before_dot repo in let s := hookless owner repo version in
  present f (cache_path shown name s) = false ->
  exists c', snd (load_brack_toml t (apply_all f os)) = Ok c' /\ In (name, s) (entries c') /\
    forall o2 order t2, In (plugin_url (d_backend (c_document c)) name s)
      (requests (fst (download_plugins_using_config shown o2 order c' t2 (apply_all f os)))).
Proof. exact add_downloads_again. Qed.
Print Assumptions C74_add_not_used_refuted.

Theorem C74_add_not_used_toml_refuted : forall shown o owner repo version c f os,
  Forall scalar (github owner repo version) ->
  no 47 owner -> no 58 owner -> no 64 owner -> no 47 repo -> no 64 repo -> repo <> [] -> no 64 version ->
  snd (load_brack_toml toml_crate f) = Ok c -> add_plugin toml_crate o (github owner repo version) f = (os, Ok tt) ->
  let name := before_dot repo in let s := hookless owner repo version in
  present f (cache_path shown name s) = false ->
  exists c', snd (load_brack_toml toml_crate (apply_all f os)) = Ok c' /\ In (name, s) (entries c') /\
    forall o2 order t2, In (plugin_url (d_backend (c_document c)) name s)
      (requests (fst (download_plugins_using_config shown o2 order c' t2 (apply_all f os)))).
Proof.
  intros shown o owner repo version c f os S A B C D E F G L.
  apply (add_downloads_again shown toml_crate o owner repo version c f os toml_crate_law (loaded_storable f c L) S); assumption.
Qed.
Print Assumptions C74_add_not_used_toml_refuted.

Theorem C74_other_file : forall shown repo s, Forall scalar repo -> added_file repo <> cache_path shown (before_dot repo) s.
Proof. exact added_not_cached. Qed.
Print Assumptions C74_other_file.

Example C74_example :
  let f' := apply_all demo_fs (fst added_demo) in
  match snd (load_brack_toml json_toml f') with
  | Ok c' => requests (fst (download_plugins_using_config ascii_shown offline [0; 1; 2] c' [] f'))
      = [plugin_url (lit "html") (fst plain_entry) (snd plain_entry); plugin_url (lit "html") (fst hook_entry) (snd hook_entry);
         lit "https://github.com/me/more.html/releases/download/v1/more.html.wasm"]
  | _ => False
  end.
Proof. vm_compute. reflexivity. Qed.

(** ** C75: clearing the cache *)
Theorem C75_cleared : forall o f,
  (dir f (lit "plugins") = false -> exists e, clear_plugins o f = ([], Err e)) /\
  (dir f (lit "plugins") = true -> denied o (lit "plugins") = false -> exists os, clear_plugins o f = (os, Ok []) /\
     dir (apply_all f os) (lit "plugins") = true /\
     (forall p, file (apply_all f os) p = if below (lit "plugins") p then None else file f p) /\
     forall p, p <> lit "plugins" -> dir (apply_all f os) p = if below (lit "plugins") p then false else dir f p).
Proof. exact cleared. Qed.
Print Assumptions C75_cleared.

Theorem C75_all_requested : forall shown o f os t o2 order c ps t2, clear_plugins o f = (os, Ok t) -> c_plugins c = Some ps ->
  t = [] /\ requests (fst (download_plugins_using_config shown o2 order c t2 (apply_all f os)))
  = map (fun e => plugin_url (d_backend (c_document c)) (fst e) (snd e)) ps.
Proof. exact cleared_requests. Qed.
Print Assumptions C75_all_requested.

Example C75_example : let f := apply_all demo_fs (fst run_demo) in
  fst (download_plugins_using_config ascii_shown mirror [0; 1] demo_config [] f) = [] /\
  match clear_plugins mirror f with
  | (os, Ok t) => t = [] /\ file (apply_all f os) html_path = None /\ file (apply_all f os) brack_toml = file f brack_toml /\
      length (requests (fst (download_plugins_using_config ascii_shown mirror [0; 1] demo_config [] (apply_all f os)))) = 2
  | _ => False
  end.
Proof. vm_compute. repeat split; reflexivity. Qed.

(** ** C76: without the directory `plugins` no plugin can be stored *)
Theorem C76_refuted : forall shown o order c ps t f n s, c_plugins c = Some ps -> all_end order ps -> In (n, s) ps ->
  Forall scalar n -> no 47 n -> dir f (lit "plugins") = false -> present f (cache_path shown n s) = false ->
  forall t', snd (download_plugins_using_config shown o order c t f) <> Ok t'.
Proof. exact no_directory. Qed.
Print Assumptions C76_refuted.

Example C76_example : let f := fs_of [(lit "Brack.toml", config_bytes demo_config)] [] in
  match download_plugins_using_config ascii_shown mirror [0; 1] demo_config [] f with
  | (os, Err _) => length (requests os) = 2 /\ length os = 2
  | _ => False
  end.
Proof. vm_compute. repeat split; reflexivity. Qed.
