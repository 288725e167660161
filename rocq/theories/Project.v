(** brack-project-manager: config.rs, document.rs, plugin.rs and project.rs. *)
From Coq Require Import String List NArith ZArith Bool.
From Coq Require Hexadecimal HexadecimalN.
From Verif Require Import Base Plugin Utf8 Json Serde Compile Sha256.
Import ListNotations.

(** * Configurations *)

(** plugin.rs 13-24: the only variant is [GitHub]. *)
Record schema := mkSchema {
  s_owner : str; s_repo : str; s_version : str;
  s_expr_hook : option bool; s_stmt_hook : option bool; s_document_hook : option bool; s_text_hook : option bool
}.
(** document.rs 3-9 *)
Record document := mkDocument { d_name : str; d_version : str; d_backend : str; d_authors : list str }.
(** config.rs 6-10; a [HashMap] as the list of its entries *)
Record config := mkConfig { c_document : document; c_plugins : option (list (str * schema)) }.

(** ** To TOML. A TOML value is modelled by the type of JSON values ([JNull] does not occur; dates and times
    are left out). The text of TOML is left to the [toml] crate, see [toml] below. *)

Definition ser_hook (name : string) (o : option bool) : list (string * json) :=
  match o with Some b => [(name, JBool b)] | None => [] end.
(** plugin.rs 26-62 *)
Definition ser_schema (s : schema) : json :=
  jobj ([("schema", JStr (lit "github")); ("owner", JStr (s_owner s)); ("repo", JStr (s_repo s)); ("version", JStr (s_version s))]%string
        ++ ser_hook "expr_hook" (s_expr_hook s) ++ ser_hook "stmt_hook" (s_stmt_hook s)
        ++ ser_hook "document_hook" (s_document_hook s) ++ ser_hook "text_hook" (s_text_hook s)).
(** document.rs 3-9 *)
Definition ser_document (d : document) : json :=
  jobj [("name", JStr (d_name d)); ("version", JStr (d_version d)); ("backend", JStr (d_backend d));
        ("authors", JArr (map JStr (d_authors d)))]%string.
(** config.rs 6-10; [None] is left out in TOML *)
Definition ser_config (c : config) : json :=
  JObj ((lit "document", ser_document (c_document c))
        :: match c_plugins c with
           | Some ps => [(lit "plugins", JObj (map (fun p => (fst p, ser_schema (snd p))) ps))]
           | None => []
           end).

(** ** From TOML *)

Definition de_bool (j : json) : res bool := match j with JBool b => Ok b | _ => Err (lit "invalid type") end.

(** plugin.rs 82-89: the fields seen so far *)
Record fields := mkFields {
  f_schema : option str; f_owner : option str; f_repo : option str; f_version : option str;
  f_expr_hook : option bool; f_stmt_hook : option bool; f_document_hook : option bool; f_text_hook : option bool
}.
Definition no_fields : fields := mkFields None None None None None None None None.

(** One field: an error if it is there already, then the value. *)
Definition take {A} (old : option A) (value : res A) : res (option A) :=
  match old with
  | Some _ => Err (lit "duplicate field")
  | None => let! v := value in Ok (Some v)
  end.

(** plugin.rs 91-143 *)
Fixpoint visit (kvs : list (str * json)) (f : fields) : res fields :=
  match kvs with
  | [] => Ok f
  | (key, v) :: kvs' =>
      let! f' :=
        if str_eqb key (lit "schema") then
          let! x := take (f_schema f) (de_str v) in
          Ok (mkFields x (f_owner f) (f_repo f) (f_version f) (f_expr_hook f) (f_stmt_hook f) (f_document_hook f) (f_text_hook f))
        else if str_eqb key (lit "owner") then
          let! x := take (f_owner f) (de_str v) in
          Ok (mkFields (f_schema f) x (f_repo f) (f_version f) (f_expr_hook f) (f_stmt_hook f) (f_document_hook f) (f_text_hook f))
        else if str_eqb key (lit "repo") then
          let! x := take (f_repo f) (de_str v) in
          Ok (mkFields (f_schema f) (f_owner f) x (f_version f) (f_expr_hook f) (f_stmt_hook f) (f_document_hook f) (f_text_hook f))
        else if str_eqb key (lit "version") then
          let! x := take (f_version f) (de_str v) in
          Ok (mkFields (f_schema f) (f_owner f) (f_repo f) x (f_expr_hook f) (f_stmt_hook f) (f_document_hook f) (f_text_hook f))
        else if str_eqb key (lit "expr_hook") then
          let! x := take (f_expr_hook f) (de_bool v) in
          Ok (mkFields (f_schema f) (f_owner f) (f_repo f) (f_version f) x (f_stmt_hook f) (f_document_hook f) (f_text_hook f))
        else if str_eqb key (lit "stmt_hook") then
          let! x := take (f_stmt_hook f) (de_bool v) in
          Ok (mkFields (f_schema f) (f_owner f) (f_repo f) (f_version f) (f_expr_hook f) x (f_document_hook f) (f_text_hook f))
        else if str_eqb key (lit "document_hook") then
          let! x := take (f_document_hook f) (de_bool v) in
          Ok (mkFields (f_schema f) (f_owner f) (f_repo f) (f_version f) (f_expr_hook f) (f_stmt_hook f) x (f_text_hook f))
        else if str_eqb key (lit "text_hook") then
          let! x := take (f_text_hook f) (de_bool v) in
          Ok (mkFields (f_schema f) (f_owner f) (f_repo f) (f_version f) (f_expr_hook f) (f_stmt_hook f) (f_document_hook f) x)
        else Err (lit "unknown field") in
      visit kvs' f'
  end.

(** plugin.rs 64-171: only [visit_map] is implemented. *)
Definition de_schema (j : json) : res schema :=
  match j with
  | JObj kvs =>
      let! f := visit kvs no_fields in
      let! sc := ok_or (f_schema f) "missing field `schema`" in
      let! owner := ok_or (f_owner f) "missing field `owner`" in
      let! repo := ok_or (f_repo f) "missing field `repo`" in
      let! version := ok_or (f_version f) "missing field `version`" in
      if str_eqb sc (lit "github")
      then Ok (mkSchema owner repo version (f_expr_hook f) (f_stmt_hook f) (f_document_hook f) (f_text_hook f))
      else Err (lit "invalid value")
  | _ => Err (lit "invalid type")
  end.

(** A derived struct from TOML: like [de_struct] but further elements of an array are not looked at. *)
Definition de_table (names : list string) (j : json) : res (list (option json)) :=
  match j with
  | JArr l => if Nat.leb (length names) (length l) then Ok (map Some (firstn (length names) l)) else Err (lit "invalid length")
  | _ => de_struct names j
  end.

(** document.rs 3-9 *)
Definition de_document (j : json) : res document :=
  let! fs := de_table ["name"; "version"; "backend"; "authors"]%string j in
  match fs with
  | [a; b; c; d] =>
      let! name := field de_str a in
      let! version := field de_str b in
      let! backend := field de_str c in
      let! authors := field (de_vec de_str) d in
      Ok (mkDocument name version backend authors)
  | _ => Err []
  end.

Definition de_plugins (j : json) : res (list (str * schema)) :=
  match j with
  | JObj kvs => mapM (fun kv => let! s := de_schema (snd kv) in Ok (fst kv, s)) kvs
  | _ => Err (lit "invalid type")
  end.

(** config.rs 6-10 *)
Definition de_config (j : json) : res config :=
  let! fs := de_table ["document"; "plugins"]%string j in
  match fs with
  | [a; b] =>
      let! d := field de_document a in
      let! ps := match b with None => Ok None | Some x => let! ps := de_plugins x in Ok (Some ps) end in
      Ok (mkConfig d ps)
  | _ => Err []
  end.

(** * Names of cache files *)

(** [{:?}] of strings: [char::escape_debug]. Which other characters are shown as they are is left
    open: [shown]. *)
Fixpoint hex_text (u : Hexadecimal.uint) : str :=
  match u with
  | Hexadecimal.Nil => []
  | Hexadecimal.D0 u => 48%N :: hex_text u | Hexadecimal.D1 u => 49%N :: hex_text u
  | Hexadecimal.D2 u => 50%N :: hex_text u | Hexadecimal.D3 u => 51%N :: hex_text u
  | Hexadecimal.D4 u => 52%N :: hex_text u | Hexadecimal.D5 u => 53%N :: hex_text u
  | Hexadecimal.D6 u => 54%N :: hex_text u | Hexadecimal.D7 u => 55%N :: hex_text u
  | Hexadecimal.D8 u => 56%N :: hex_text u | Hexadecimal.D9 u => 57%N :: hex_text u
  | Hexadecimal.Da u => 97%N :: hex_text u | Hexadecimal.Db u => 98%N :: hex_text u
  | Hexadecimal.Dc u => 99%N :: hex_text u | Hexadecimal.Dd u => 100%N :: hex_text u
  | Hexadecimal.De u => 101%N :: hex_text u | Hexadecimal.Df u => 102%N :: hex_text u
  end.
Definition debug_char (shown : N -> bool) (c : N) : str :=
  if N.eqb c 0 then lit "\0"
  else if N.eqb c 9 then lit "\t"
  else if N.eqb c 13 then lit "\r"
  else if N.eqb c 10 then lit "\n"
  else if N.eqb c 34 then [92; 34]%N
  else if N.eqb c 92 then lit "\\"
  else if shown c then [c]
  else lit "\u{" ++ hex_text (N.to_hex_uint c) ++ lit "}".
Definition debug_str (shown : N -> bool) (s : str) : str := [34%N] ++ concat (map (debug_char shown) s) ++ [34%N].
Definition debug_hook (o : option bool) : str :=
  match o with
  | None => lit "None"
  | Some true => lit "Some(true)"
  | Some false => lit "Some(false)"
  end.
(** plugin.rs 13-24: [#[derive(Debug)]] *)
Definition debug_schema (shown : N -> bool) (s : schema) : str :=
  lit "GitHub { owner: " ++ debug_str shown (s_owner s) ++ lit ", repo: " ++ debug_str shown (s_repo s)
  ++ lit ", version: " ++ debug_str shown (s_version s) ++ lit ", expr_hook: " ++ debug_hook (s_expr_hook s)
  ++ lit ", stmt_hook: " ++ debug_hook (s_stmt_hook s) ++ lit ", document_hook: " ++ debug_hook (s_document_hook s)
  ++ lit ", text_hook: " ++ debug_hook (s_text_hook s) ++ lit " }".

(** plugin.rs 174-178 *)
Definition hash_sha256 (shown : N -> bool) (s : schema) : str := sha256_hex (utf8 (debug_schema shown s)).

(** A path as its bytes. (Simplification: two paths are the same file only if they are equal: no links, no `..`.) *)
Definition path := bytes.

(** project.rs 48-49 *)
Definition cache_path (shown : N -> bool) (name : str) (s : schema) : path :=
  utf8 (lit "plugins/" ++ name ++ lit "_" ++ hash_sha256 shown s ++ lit ".wasm").

(** * Files *)

Record fs := mkfs { file : path -> option bytes; dir : path -> bool }.
Definition present (f : fs) (p : path) : bool := match file f p with Some _ => true | None => dir f p end.

(** What a program does, in steps small enough for it to be killed between any two of them. A file is created empty, or emptied, and
    then filled. *)
Inductive op :=
| Request (url : str)
| Mkdir (p : path)
| Create (p : path)
| Append (p : path) (b : N)
| RemoveAll (p : path)
| Print (s : str).

Definition below (p q : path) : bool := str_eqb p q || str_eqb (p ++ lit "/") (firstn (length p + 1) q).
Definition apply (f : fs) (o : op) : fs :=
  match o with
  | Request _ | Print _ => f
  | Mkdir p => mkfs (file f) (fun q => str_eqb p q || dir f q)
  | Create p => mkfs (fun q => if str_eqb p q then Some [] else file f q) (dir f)
  | Append p b => mkfs (fun q => if str_eqb p q then match file f q with Some c => Some (c ++ [b]) | None => None end else file f q) (dir f)
  | RemoveAll p => mkfs (fun q => if below p q then None else file f q) (fun q => if below p q then false else dir f q)
  end.
Definition apply_all (f : fs) (os : list op) : fs := fold_left apply os f.

(** A program: from the files it finds, what it does and its result. *)
Definition io (A : Type) : Type := fs -> list op * res A.
Definition done {A} (r : res A) : io A := fun _ => ([], r).
Definition ibind {A B} (m : io A) (k : A -> io B) : io B := fun f =>
  let (os, r) := m f in
  match r with
  | Ok x => let (os', r') := k x (apply_all f os) in (os ++ os', r')
  | Err e => (os, Err e)
  | Panic e => (os, Panic e)
  | Fuel => (os, Fuel)
  end.
Notation "'io!' x := m 'in' k" := (ibind m (fun x => k))
  (at level 200, x pattern, m at level 100, k at level 200, right associativity).
Definition emit (o : op) : io unit := fun _ => ([o], Ok tt).

(** The directory of a path; the empty path is the current directory. *)
Definition parent (p : path) : path :=
  match (fix after_slash (r : bytes) : option bytes :=
           match r with [] => None | c :: r' => if N.eqb c 47 then Some r' else after_slash r' end) (rev p) with
  | Some r => rev r
  | None => []
  end.

(** The outside: which files may not be written, what servers answer. (Simplification: the same URL gets the same answer
    during one run; a write only fails when the file is opened.) *)
Inductive response := NoResponse | Response (status : N) (body : option bytes).
Record outside := mkOutside { denied : path -> bool; net : str -> response }.

(** [std::fs::write], and [File::create] with [io::copy] *)
Definition write_file (o : outside) (p : path) (content : bytes) : io unit := fun f =>
  if (str_eqb (parent p) [] || dir f (parent p)) && negb (dir f p) && negb (denied o p)
  then (Create p :: map (Append p) content, Ok tt)
  else ([], Err (lit "cannot write file")).
(** [std::fs::read_to_string] *)
Definition read_to_string (p : path) : io str := fun f =>
  ([], match file f p with
       | Some b => ok_or (from_utf8 b) "stream did not contain valid UTF-8"
       | None => Err (lit "No such file or directory")
       end).
(** [std::fs::create_dir_all] of a name without slashes *)
Definition create_dir_all (o : outside) (p : path) : io unit := fun f =>
  if dir f p then ([], Ok tt)
  else match file f p with
       | Some _ => ([], Err (lit "File exists"))
       | None => if denied o p then ([], Err (lit "Permission denied")) else ([Mkdir p], Ok tt)
       end.
(** [std::fs::create_dir] *)
Definition create_dir (o : outside) (p : path) : io unit := fun f =>
  if present f p || denied o p || negb (str_eqb (parent p) [] || dir f (parent p)) then ([], Err (lit "cannot create directory"))
  else ([Mkdir p], Ok tt).

(** [reqwest::get], the status and the body; the second step is only done if the status is 2xx. *)
Definition fetched (r : response) : res bytes :=
  match r with
  | NoResponse => Err (lit "error sending request")
  | Response status body =>
      if (N.leb 200 status && N.ltb status 300)%bool
      then ok_or body "error decoding response body"
      else Err (lit "Failed to download plugin")
  end.
Definition get (o : outside) (url : str) : io bytes := fun _ => ([Request url], fetched (net o url)).

(** The [toml] crate *)
Record toml := mkToml { toml_read : str -> res json; toml_write : json -> res str }.

Definition brack_toml : path := lit "Brack.toml".

(** project.rs 30-35 (for the root `.`) *)
Definition load_brack_toml (t : toml) : io config :=
  io! s := read_to_string brack_toml in
  done (let! j := toml_read t s in de_config j).

(** * Downloading *)

(** project.rs 16: [plugins_metadata] *)
Definition table := list (str * (path * flags)).

(** project.rs 37-42 *)
Definition clear_plugins (o : outside) : io table :=
  io! _ := (fun f => if dir f (lit "plugins") then ([RemoveAll (lit "plugins")], Ok tt) else ([], Err (lit "No such file or directory"))) in
  io! _ := create_dir o (lit "plugins") in
  done (Ok []).

Definition is_set (o : option bool) : bool := match o with Some b => b | None => false end.
(** project.rs 50-71 *)
Definition schema_flags (s : schema) : flags :=
  mkFlags (is_set (s_document_hook s)) (is_set (s_stmt_hook s)) (is_set (s_expr_hook s)) (is_set (s_text_hook s)).

(** project.rs 83-86 *)
Definition plugin_url (backend name : str) (s : schema) : str :=
  lit "https://github.com/" ++ s_owner s ++ lit "/" ++ s_repo s ++ lit "/releases/download/" ++ s_version s
  ++ lit "/" ++ name ++ lit "." ++ backend ++ lit ".wasm".

Record task := mkTask { task_name : str; task_path : path; task_flags : flags; task_url : str }.

(** project.rs 47-107: the entries of the configuration, in the order of the hash map; the tasks
    that are started *)
Fixpoint start_tasks (shown : N -> bool) (backend : str) (ps : list (str * schema)) (f : fs) (t : table) : list task * table :=
  match ps with
  | [] => ([], t)
  | (name, s) :: ps' =>
      let p := cache_path shown name s in
      if present f p
      then start_tasks shown backend ps' f (hm_insert str_eqb t name (p, schema_flags s))
      else let (ts, t') := start_tasks shown backend ps' f t in
           (mkTask name p (schema_flags s) (plugin_url backend name s) :: ts, t')
  end.

(** [join_all]: every task puts its result into its own place as soon as it has it. *)
Fixpoint set_nth {A} (n : nat) (x : A) (l : list A) : list A :=
  match n, l with
  | O, _ :: l' => x :: l'
  | S n, y :: l' => y :: set_nth n x l'
  | _, [] => []
  end.
Definition join_all {A} (n : nat) (completed : list (nat * A)) : list (option A) :=
  fold_left (fun slots c => set_nth (fst c) (Some (snd c)) slots) completed (repeat None n).

(** project.rs 110-114; a task that never ends keeps the program waiting. *)
Fixpoint store (o : outside) (results : list (task * option (res bytes))) (t : table) : io table :=
  match results with
  | [] => done (Ok t)
  | (k, r) :: results' =>
      io! content := done (match r with Some r => r | None => Fuel end) in
      io! _ := write_file o (task_path k) content in
      store o results' (hm_insert str_eqb t (task_name k) (task_path k, task_flags k))
  end.

(** project.rs 44-118. [order] is the order in which the downloads end. *)
Definition download_plugins_using_config (shown : N -> bool) (o : outside) (order : list nat) (c : config) (t : table) : io table := fun f =>
  match c_plugins c with
  | None => ([], Ok t)
  | Some ps =>
      let (tasks, t') := start_tasks shown (d_backend (c_document c)) ps f t in
      let result i := match nth_error tasks i with Some k => fetched (net o (task_url k)) | None => Fuel end in
      let results := join_all (length tasks) (map (fun i => (i, result i)) order) in
      (io! _ := (fun _ => (map (fun k => Request (task_url k)) tasks, Ok tt)) in
       store o (combine tasks results) t') f
  end.

(** * Building *)

(** [file_stem] and [extension] of a name *)
Definition stem_extension (name : bytes) : bytes * option bytes :=
  match (fix before_dot (r acc : bytes) : option (bytes * bytes) :=
           match r with [] => None | c :: r' => if N.eqb c 46 then Some (r', acc) else before_dot r' (c :: acc) end) (rev name) [] with
  | Some ([], _) => (name, None)
  | Some (before, after) => (rev before, Some after)
  | None => (name, None)
  end.

(** plugin.rs (of brack-plugin) 21-37: [Plugin::new]; [wasm]: starting the module and asking it for its metadata *)
Definition open_plugin (wasm : bytes -> option (list metadata)) (name : str) (p : path) (fl : flags) : io plugin := fun f =>
  ([], match file f p with
       | Some b => let! metas := ok_or (wasm b) "cannot load plugin" in plugin_new name metas fl
       | None => Err (lit "No such file or directory")
       end).
Fixpoint open_plugins (wasm : bytes -> option (list metadata)) (t : table) : io (list plugin) :=
  match t with
  | [] => done (Ok [])
  | (name, (p, fl)) :: t' =>
      io! x := open_plugin wasm name p fl in
      io! xs := open_plugins wasm t' in
      done (Ok (x :: xs))
  end.

Section Build.
  Variable seg : str -> list str.
  (** the uuids drawn for the n-th entry *)
  Variable uuid : nat -> nat -> str.
  Variable checks : bool.
  Variable w : world.
  Variable o : outside.

  (** project.rs 128-149: the entries of `docs`, in the order of [read_dir]; [h] are the calls of plugins so far *)
  Fixpoint build_docs (ps : plugins) (backend : str) (n : nat) (entries : list bytes) (h : list event) : io unit :=
    match entries with
    | [] => done (Ok tt)
    | name :: entries' =>
        let (stem, ext) := stem_extension name in
        io! file_stem := done (ok_or (from_utf8 stem) "Could not convert file name to string.") in
        if match ext with Some e => str_eqb e (lit "[]") | None => false end
        then
          io! s := read_to_string (lit "docs/" ++ name) in
          let (r, h') := compile seg (uuid n) checks w ps s h in
          io! gen := done r in
          io! _ := create_dir_all o (lit "out") in
          io! _ := write_file o (utf8 (lit "out/" ++ file_stem ++ lit "." ++ backend)) (utf8 gen) in
          build_docs ps backend (S n) entries' h'
        else build_docs ps backend (S n) entries' h
    end.

  Fixpoint print_outs (names : list bytes) : io unit :=
    match names with
    | [] => done (Ok tt)
    | name :: names' =>
        io! s := done (ok_or (from_utf8 name) "Could not convert file name to string.") in
        io! _ := emit (Print (lit "  - ./out/" ++ s)) in
        print_outs names'
    end.

  (** project.rs 120-162. [docs] is the result of [read_dir("docs")], [outs] that of [read_dir("out")] in the end.
      (Simplification: a file name that is not UTF-8 is only found when it is used.) *)
  Definition build (wasm : bytes -> option (list metadata)) (docs : option (list bytes)) (outs : fs -> list bytes) (backend : str)
      (t : table) : io unit :=
    io! plugin_vec := open_plugins wasm t in
    io! ps := done (plugins_new plugin_vec) in
    io! entries := done (ok_or docs "No such file or directory") in
    io! _ := build_docs ps backend 0 entries [] in
    io! _ := emit (Print (lit "Build succeeded.")) in
    io! names := (fun f => if dir f (lit "out") then ([], Ok (outs f)) else ([], Err (lit "No such file or directory"))) in
    print_outs names.
End Build.

(** * Adding *)

Fixpoint split (sep : N) (s : str) : list str :=
  match s with
  | [] => [[]]
  | c :: s' =>
      if N.eqb c sep then [] :: split sep s'
      else match split sep s' with [] => [[c]] | x :: xs => (c :: x) :: xs end
  end.
Fixpoint trim_end_rev (c : N) (r : str) : str :=
  match r with x :: r' => if N.eqb x c then trim_end_rev c r' else r | [] => [] end.
(** [trim_end_matches] *)
Definition trim_end (c : N) (s : str) : str := rev (trim_end_rev c (rev s)).

(** plugin.rs 191-221: type, owner, repo and version *)
Definition parse_schema (s : str) : res (str * str * str) :=
  let! repository_type := ok_or (nth_error (split 58 s) 0) "Repository type is not found." in
  let! x := ok_or (nth_error (split 47 s) 0) "Owner is not found." in
  let! owner := ok_or (nth_error (split 58 x) 1) "Owner is not found." in
  let! y := ok_or (nth_error (split 47 s) 1) "Repository is not found." in
  let! repo := ok_or (nth_error (split 64 y) 0) "Repository is not found." in
  let! version := ok_or (nth_error (split 64 s) 1) "Version is not found." in
  if str_eqb repository_type (lit "github") then Ok (owner, repo, version)
  else Err (lit "Repository type is not supported.").

Definition last_of (l : list str) : option str := match rev l with x :: _ => Some x | [] => None end.

(** plugin.rs 186-284 *)
Definition add_plugin (t : toml) (o : outside) (s : str) : io unit :=
  io! found := (fun f => ([], Ok (present f brack_toml))) in
  if negb found then done (Err (lit "Brack.toml is not found.")) else
  io! (owner, repo, version) := done (parse_schema s) in
  let url := lit "https://github.com/" ++ owner ++ lit "/" ++ repo in
  io! c := load_brack_toml t in
  io! repository_name := done (ok_or (last_of (split 47 (trim_end 47 url))) "Last element of URL is not found.") in
  io! plugin_name := done (ok_or (nth_error (split 46 repository_name) 0) "First element of repository name is not found.") in
  let old := match c_plugins c with Some ps => ps | None => [] end in
  match hm_get str_eqb old plugin_name with
  | Some _ => done (Err (lit "Plugin already exists."))
  | None =>
      io! content := get o (url ++ lit "/releases/download/" ++ version ++ lit "/" ++ repository_name ++ lit ".wasm") in
      io! _ := create_dir_all o (lit "plugins") in
      io! _ := write_file o (utf8 (lit "plugins/" ++ repository_name ++ lit ".wasm")) content in
      let c' := mkConfig (c_document c)
                  (Some (hm_insert str_eqb old plugin_name (mkSchema owner repo version None None None None))) in
      io! out := done (toml_write t (ser_config c')) in
      write_file o brack_toml (utf8 out)
  end.
