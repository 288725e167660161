(** What is needed to state the properties of projects. *)
From Coq Require Import String List NArith Bool Permutation.
From Verif Require Import Base Plugin Utf8 Json Compile Project.
Import ListNotations.

(** ** Plugin entries *)
(** The fields a plugin entry may have; those that it must have. *)
Definition known_fields : list str :=
  map lit ["schema"; "owner"; "repo"; "version"; "expr_hook"; "stmt_hook"; "document_hook"; "text_hook"]%string.
Definition required_fields : list str := map lit ["schema"; "owner"; "repo"; "version"]%string.

(** The entry that a table of fields stands for. *)
Definition hook_field (kvs : list (str * json)) (name : string) (o : option bool) : Prop :=
  match o with
  | Some b => In (lit name, JBool b) kvs
  | None => ~ In (lit name) (map fst kvs)
  end.
Definition entry_of (kvs : list (str * json)) (s : schema) : Prop :=
  NoDup (map fst kvs) /\ incl (map fst kvs) known_fields /\
  In (lit "schema", JStr (lit "github")) kvs /\ In (lit "owner", JStr (s_owner s)) kvs /\
  In (lit "repo", JStr (s_repo s)) kvs /\ In (lit "version", JStr (s_version s)) kvs /\
  hook_field kvs "expr_hook" (s_expr_hook s) /\ hook_field kvs "stmt_hook" (s_stmt_hook s) /\
  hook_field kvs "document_hook" (s_document_hook s) /\ hook_field kvs "text_hook" (s_text_hook s).

(** ** Names and strings *)
Definition no (c : N) (s : str) : Prop := ~ In c s.
(** What is before the first dot. *)
Fixpoint before_dot (s : str) : str :=
  match s with [] => [] | c :: s' => if N.eqb c 46 then [] else c :: before_dot s' end.

Definition schema_scalar (s : schema) : Prop :=
  Forall scalar (s_owner s) /\ Forall scalar (s_repo s) /\ Forall scalar (s_version s).

(** ** Runs *)
(** The states in which a program may be killed. *)
Definition killed {A} (m : io A) (f f' : fs) : Prop :=
  exists before after, fst (m f) = before ++ after /\ f' = apply_all f before.
Definition after {A} (m : io A) (f : fs) : fs := apply_all f (fst (m f)).
Definition requests (os : list op) : list str := flat_map (fun o => match o with Request u => [u] | _ => [] end) os.
Definition same_files (f g : fs) : Prop := (forall p, file f p = file g p) /\ forall p, dir f p = dir g p.

(** Configurations as they can exist in memory, and what is asked of the [toml] crate: it reads back what it wrote. *)
Definition config_storable (c : config) : Prop :=
  Forall scalar (d_name (c_document c)) /\ Forall scalar (d_version (c_document c)) /\ Forall scalar (d_backend (c_document c)) /\
  Forall (Forall scalar) (d_authors (c_document c)) /\
  match c_plugins c with
  | Some ps => NoDup (map fst ps) /\ Forall (fun p => Forall scalar (fst p) /\ schema_scalar (snd p)) ps
  | None => True
  end.
Definition toml_law (t : toml) : Prop := forall c, config_storable c ->
  exists s, toml_write t (ser_config c) = Ok s /\ Forall scalar s /\ toml_read t s = Ok (ser_config c).

(** ** New projects *)
(** Names that mean themselves between quotation marks in TOML: without quotation mark, backslash and control character (but tabs). *)
Definition plain_name (name : str) : Prop :=
  forall c, In c name -> (c = 9 \/ (32 <= c /\ c <> 127 /\ c <> 34 /\ c <> 92))%N.
(** The configuration a new project is meant to have. *)
Definition fresh_config (name : str) : config :=
  mkConfig (mkDocument name (lit "0.1.0") [] [lit "your name <your email>"]) (Some []).

(** [g] is what a program sees that runs in the directory [name] of [f]. *)
Definition seen_from (name : str) (f g : fs) : Prop :=
  forall p, file g p = file f (utf8 name ++ [47%N] ++ p) /\ dir g p = dir f (utf8 name ++ [47%N] ++ p).

(** ** Downloads *)
(** All downloads end: each has its turn in [order]. *)
Definition all_end (order : list nat) (ps : list (str * schema)) : Prop := forall i, i < length ps -> In i order.
(** [p] can be created or replaced: its directory exists, it is not a directory itself, and it may be written. *)
Definition writable (o : outside) (f : fs) (p : path) : Prop :=
  (parent p = [] \/ dir f (parent p) = true) /\ dir f p = false /\ denied o p = false.
(** The server has that file. *)
Definition serves (o : outside) (url : str) (body : bytes) : Prop :=
  exists status, net o url = Response status (Some body) /\ (200 <= status < 300)%N.
Definition missing (shown : N -> bool) (f : fs) (e : str * schema) : bool := negb (present f (cache_path shown (fst e) (snd e))).
(** What is written over a file when the program is killed: nothing yet, or a beginning of the new content. *)
Definition begun (old : option bytes) (new : bytes) (now : option bytes) : Prop := now = old \/ exists n, now = Some (firstn n new).

(** ** Adding *)
(** What is before, and after, the first [c]. *)
Fixpoint upto (c : N) (s : str) : str := match s with [] => [] | x :: s' => if N.eqb x c then [] else x :: upto c s' end.
Fixpoint past (c : N) (s : str) : option str := match s with [] => None | x :: s' => if N.eqb x c then Some s' else past c s' end.

Definition github (owner repo version : str) : str := lit "github:" ++ owner ++ lit "/" ++ repo ++ lit "@" ++ version.
(** The entries of a configuration; the configuration with one more. *)
Definition entries (c : config) : list (str * schema) := match c_plugins c with Some ps => ps | None => [] end.
Definition with_entry (c : config) (name : str) (s : schema) : config := mkConfig (c_document c) (Some (entries c ++ [(name, s)])).
Definition hookless (owner repo version : str) : schema := mkSchema owner repo version None None None None.
Definition added_file (repo : str) : path := utf8 (lit "plugins/" ++ repo ++ lit ".wasm").
Definition added_url (owner repo version : str) : str :=
  lit "https://github.com/" ++ owner ++ lit "/" ++ repo ++ lit "/releases/download/" ++ version ++ lit "/" ++ repo ++ lit ".wasm".

(** ** Building *)
(** The documents among the names in `docs`, and where their output goes. *)
Definition document_name (stem : bytes) (name : bytes) : Prop := name = stem ++ lit ".[]" /\ stem <> [].
Definition is_document (name : bytes) : Prop := exists stem, document_name stem name.
Definition out_file (backend : str) (stem : str) : path := utf8 (lit "out/" ++ stem ++ lit "." ++ backend).

(** The documents of a list of names compile, one after the other, each with the plugins as the ones before left them. *)
Inductive compiled (seg : str -> list str) (uuid : nat -> nat -> str) (checks : bool) (w : world) (ps : plugins) (f : fs) :
    nat -> list bytes -> list event -> list (str * str) -> list event -> Prop :=
| compiled_nil : forall n h, compiled seg uuid checks w ps f n [] h [] h
| compiled_other : forall n name names h outs h', ~ is_document name ->
    compiled seg uuid checks w ps f (S n) names h outs h' -> compiled seg uuid checks w ps f n (name :: names) h outs h'
| compiled_document : forall n stem b text gen h1 names h outs h', stem <> [] -> Forall scalar stem ->
    file f (lit "docs/" ++ utf8 stem ++ lit ".[]") = Some b -> from_utf8 b = Some text ->
    compile seg (uuid n) checks w ps text h = (Ok gen, h1) ->
    compiled seg uuid checks w ps f (S n) names h1 outs h' ->
    compiled seg uuid checks w ps f n ((utf8 stem ++ lit ".[]") :: names) h ((stem, gen) :: outs) h'.

(** The document cannot be built: it is not there, is no text, does not compile, or its output cannot be written. *)
Definition unbuilt (seg : str -> list str) (uuid : nat -> nat -> str) (checks : bool) (w : world) (ps : plugins) (o : outside)
    (backend : str) (f : fs) (n : nat) (name : bytes) (h : list event) : Prop :=
  exists stem, document_name (utf8 stem) name /\
    ((forall b, file f (lit "docs/" ++ name) = Some b -> from_utf8 b = None) \/
     exists b text, file f (lit "docs/" ++ name) = Some b /\ from_utf8 b = Some text /\
       ((forall gen, fst (compile seg (uuid n) checks w ps text h) <> Ok gen) \/
        (dir f (lit "out") = false /\ (file f (lit "out") <> None \/ denied o (lit "out") = true)) \/
        ~ writable o (apply f (Mkdir (lit "out"))) (out_file backend stem))).
(** The part of a name before the extension is text. *)
Definition stem_of (name : bytes) : bytes := fst (stem_extension name).
