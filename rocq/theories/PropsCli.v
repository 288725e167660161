(** Property theorems C57, C58, C77, C78, C83 and C92 (the command line). *)
From Coq Require Import String List NArith Arith Bool.
From Verif Require Import Graphemes Show SpecSerde ShowProofs ShowProofs2 ExchangeProofs Base UAX29 Tokens Tokenizer CST Parser AST TransformError Transform Plugin Expander Codegen GenWitness Utf8 Json Serde Compile Project SpecProject CacheProofs Cli
  CliProofs CliProofs2 CliMore SpecCli RegexProofs SpecLsp WitnessProject PropsProject
  Toml TomlNew TomlWf.
Import ListNotations.

(** ** C57 *)
(** The names that are looked for, as the leftmost match of the pattern says. *)
Theorem C57_pattern : forall s a, captures s = Some a <-> found_as s a.
Proof. exact captures_iff. Qed.
Print Assumptions C57_pattern.

(** The name under which a stored file is found is its own exactly if it is made of letters. *)
Theorem C57_name : forall shown name s, name <> [] ->
  (found_as (lit "plugins/" ++ name ++ lit "_" ++ hash_sha256 shown s ++ lit ".wasm") name <-> Forall letter name).
Proof. exact named_iff. Qed.
Print Assumptions C57_name.

(** A plugin of such a name whose file is in `plugins`, and the only one that is found under its name, is used. *)
Theorem C57_found : forall shown name s names t, Forall scalar name -> name <> [] -> Forall letter name ->
  Forall (fun n => from_utf8 (lit "plugins/" ++ n) <> None) names ->
  In (utf8 (name ++ lit "_" ++ hash_sha256 shown s ++ lit ".wasm")) names ->
  (forall n text, In n names -> from_utf8 (lit "plugins/" ++ n) = Some text -> found_as text name ->
     n = utf8 (name ++ lit "_" ++ hash_sha256 shown s ++ lit ".wasm")) ->
  exists t', find_plugins (lit "plugins") names t = Ok t' /\
    hm_get str_eqb t' name = Some (cache_path shown name s, mkFlags false false false false).
Proof. exact file_found. Qed.
Print Assumptions C57_found.

(** No other name is ever found, in any directory; and of several files the last one of the listing is taken. *)
Theorem C57_other_names_refuted : forall d names t, find_plugins d names [] = Ok t ->
  forall name x, hm_get str_eqb t name = Some x -> name <> [] /\ Forall letter name.
Proof. exact names_are_letters. Qed.
Print Assumptions C57_other_names_refuted.

Theorem C57_stale_refuted : forall d names x s name t t', from_utf8 (join d x) = Some s -> found_as s name ->
  find_plugins d (names ++ [x]) t = Ok t' -> hm_get str_eqb t' name = Some (join d x, mkFlags false false false false).
Proof. exact last_file_wins. Qed.
Print Assumptions C57_stale_refuted.

(** The exact part of the name that is taken, if there is no `_` in it: its last letters. *)
Theorem C57_last_letters : forall d p a h, no 95 d -> no 95 p -> Forall letter a ->
  (p = [] \/ exists q x, p = q ++ [x] /\ ~ letter x) ->
  h <> [] -> Forall (fun c => In c (lit "0123456789abcdef")) h ->
  forall b, found_as (d ++ lit "/" ++ (p ++ a) ++ lit "_" ++ h ++ lit ".wasm") b <-> a <> [] /\ b = a.
Proof. exact last_letters. Qed.
Print Assumptions C57_last_letters.

Definition list_path := cache_path ascii_shown (fst hook_entry) (snd hook_entry).
Example C57_example :
  match find_plugins (lit "plugins") [lit ".gitkeep"; skipn 8 list_path; skipn 8 html_path; lit "more.html.wasm"] [] with
  | Ok t => t = [(lit "list", (list_path, no_flags)); (lit "html", (html_path, no_flags))]
  | _ => False
  end /\
  captures (lit "plugins/brack-html_0a.wasm") = Some (lit "html") /\ captures (lit "plugins/html5_0a.wasm") = None /\
  captures (lit "plugins/my_list_0a.wasm") = Some (lit "list") /\
  find_plugins (lit "plugins") [lit "a_1.wasm"; lit "a_2.wasm"] [] = Ok [(lit "a", (lit "plugins/a_2.wasm", no_flags))] /\
  find_plugins (lit "plugins") [lit "a_2.wasm"; lit "a_1.wasm"] [] = Ok [(lit "a", (lit "plugins/a_1.wasm", no_flags))].
Proof. vm_compute. repeat split; reflexivity. Qed.

(** ** C58 *)
Theorem C58_stages : forall seg uuid checks w ps json s ts c a es e h1 g h2,
  tokenize_str seg s = Ok ts -> parse ts = Ok c -> transform uuid c = Ok (a, es) ->
  expander w ps a [] = (Ok e, h1) -> generate checks w ps e h1 = (Ok g, h2) ->
  output seg uuid checks w ps 1 json (Ok s) [] = (Ok (PTokens json ts), []) /\
  output seg uuid checks w ps 2 json (Ok s) [] = (Ok (PCst json c), []) /\
  fst (output seg uuid checks w ps 3 true (Ok s) []) = Ok (PAst true a) /\
  fst (output seg uuid checks w ps 3 false (Ok s) []) = Ok (match es with [] => PAst false a | _ => PErrors es end) /\
  output seg uuid checks w ps 4 json (Ok s) [] = (Ok (PAst json e), h1) /\
  output seg uuid checks w ps 5 false (Ok s) [] = (Ok (PText g), h2).
Proof. exact output_stages. Qed.
Print Assumptions C58_stages.

Theorem C58_fails_exactly : forall seg uuid checks w ps json s,
  ((exists x, fst (output seg uuid checks w ps 1 json (Ok s) []) = Ok x) <-> exists ts, tokenize_str seg s = Ok ts) /\
  ((exists x, fst (output seg uuid checks w ps 2 json (Ok s) []) = Ok x) <-> exists ts c, tokenize_str seg s = Ok ts /\ parse ts = Ok c) /\
  ((exists x, fst (output seg uuid checks w ps 3 json (Ok s) []) = Ok x) <->
     exists ts c r, tokenize_str seg s = Ok ts /\ parse ts = Ok c /\ transform uuid c = Ok r) /\
  ((exists x, fst (output seg uuid checks w ps 4 json (Ok s) []) = Ok x) <->
     exists ts c a es e h1, tokenize_str seg s = Ok ts /\ parse ts = Ok c /\ transform uuid c = Ok (a, es) /\ expander w ps a [] = (Ok e, h1)) /\
  ((exists x, fst (output seg uuid checks w ps 5 false (Ok s) []) = Ok x) <->
     exists ts c a es e h1 g h2, tokenize_str seg s = Ok ts /\ parse ts = Ok c /\ transform uuid c = Ok (a, es) /\
       expander w ps a [] = (Ok e, h1) /\ generate checks w ps e h1 = (Ok g, h2)).
Proof. exact level_ok. Qed.
Print Assumptions C58_fails_exactly.

(** The command prints that, once the plugins are loaded and the file is read. *)
Theorem C58_command : forall seg uuid checks w wasm ls variable d names t pv ps filename b s level json f,
  d <> [] -> ls (utf8 d) = Some names -> find_plugins (utf8 d) names [] = Ok t -> open_plugins wasm t f = ([], Ok pv) -> plugins_new pv = Ok ps ->
  ends_with (lit ".[]") filename = true -> file f (utf8 filename) = Some b -> from_utf8 b = Some s ->
  snd (run_compile seg uuid checks w wasm ls variable (Some d) filename level json f)
  = fst (output seg uuid checks w ps level json (Ok s) []).
Proof. exact compile_run. Qed.
Print Assumptions C58_command.

(** Level 5 is what `build` writes if both work with the same plugins: for the first document, and for all of them if plugins
    do not remember earlier calls. *)
Theorem C58_level5_is_build : forall seg uuid checks w wasm ls variable d names t pv ps f entries outs h' stem gen,
  d <> [] -> ls (utf8 d) = Some names -> find_plugins (utf8 d) names [] = Ok t -> open_plugins wasm t f = ([], Ok pv) -> plugins_new pv = Ok ps ->
  (forall h h' e, w h e = w h' e) ->
  compiled seg uuid checks w ps f O entries [] outs h' -> In (stem, gen) outs ->
  exists i, nth_error entries i = Some (utf8 stem ++ lit ".[]") /\
    snd (run_compile seg (uuid i) checks w wasm ls variable (Some d) (lit "docs/" ++ stem ++ lit ".[]") 5 false f) = Ok (PText gen).
Proof. exact level5_is_build. Qed.
Print Assumptions C58_level5_is_build.

Theorem C58_level5_is_build_first : forall seg uuid checks w wasm ls variable d names t pv ps f stem entries gen outs h',
  d <> [] -> ls (utf8 d) = Some names -> find_plugins (utf8 d) names [] = Ok t -> open_plugins wasm t f = ([], Ok pv) -> plugins_new pv = Ok ps ->
  compiled seg uuid checks w ps f O ((utf8 stem ++ lit ".[]") :: entries) [] ((stem, gen) :: outs) h' -> NoDup ((utf8 stem ++ lit ".[]") :: entries) ->
  snd (run_compile seg (uuid O) checks w wasm ls variable (Some d) (lit "docs/" ++ stem ++ lit ".[]") 5 false f) = Ok (PText gen).
Proof. exact level5_is_build_first. Qed.
Print Assumptions C58_level5_is_build_first.

Definition plugins_listing (p : path) : option (list bytes) := if str_eqb p (lit "plugins") then Some [skipn 8 html_path] else None.
Definition compile_demo (level : N) (json : bool) :=
  run_compile gseg (marks 2) true echo wasm_demo plugins_listing None (Some (lit "plugins")) (lit "docs/a.[]") level json built_fs.
Example C58_example :
  (forall h h' e, echo h e = echo h' e) /\
  compile_demo 5 false = ([], Ok (PText (lit "x (f:y)"))) /\
  match compile_demo 1 true, compile_demo 2 false, compile_demo 3 false, compile_demo 4 true with
  | (_, Ok (PTokens true _)), (_, Ok (PCst false _)), (_, Ok (PAst false _)), (_, Ok (PAst true _)) => True
  | _, _, _, _ => False
  end.
Proof. split; [reflexivity|]. vm_compute. repeat split; reflexivity. Qed.

(** What is not as said: level 3 prints the errors in the place of the tree, level 5 cannot be JSON, and there are no other levels. *)
Theorem C58_levels_refuted : forall seg uuid checks w ps s h,
  (forall ts c a es, tokenize_str seg s = Ok ts -> parse ts = Ok c -> transform uuid c = Ok (a, es) -> es <> [] ->
     output seg uuid checks w ps 3 false (Ok s) h = (Ok (PErrors es), h)) /\
  (exists e, output seg uuid checks w ps 5 true (Ok s) h = (Err e, h)) /\
  (forall n json, (n = 0 \/ n > 5)%N -> exists e, output seg uuid checks w ps n json (Ok s) h = (Err e, h)).
Proof. exact levels_other. Qed.
Print Assumptions C58_levels_refuted.

(** With a plugin whose hook is on, level 5 is not what `build` writes. *)
Definition hooked_config := mkConfig demo_document (Some [(lit "html", mkSchema (lit "o") (lit "r") (lit "1") None None None (Some true))]).
Definition hooked_name := utf8 (lit "html_" ++ hash_sha256 ascii_shown (mkSchema (lit "o") (lit "r") (lit "1") None None None (Some true)) ++ lit ".wasm").
Definition hooked_fs : fs := fs_of
  [(lit "Brack.toml", config_bytes hooked_config); (lit "docs/a.[]", lit "x"); (lit "plugins/" ++ hooked_name, [1%N])] [lit "docs"; lit "plugins"; lit "out"].
Theorem C58_hooks_refuted :
  match build_command gseg marks true echo json_toml ascii_shown offline [0] wasm_demo (fun _ => Some [lit "a.[]"]) (fun _ => []) hooked_fs with
  | (os, Ok tt) => file (apply_all hooked_fs os) (lit "out/a.html") = Some (lit "(text:x)")
  | _ => False
  end /\
  run_compile gseg (marks 0) true echo wasm_demo (fun _ => Some [hooked_name]) None (Some (lit "plugins")) (lit "docs/a.[]") 5 false hooked_fs
  = ([], Ok (PText (lit "x"))).
Proof. vm_compute. split; reflexivity. Qed.
Print Assumptions C58_hooks_refuted.

(** ** C77: `build` as a whole *)
Theorem C77_built : forall seg uuid checks w t shown o order wasm docs outs_of f os,
  build_command seg uuid checks w t shown o order wasm docs outs_of f = (os, Ok tt) ->
  (forall c ps, snd (load_brack_toml t f) = Ok c -> c_plugins c = Some ps ->
     all_end order ps /\ NoDup (map fst ps) /\ Forall (fun e : str * schema => Forall scalar (fst e)) ps) ->
  (forall g names, docs g = Some names -> NoDup names) ->
  exists c tab f1 names pv ps outs h', snd (load_brack_toml t f) = Ok c /\
    (forall n s, In (n, s) (entries c) -> hm_get str_eqb tab n = Some (cache_path shown n s, schema_flags s)) /\
    (forall n, ~ In n (map fst (entries c)) -> hm_get str_eqb tab n = None) /\
    (forall n s, In (n, s) (entries c) -> present f (cache_path shown n s) = false ->
       exists b, serves o (plugin_url (d_backend (c_document c)) n s) b /\ file f1 (cache_path shown n s) = Some b) /\
    (forall p, present f p = true -> file f1 p = file f p) /\
    docs f1 = Some names /\ open_plugins wasm tab f1 = ([], Ok pv) /\ plugins_new pv = Ok ps /\
    compiled seg uuid checks w ps f1 O names [] outs h' /\
    (forall stem, In stem (map fst outs) <-> stem <> [] /\ Forall scalar stem /\ In (utf8 stem ++ lit ".[]") names) /\
    (forall stem gen, In (stem, gen) outs -> file (apply_all f os) (out_file (d_backend (c_document c)) stem) = Some (utf8 gen)).
Proof. exact built. Qed.
Print Assumptions C77_built.

Theorem C77_built_toml : forall seg uuid checks w shown o order wasm docs outs_of f os,
  build_command seg uuid checks w toml_crate shown o order wasm docs outs_of f = (os, Ok tt) ->
  (forall c, snd (load_brack_toml toml_crate f) = Ok c -> all_end order (entries c)) ->
  (forall g names, docs g = Some names -> NoDup names) ->
  exists c tab f1 names pv ps outs h', snd (load_brack_toml toml_crate f) = Ok c /\
    (forall n s, In (n, s) (entries c) -> hm_get str_eqb tab n = Some (cache_path shown n s, schema_flags s)) /\
    (forall n, ~ In n (map fst (entries c)) -> hm_get str_eqb tab n = None) /\
    (forall n s, In (n, s) (entries c) -> present f (cache_path shown n s) = false ->
       exists b, serves o (plugin_url (d_backend (c_document c)) n s) b /\ file f1 (cache_path shown n s) = Some b) /\
    (forall p, present f p = true -> file f1 p = file f p) /\
    docs f1 = Some names /\ open_plugins wasm tab f1 = ([], Ok pv) /\ plugins_new pv = Ok ps /\
    compiled seg uuid checks w ps f1 O names [] outs h' /\
    (forall stem, In stem (map fst outs) <-> stem <> [] /\ Forall scalar stem /\ In (utf8 stem ++ lit ".[]") names) /\
    (forall stem gen, In (stem, gen) outs -> file (apply_all f os) (out_file (d_backend (c_document c)) stem) = Some (utf8 gen)).
Proof.
  intros seg uuid checks w shown o order wasm docs outs_of f os H E D.
  apply (built seg uuid checks w toml_crate shown o order wasm docs outs_of f os H); [|exact D].
  intros c ps L P. pose proof (loaded_storable f c L) as S. pose proof (E c L) as EC. unfold entries in EC. rewrite P in EC.
  destruct S as (_ & _ & _ & _ & S). rewrite P in S. destruct S as [N F]. split; [exact EC|]. split; [exact N|].
  eapply Forall_impl; [|exact F]. intros a [X _]. exact X.
Qed.
Print Assumptions C77_built_toml.

Definition full_config := mkConfig demo_document (Some [plain_entry]).
Definition full_fs : fs := fs_of
  [(lit "Brack.toml", config_bytes full_config); (lit "docs/a.[]", lit "x [html.f y]"); (lit "docs/b.[]", lit "z")] [lit "docs"; lit "plugins"].
Example C77_example :
  match build_command gseg marks true echo json_toml ascii_shown mirror [0] wasm_demo (fun _ => Some [lit "b.[]"; lit "a.[]"])
          (fun f => [lit "a.html"; lit "b.html"]) full_fs with
  | (os, Ok tt) =>
      let f' := apply_all full_fs os in
      file f' (lit "out/a.html") = Some (lit "x (f:y)") /\ file f' (lit "out/b.html") = Some (lit "z") /\
      file f' html_path = Some (plugin_url (lit "html") (fst plain_entry) (snd plain_entry)) /\
      flat_map (fun x => match x with Print s => [s] | _ => [] end) os
      = [lit "Build succeeded."; lit "  - ./out/a.html"; lit "  - ./out/b.html"]
  | _ => False
  end.
Proof. vm_compute. repeat split; reflexivity. Qed.

(** ** C92: a new project can be built *)
Theorem C92_builds : forall seg uuid checks w shown o o2 order wasm docs outs name f os g, seg_laws seg ->
  Forall scalar name -> plain_name name -> (forall r, present f (utf8 name ++ [47%N] ++ r) = false) -> (forall p, denied o2 p = false) ->
  new_project o name f = (os, Ok tt) -> seen_from name (apply_all f os) g ->
  docs g = Some [lit "main.[]"] -> (forall h, file h (lit "out/main.") <> None -> outs h = [lit "main."]) ->
  build_command seg uuid checks w toml_crate shown o2 order wasm docs outs g
  = ([Mkdir (lit "out"); Create (lit "out/main."); Print (lit "Build succeeded."); Print (lit "  - ./out/main.")], Ok tt) /\
  file (apply_all g [Mkdir (lit "out"); Create (lit "out/main."); Print (lit "Build succeeded."); Print (lit "  - ./out/main.")])
    (lit "out/main.") = Some [].
Proof. exact new_builds. Qed.
Print Assumptions C92_builds.

Definition book_fs : fs :=
  let f := apply_all (fs_of [] []) (fst (new_project mirror (lit "book") (fs_of [] []))) in
  mkfs (fun p => file f (lit "book/" ++ p)) (fun p => dir f (lit "book/" ++ p)).
Example C92_example :
  snd (new_project mirror (lit "book") (fs_of [] [])) = Ok tt /\
  seen_from (lit "book") (apply_all (fs_of [] []) (fst (new_project mirror (lit "book") (fs_of [] [])))) book_fs /\
  build_command gseg marks true echo toml_crate ascii_shown mirror [] wasm_demo (fun _ => Some [lit "main.[]"]) (fun _ => [lit "main."]) book_fs
  = ([Mkdir (lit "out"); Create (lit "out/main."); Print (lit "Build succeeded."); Print (lit "  - ./out/main.")], Ok tt).
Proof. split; [reflexivity|]. split; [intro p; split; reflexivity|]. vm_compute. reflexivity. Qed.

(** ** C78: `compile` changes nothing and calls no hooks *)
Theorem C78_writes_nothing : forall seg uuid checks w wasm ls variable d filename level json f,
  fst (run_compile seg uuid checks w wasm ls variable d filename level json f) = [].
Proof. exact compile_writes_nothing. Qed.
Print Assumptions C78_writes_nothing.

Theorem C78_no_hooks : forall d names t wasm f pv ps, find_plugins d names [] = Ok t -> open_plugins wasm t f = ([], Ok pv) -> plugins_new pv = Ok ps ->
  document_hook_plugin_name ps = None /\ stmt_hook_plugin_name ps = None /\ expr_hook_plugin_name ps = None /\ text_hook_plugin_name ps = None.
Proof. exact compile_no_hooks. Qed.
Print Assumptions C78_no_hooks.

Example C78_example :
  match find_plugins (lit "plugins") [hooked_name] [] with
  | Ok t => match open_plugins wasm_demo t hooked_fs with
            | ([], Ok pv) => match plugins_new pv with Ok ps => text_hook_plugin_name ps = None /\ length pv = 1 | _ => False end
            | _ => False
            end
  | _ => False
  end.
Proof. vm_compute. split; reflexivity. Qed.

(** ** C83 *)
(** JSON is one line, and reading it gives the tokens, the CST or the AST back. *)
Theorem C83_json_tokens : forall shown ids seg, seg_laws seg -> forall s ts,
  Forall scalar s -> word (length s) -> tokenize_str seg s = Ok ts ->
  exists line, printed_text shown ids (PTokens true ts) = line ++ [10%N] /\ ~ In 10%N line /\
    of_text (de_vec de_token) (utf8 line) = Ok ts.
Proof. exact json_tokens. Qed.
Print Assumptions C83_json_tokens.

Theorem C83_json_cst : forall shown ids seg, seg_laws seg -> forall s ts c,
  Forall scalar s -> word (length s) -> (forall p, Forall scalar (ids p)) -> tokenize_str seg s = Ok ts -> parse ts = Ok c ->
  exists line, printed_text shown ids (PCst true c) = line ++ [10%N] /\ ~ In 10%N line /\
    of_text de_cst (utf8 line) = if Nat.leb (tall c) 42 then Ok c else Err (lit "recursion limit exceeded").
Proof. exact json_cst. Qed.
Print Assumptions C83_json_cst.

Theorem C83_json_ast : forall shown ids a, storable a ->
  exists line, printed_text shown ids (PAst true a) = line ++ [10%N] /\ ~ In 10%N line /\
    of_text de_ast (utf8 line) = if Nat.leb (height a) 42 then Ok a else Err (lit "recursion limit exceeded").
Proof. exact json_ast. Qed.
Print Assumptions C83_json_ast.

(** Without JSON different results are printed differently; at level 3 this includes the trees and the errors printed instead. *)
Theorem C83_plain : forall shown ids ids' p q,
  match p, q with
  | PTokens false _, PTokens false _ | PCst false _, PCst false _ => True
  | (PAst false _ | PErrors (_ :: _)), (PAst false _ | PErrors (_ :: _)) => True
  | _, _ => False
  end ->
  printed_text shown ids p = printed_text shown ids' q -> p = q.
Proof. exact plain_inj. Qed.
Print Assumptions C83_plain.

(** One line for each token and each error. *)
Theorem C83_lines : forall shown ids,
  (forall ts, count_occ N.eq_dec (printed_text shown ids (PTokens false ts)) 10%N = length ts) /\
  (forall es, count_occ N.eq_dec (printed_text shown ids (PErrors es)) 10%N = length es).
Proof. exact plain_lines. Qed.
Print Assumptions C83_lines.

Definition q (s : string) : str := map (fun c => if N.eqb c 39 then 34%N else c) (lit s).
Definition demo_ids (p : list nat) : str := repeat 120%N (length p).
Example C83_example :
  match tokenize_str gseg (97 :: 34 :: 10 :: lit "[")%N with
  | Ok (t1 :: t2 :: t3 :: ts) =>
      printed_text ascii_shown demo_ids (PTokens false [t1; t2]) =
        q "Text('a\'', Location { start: LocationData { line: 0, character: 0 }, end: LocationData { line: 0, character: 2 } })" ++ [10%N] ++
        q "NewLine(Location { start: LocationData { line: 0, character: 2 }, end: LocationData { line: 0, character: 3 } })" ++ [10%N] /\
      printed_text ascii_shown demo_ids (PTokens true [t1; t3]) =
        q "[{'Text':['a\'',{'start':{'line':0,'character':0},'end':{'line':0,'character':2}}]},{'SquareBracketOpen':{'start':{'line':1,'character':0},'end':{'line':1,'character':1}}}]" ++ [10%N] /\
      match parse (t1 :: t2 :: t3 :: ts) with
      | Ok (CInner CDocument (CInner CStmt (c :: _) _ :: _) _) =>
          printed_text ascii_shown demo_ids (PCst false c) =
          q "Expr(InnerNode { id: '', children: [Text(LeafNode { id: 'x', value: Some('a\''), location: Location { start: LocationData { line: 0, character: 0 }, end: LocationData { line: 0, character: 2 } } })], location: Location { start: LocationData { line: 0, character: 0 }, end: LocationData { line: 0, character: 2 } } })" ++ [10%N]
      | _ => False
      end
  | _ => False
  end.
Proof. vm_compute. repeat split; reflexivity. Qed.

Example C83_errors_example : printed_text ascii_shown demo_ids (PErrors [(EInvalidBackslash, mkloc (mkpos 0 1) (mkpos 10 203))]) =
  q "InvalidBackslash(Location { start: LocationData { line: 0, character: 1 }, end: LocationData { line: 10, character: 203 } })" ++ [10%N].
Proof. vm_compute. reflexivity. Qed.
