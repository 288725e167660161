(** What the Language Server Protocol says about messages, independent of the server. *)
From Coq Require Import String List NArith ZArith Bool Permutation.
From Verif Require Import Base Tokens Tokenizer SpecCST SpecTransform TransformError Plugin Utf8 Json SpecJson Server.
Import ListNotations.
Local Open Scope string_scope.
Local Open Scope list_scope.

(** The value of a field (the last one of that name). *)
Definition lookup (k : string) (j : json) : option json :=
  match j with
  | JObj fs => option_map snd (find (fun kv => str_eqb (lit k) (fst kv)) (rev fs))
  | _ => None
  end.
Fixpoint lookup_path (ks : list string) (j : json) : option json :=
  match ks with
  | [] => Some j
  | k :: ks' => match lookup k j with Some v => lookup_path ks' v | None => None end
  end.

(** Requests have a number and a method, notifications only a method. *)
Definition request_of (j : json) : option (Z * str) :=
  match lookup "id" j, lookup "method" j with
  | Some (JInt id), Some (JStr m) =>
      if ((-2 ^ 63 <=? id) && (id <? 2 ^ 63))%Z then Some (id, m) else None
  | _, _ => None
  end.
Definition notification_of (j : json) : option str :=
  match request_of j, lookup "method" j with
  | None, Some (JStr m) => Some m
  | _, _ => None
  end.

(** Answers carry the number of their request and no method; they have a result or an error. *)
Definition answer_of (j : json) : option Z :=
  match lookup "id" j, lookup "method" j with
  | Some (JInt id), None => Some id
  | _, _ => None
  end.
Definition is_result (j : json) : bool := match lookup "result" j with Some _ => true | None => false end.
Definition error_code (j : json) : option Z :=
  match lookup_path ["error"; "code"] j with Some (JInt c) => Some c | _ => None end.

(** The other messages of this server. *)
Definition method_is (m : string) (j : json) : bool :=
  match lookup "method" j with Some (JStr m') => str_eqb (lit m) m' | _ => false end.
(** The text of a log message (of the type "information", 3 in the protocol). *)
Definition logged (j : json) : option str :=
  match method_is "window/logMessage" j, lookup "id" j, lookup_path ["params"; "type"] j, lookup_path ["params"; "message"] j with
  | true, None, Some (JInt 3), Some (JStr m) => Some m
  | _, _, _, _ => None
  end.
Definition is_log (j : json) : bool := match logged j with Some _ => true | None => false end.
Definition is_diagnostics := method_is "textDocument/publishDiagnostics".

(** An initialize request, and one that announces that the client shows diagnostics. *)
Definition is_initialize (j : json) : bool :=
  match request_of j with Some (_, m) => str_eqb (lit "initialize") m | None => false end.
Definition announces_diagnostics (j : json) : Prop :=
  exists v, lookup_path ["params"; "capabilities"; "textDocument"; "publishDiagnostics"] j = Some v /\ v <> JNull.

(** The document that a message is about. *)
Definition uri_of (j : json) (u : str) : Prop :=
  lookup_path ["params"; "textDocument"; "uri"] j = Some (JStr u).

(** What the answer to an initialize request announces: whole documents are sent, completion is asked for
    after five characters, and the numbers in semantic tokens stand for these words. *)
Definition words (ws : list string) : json := JArr (map (fun w => JStr (lit w)) ws).
Definition announced : list (list string * json) :=
  [(["capabilities"; "textDocumentSync"], JInt 1);
   (["capabilities"; "completionProvider"; "triggerCharacters"], words ["["; "{"; "<"; " "; "."]);
   (["capabilities"; "completionProvider"; "resolveProvider"], JBool false);
   (["capabilities"; "semanticTokensProvider"; "range"], JBool false);
   (["capabilities"; "semanticTokensProvider"; "full"], JBool true);
   (["capabilities"; "semanticTokensProvider"; "legend"; "tokenTypes"],
    words ["namespace"; "type"; "class"; "enum"; "interface"; "struct"; "typeParameter"; "parameter"; "variable";
           "property"; "enumMember"; "event"; "function"; "method"; "macro"; "keyword"; "modifier"; "comment";
           "string"; "number"; "regexp"; "operator"; "decorator"]);
   (["capabilities"; "semanticTokensProvider"; "legend"; "tokenModifiers"],
    words ["declaration"; "definition"; "readonly"; "static"; "abstract"; "deprecated"; "async"; "modification";
           "documentation"; "defaultLibrary"]);
   (["serverInfo"; "name"], JStr (lit "Brack Language Server"));
   (["serverInfo"; "version"], JStr (lit "0.1.0"))].

(** What users are told about each kind of error. *)
Definition said : list (ekind * string) :=
  [(EAngleNotOpened, "Angle bracket not opened"); (EAngleNotClosed, "Angle bracket not closed");
   (ECurlyNotOpened, "Curly bracket not opened"); (ECurlyNotClosed, "Curly bracket not closed");
   (ESquareNotOpened, "Square bracket not opened"); (ESquareNotClosed, "Square bracket not closed");
   (EMismatchedBracket, "Mismatched bracket"); (EModuleNotFound, "Need module");
   (EIdentifierNotFound, "Need identifier after module"); (EDotNotFound, "Need dot after module");
   (ECommaNotFound, "Need comma after module"); (EUnexpectedDot, "Unexpected dot"); (EUnexpectedComma, "Unexpected comma");
   (EInvalidBackslash, "Backslash must be followed by dot, comma, backslash, or bracket")]%string.

(** A diagnostic shows an error. *)
Definition shows (err : terror) (d : json) : Prop :=
  (exists m, In (fst err, m) said /\ lookup "message" d = Some (JStr (lit m)))
  /\ lookup_path ["range"; "start"; "line"] d = Some (JInt (Z.of_nat (pline (lstart (snd err)))))
  /\ lookup_path ["range"; "start"; "character"] d = Some (JInt (Z.of_nat (pchar (lstart (snd err)))))
  /\ lookup_path ["range"; "end"; "line"] d = Some (JInt (Z.of_nat (pline (lend (snd err)))))
  /\ lookup_path ["range"; "end"; "character"] d = Some (JInt (Z.of_nat (pchar (lend (snd err))))).

(** [a] is [b] without some of its elements. *)
Inductive subsequence {A : Type} : list A -> list A -> Prop :=
| sub_nil : subsequence [] []
| sub_take : forall x a b, subsequence a b -> subsequence (x :: a) (x :: b)
| sub_skip : forall x a b, subsequence a b -> subsequence a (x :: b).

(** The elements on which a partial function is defined. *)
Definition filter_map {A B : Type} (f : A -> option B) (l : list A) : list B :=
  flat_map (fun x => match f x with Some y => [y] | None => [] end) l.

(** ** What the outcome depends on. Of Server.v this uses the environment [env] and the state
    [server] only. *)

Definition params (j : json) : json := match lookup "params" j with Some p => p | None => JNull end.

(** The parameters of an initialize request, and of the other messages, are well-typed. *)
Definition initialize_decodes (e : env) (msg : json) : Prop :=
  (exists fs, lookup_path ["params"; "capabilities"] msg = Some (JObj fs))
  /\ accepts e (lit "initialize") (params msg) = true.
Definition decodes (e : env) (m : string) (msg : json) (u : url) : Prop :=
  (exists s, uri_of msg s /\ parse_url e s = u) /\ u <> NotUrl /\ accepts e (lit m) (params msg) = true.

(** The plugins of a project can all be loaded together. *)
Definition loads (e : env) (pr : project) (loaded : list plugin) (ps : plugins) : Prop :=
  Forall2 (fun entry p => exists metas, load_wasm e (fst (snd entry)) = Some metas
             /\ plugin_new (fst entry) metas (snd (snd entry)) = Ok p) pr loaded
  /\ plugins_new loaded = Ok ps.

(** The context of a completion request, if there is one, and its trigger character. *)
Definition has_context (msg : json) : Prop :=
  exists c, lookup_path ["params"; "context"] msg = Some c /\ c <> JNull.
Definition triggered (msg : json) (t : str) : Prop :=
  lookup_path ["params"; "context"; "triggerCharacter"] msg = Some (JStr t).

(** The requests that are answered. *)
Definition answered (e : env) (st : server) (msg : json) (m : str) : Prop :=
  if str_eqb m (lit "initialize") then initialize_decodes e msg
  else if str_eqb m (lit "textDocument/semanticTokens/full") then
    exists u, decodes e "textDocument/semanticTokens/full" msg u
      /\ forall path, u = FilePath path -> exists text, read_file e path = inl text
  else if str_eqb m (lit "textDocument/completion") then
    (exists u, decodes e "textDocument/completion" msg u)
    /\ exists pr, srv_project st = Some pr
      /\ ~ ((exists loaded ps, loads e pr loaded ps) /\ has_context msg /\ ~ exists t, triggered msg t)
  else True.

(** The components of a path. *)
Fixpoint split_slash (current path : str) : list str :=
  match path with
  | [] => [current]
  | c :: path' => if (c =? 47)%N then current :: split_slash [] path' else split_slash (current ++ [c]) path'
  end.
Definition components (path : str) : list str :=
  filter (fun s => match s with [] => false | _ => true end) (split_slash [] path).

(** The documents that the parser and the transformer accept (C13, C17). *)
Definition understood (ts : list token) : Prop :=
  acceptable ts = true /\ outside [] (map tk ts) = false.

(** The commands that completion offers after a character, with the text that is inserted. *)
Definition offers (t : str) (loaded : list plugin) : list (str * str) :=
  flat_map (fun p => flat_map (fun entry =>
      let label := p_name p ++ lit "." ++ fst (fst entry) in
      match snd (fst entry) with
      | TInline => if str_eqb t (lit "[") then [(label, label ++ lit " $0]")] else []
      | TBlock => if str_eqb t (lit "{") then [(label, label ++ lit " $0}")] else []
      | _ => []
      end) (p_metadata p)) loaded.
Definition label_and_text (item : json) : option (str * str) :=
  match lookup "label" item, lookup "insertText" item with
  | Some (JStr l), Some (JStr t) => Some (l, t)
  | _, _ => None
  end.

(** The project of a document is two directories up. *)
Definition absolute (path : str) : Prop := exists rest, path = 47%N :: rest.
Definition project_root (path root : str) : Prop :=
  absolute root /\ components root = removelast (removelast (components path))
  /\ (root = [47%N] \/ (last root 0%N <> 47%N /\ exists rest, path = root ++ 47%N :: rest)).

(** The messages after which the server goes on. *)
Definition survives (seg : str -> list str) (e : env) (msg : json) : Prop :=
  match request_of msg, notification_of msg with
  | Some (_, m), _ =>
      if str_eqb m (lit "initialize") then initialize_decodes e msg
      else if str_eqb m (lit "textDocument/semanticTokens/full") then
        exists u, decodes e "textDocument/semanticTokens/full" msg u
      else if str_eqb m (lit "textDocument/completion") then
        exists u, decodes e "textDocument/completion" msg u
      else True
  | None, Some m =>
      if str_eqb m (lit "textDocument/didOpen") then
        exists path root, decodes e "textDocument/didOpen" msg (FilePath path)
          /\ length (components path) >= 2 /\ project_root path root /\ open_project e root <> Some None
      else if str_eqb m (lit "textDocument/didChange") then
        exists u, decodes e "textDocument/didChange" msg u
      else if str_eqb m (lit "textDocument/didSave") then
        exists path, decodes e "textDocument/didSave" msg (FilePath path)
          /\ forall text ts, read_file e path = inl text -> tokenize_str seg text = Ok ts -> understood ts
      else True
  | None, None => True
  end.

(** What is assumed of the environment where a theorem says so: files are shorter than 2^32
    characters, and paths are absolute. *)
Definition small_files (e : env) : Prop :=
  forall path text, read_file e path = inl text -> (N.of_nat (length text) < 2 ^ 32)%N.
Definition absolute_paths (e : env) : Prop :=
  forall s path, parse_url e s = FilePath path -> absolute path.

(** Strings are sequences of Unicode scalar values, as all strings of Rust are. *)
Fixpoint texts (j : json) : Prop :=
  match j with
  | JStr s => Forall scalar s
  | JFloat t => Forall scalar t
  | JArr l => fold_right (fun x p => texts x /\ p) True l
  | JObj fs => fold_right (fun kv p => let '(k, x) := kv in Forall scalar k /\ texts x /\ p) True fs
  | _ => True
  end.
Definition project_texts (pr : project) : Prop := Forall (fun entry => Forall scalar (fst entry)) pr.
Definition env_texts (e : env) : Prop :=
  (forall path err, read_file e path = inr err -> Forall scalar err)
  /\ (forall s path, parse_url e s = FilePath path -> Forall scalar path)
  /\ (forall root pr, open_project e root = Some (Some pr) -> project_texts pr)
  /\ (forall path metas, load_wasm e path = Some metas -> Forall (fun m => Forall scalar (command_name m)) metas)
  /\ (forall m, Forall scalar (detail_text e m)).
(** Iterating over a map gives its entries in some order. *)
Definition some_order (e : env) : Prop := forall l, Permutation (hash_order e l) l.

(** Messages that [serde_json] reads back: integers of 64 bits, not too deep, made of text; and
    whose size fits the header. *)
Definition readable (j : json) : Prop := plain j /\ nesting j < 128 /\ texts j.
Definition fits (j : json) : Prop := (N.of_nat (length (utf8 (print j))) < 2 ^ 31)%N.
