(** src/main.rs *)
From Coq Require Import String List NArith Bool.
From Verif Require Import Base Tokens Tokenizer CST Parser AST TransformError Transform Plugin Expander Codegen Utf8 Json Serde Compile Project.
Import ListNotations.

(** * Names of plugin files *)

(** The classes `[[:alpha:]]` and `[[:alnum:]]` of the [regex] crate are those of ASCII. *)
Definition alpha (c : N) : bool := (N.leb 65 c && N.leb c 90) || (N.leb 97 c && N.leb c 122).
Definition alnum (c : N) : bool := alpha c || (N.leb 48 c && N.leb c 57).

Fixpoint span (p : N -> bool) (s : str) : str * str :=
  match s with
  | c :: s' => if p c then let (a, r) := span p s' in (c :: a, r) else ([], s)
  | [] => ([], [])
  end.
Fixpoint starts (p s : str) : bool :=
  match p, s with
  | [], _ => true
  | x :: p', y :: s' => N.eqb x y && starts p' s'
  | _, [] => false
  end.

(** main.rs 35: `(?<module_name>[[:alpha:]]+)_[[:alnum:]]+.wasm`. The dot matches every character but a line feed. *)
Definition dot_wasm (s : str) : bool := match s with c :: r => negb (N.eqb c 10) && starts (lit "wasm") r | [] => false end.
Fixpoint more_alnum (s : str) : bool := dot_wasm s || match s with c :: r => alnum c && more_alnum r | [] => false end.
Definition after_name (s : str) : bool :=
  match s with
  | u :: c :: r => N.eqb u 95 && (alnum c && more_alnum r)
  | _ => false
  end.
(** A letter is no `_`, so the first group takes all the letters there are. *)
Definition capture_here (s : str) : option str :=
  match span alpha s with
  | ([], _) => None
  | (a, r) => if after_name r then Some a else None
  end.
(** [Regex::captures]: the leftmost match *)
Fixpoint captures (s : str) : option str :=
  match capture_here s with
  | Some a => Some a
  | None => match s with [] => None | _ :: s' => captures s' end
  end.

(** [Path::join] with a file name *)
Definition join (d : path) (name : bytes) : path :=
  match rev d with
  | [] => name
  | c :: _ => if N.eqb c 47 then d ++ name else d ++ lit "/" ++ name
  end.

(** main.rs 36-48: the entries of the directory, in the order of [read_dir] *)
Fixpoint find_plugins (d : path) (names : list bytes) (t : table) : res table :=
  match names with
  | [] => Ok t
  | name :: names' =>
      let p := join d name in
      let! s := ok_or (from_utf8 p) "Could not convert file name to string." in
      match captures s with
      | Some m => find_plugins d names' (hm_insert str_eqb t m (p, mkFlags false false false false))
      | None => find_plugins d names' t
      end
  end.

(** * `compile` *)

Definition ends_with (suffix s : str) : bool := starts (rev suffix) (rev s).

(** What is printed; [json] says in which of the two notations. The texts are in Show.v. *)
Inductive printed :=
| PTokens (json : bool) (ts : list token)
| PCst (json : bool) (c : cst)
| PAst (json : bool) (a : ast)
| PErrors (es : list terror)
| PText (s : str).

Section Compile.
  Variable seg : str -> list str.
  Variable uuid : nat -> str.
  Variable checks : bool.
  Variable w : world.

  (** main.rs 60-120; [s] is the content of the file *)
  Definition output (ps : plugins) (level : N) (json : bool) (source : res str) : M printed :=
    match level with
    | 1%N =>
        do! s := ret source in
        do! tokens := ret (tokenize_str seg s) in
        ret (Ok (PTokens json tokens))
    | 2%N =>
        do! s := ret source in
        do! tokens := ret (tokenize_str seg s) in
        do! c := ret (parse tokens) in
        ret (Ok (PCst json c))
    | 3%N =>
        do! s := ret source in
        do! tokens := ret (tokenize_str seg s) in
        do! c := ret (parse tokens) in
        do! (a, errors) := ret (transform uuid c) in
        ret (Ok (if json then PAst true a else match errors with [] => PAst false a | _ => PErrors errors end))
    | 4%N =>
        do! s := ret source in
        do! tokens := ret (tokenize_str seg s) in
        do! c := ret (parse tokens) in
        do! (a, _errors) := ret (transform uuid c) in
        do! expanded := expander w ps a in
        ret (Ok (PAst json expanded))
    | 5%N =>
        if json then ret (Err (lit "Cannot output JSON at output level 5."))
        else
          do! s := ret source in
          do! tokens := ret (tokenize_str seg s) in
          do! c := ret (parse tokens) in
          do! (a, _errors) := ret (transform uuid c) in
          do! expanded := expander w ps a in
          do! gen := generate checks w ps expanded in
          ret (Ok (PText gen))
    | _ => ret (Err (lit "Invalid output level."))
    end.

  (** main.rs 15-124. [ls] is [read_dir]; there is nothing at the empty path. [variable] is `BRACK_PLUGINS_PATH`.
      (Simplification: the entries of the hash map are taken in the order of insertion.) *)
  Definition run_compile (wasm : bytes -> option (list metadata)) (ls : path -> option (list bytes)) (variable : option str)
      (plugins_dir_path : option str) (filename : str) (level : N) (json : bool) : io printed :=
    let d := utf8 (match plugins_dir_path with Some d => d | None => match variable with Some d => d | None => [] end end) in
    io! names := done (match d with [] => Err (lit "No such file or directory") | _ => ok_or (ls d) "No such file or directory" end) in
    io! t := done (find_plugins d names []) in
    io! plugin_vec := open_plugins wasm t in
    io! ps := done (plugins_new plugin_vec) in
    if negb (ends_with (lit ".[]") filename) then done (Err (lit "Filename must end with .[]"))
    else fun f => ([], fst (output ps level json (snd (read_to_string (utf8 filename) f)) [])).
End Compile.

(** * The other commands *)

(** main.rs 126-151 *)
Definition new_project (o : outside) (name : str) : io unit :=
  io! _ := create_dir o (utf8 name) in
  io! _ := create_dir o (utf8 (name ++ lit "/docs")) in
  io! _ := write_file o (utf8 (name ++ lit "/docs/main.[]")) [] in
  io! _ := write_file o (utf8 (name ++ lit "/Brack.toml")) (utf8
    (lit "[document]" ++ [10%N] ++ lit "name = """ ++ name ++ lit """" ++ [10%N]
     ++ lit "version = ""0.1.0""" ++ [10%N] ++ lit "backend = """"" ++ [10%N]
     ++ lit "authors = [""your name <your email>""]" ++ [10; 10]%N ++ lit "[plugins]" ++ [10%N])) in
  write_file o (utf8 (name ++ lit "/.gitignore")) (utf8 (lit "plugins" ++ [10%N] ++ lit "out" ++ [10%N])).

(** main.rs 157-162: `build` *)
Definition build_command (seg : str -> list str) (uuid : nat -> nat -> str) (checks : bool) (w : world) (t : toml) (shown : N -> bool)
    (o : outside) (order : list nat) (wasm : bytes -> option (list metadata)) (docs : fs -> option (list bytes)) (outs : fs -> list bytes) : io unit :=
  io! c := load_brack_toml t in
  io! table := download_plugins_using_config shown o order c [] in
  fun f => build seg uuid checks w o wasm (docs f) outs (d_backend (c_document c)) table f.
