(** The command line: src/sub_commands.rs as the [clap] crate (4.5) reads it, and [main] of src/main.rs. *)
From Coq Require Import String List NArith ZArith Bool.
From Verif Require Import Base Tokens Plugin Utf8 Framing Json Serde Project Cli Show.
Import ListNotations.

(** sub_commands.rs 4-34 *)
Inductive command :=
| Compile (plugins_dir_path : option str) (backend filename : str) (output_level : N) (json : bool)
| Build
| LanguageServer
| New (name : str)
| Add (schema : str)
| Version.

(** What [Args::parse] does: return a command, print a help text (status 0), or complain (status 2). (Simplification: the texts
    are left out, and so are arguments that are not UTF-8: they are complained about.) *)
Inductive reading := Run (c : command) | Help | Usage.

(** An option: its long name, its letter, whether it has a value, and which values are accepted. *)
Record opt := mkOpt { o_long : str; o_short : option N; o_valued : bool; o_accepts : str -> bool }.

(** [u8]: clap reads an [i64] and compares it with the limits. *)
Definition read_level (s : str) : option N :=
  let r := match s with
           | 45%N :: s' => match parse_digits s' with Some n => Some (- n)%Z | None => None end
           | 43%N :: s' => parse_digits s'
           | _ => parse_digits s
           end in
  match r with
  | Some z => if ((0 <=? z) && (z <=? 255))%Z then Some (Z.to_N z) else None
  | None => None
  end.

Definition any_value (s : str) : bool := true.
(** sub_commands.rs 7-23: the names of the fields with [-] for [_], and their first letters *)
Definition compile_options : list opt :=
  [mkOpt (lit "plugins-dir-path") (Some 112%N) true any_value; mkOpt (lit "backend") (Some 98%N) true any_value;
   mkOpt (lit "filename") (Some 102%N) true any_value;
   mkOpt (lit "output-level") None true (fun s => match read_level s with Some _ => true | None => false end);
   mkOpt (lit "json") None false any_value].
(** sub_commands.rs 26-29 *)
Definition new_options : list opt := [mkOpt (lit "name") (Some 110%N) true any_value].

(** The options that were given, with their values; the positional argument has the empty name. *)
Definition given := list (str * str).
Fixpoint value_of (name : str) (g : given) : option str :=
  match g with
  | [] => None
  | (k, v) :: g' => if str_eqb k name then Some v else value_of name g'
  end.

Inductive read_result := Given (g : given) | GiveHelp | Complain.
(** An option may be given once. *)
Definition give (g : given) (name value : str) (k : given -> read_result) : read_result :=
  match value_of name g with Some _ => Complain | None => k (g ++ [(name, value)]) end.

(** Arguments with a hyphen in front are options, but for a single hyphen. *)
Definition hyphened (a : str) : bool := match a with 45%N :: _ :: _ => true | _ => false end.
(** [str::split_once] at the first [=] *)
Fixpoint at_equals (s : str) : str * option str :=
  match s with
  | [] => ([], None)
  | c :: s' => if N.eqb c 61 then ([], Some s') else let (a, r) := at_equals s' in (c :: a, r)
  end.

Definition with_long (os : list opt) (name : str) : option opt := find (fun o => str_eqb (o_long o) name) os.
Definition with_short (os : list opt) (c : N) : option opt :=
  find (fun o => match o_short o with Some d => N.eqb d c | None => false end) os.

(** After [--] everything is positional. *)
Fixpoint read_rest (positional : bool) (args : list str) (g : given) : read_result :=
  match args with
  | [] => Given g
  | a :: args' => if positional then give g [] a (read_rest positional args') else Complain
  end.

(** What an argument is (clap_lex, [is_escape], [to_long], [to_short]; clap_builder, parser.rs, [parse_long_arg] and
    [parse_short_arg]). No option without a value has a letter, so there are no groups of letters. *)
Inductive word := Stop | WantHelp | Unknown | Plain | Option_ (o : opt) (attached : option str).
Definition classify (os : list opt) (a : str) : word :=
  match a with
  | [45; 45]%N => Stop
  | 45%N :: 45%N :: s =>
      let (name, attached) := at_equals s in
      if str_eqb name (lit "help") then match attached with None => WantHelp | Some _ => Unknown end
      else match with_long os name with Some o => Option_ o attached | None => Unknown end
  | 45%N :: c :: s =>
      if N.eqb c 104 then WantHelp
      else match with_short os c with
           | Some o => Option_ o (match s with [] => None | 61%N :: v => Some v | _ => Some s end)
           | None => Unknown
           end
  | _ => Plain
  end.

(** The arguments after the name of a subcommand (clap_builder, parser.rs, [get_matches_with]) *)
Fixpoint read_args (os : list opt) (positional : bool) (args : list str) (g : given) : read_result :=
  match args with
  | [] => Given g
  | a :: args' =>
      match classify os a with
      | Stop => read_rest positional args' g
      | WantHelp => GiveHelp
      | Unknown => Complain
      | Plain => if positional then give g [] a (read_args os positional args') else Complain
      | Option_ o attached =>
          match o_valued o, attached with
          | false, None => give g (o_long o) [] (read_args os positional args')
          | false, Some _ => Complain
          | true, Some v => if o_accepts o v then give g (o_long o) v (read_args os positional args') else Complain
          | true, None =>
              match args' with
              | v :: args'' =>
                  if hyphened v then Complain
                  else if o_accepts o v then give g (o_long o) v (read_args os positional args'') else Complain
              | [] => Complain
              end
          end
      end
  end.

Definition finish (r : read_result) (k : given -> option command) : reading :=
  match r with
  | Given g => match k g with Some c => Run c | None => Usage end
  | GiveHelp => Help
  | Complain => Usage
  end.

(** sub_commands.rs 5-33: the fields from the options that were given. Those that are no [Option] are required. *)
Definition compile_of (g : given) : option command :=
  match value_of (lit "backend") g, value_of (lit "filename") g with
  | Some b, Some f =>
      match match value_of (lit "output-level") g with Some s => read_level s | None => Some 5%N end with
      | Some n => Some (Compile (value_of (lit "plugins-dir-path") g) b f n (match value_of (lit "json") g with Some _ => true | None => false end))
      | None => None
      end
  | _, _ => None
  end.

Definition command_names : list str :=
  [lit "compile"; lit "build"; lit "language-server"; lit "new"; lit "add"; lit "version"; lit "help"].
Definition named (s : str) : bool := existsb (str_eqb s) command_names.

(** main.rs 9-13 and 155. [args] are the arguments without the name of the program. (Simplification: [help] with several names
    is complained about.) *)
Definition parse_args (args : list str) : reading :=
  match args with
  | [] => Usage
  | a :: args' =>
      if str_eqb a (lit "compile") then finish (read_args compile_options false args' []) compile_of
      else if str_eqb a (lit "build") then finish (read_args [] false args' []) (fun _ => Some Build)
      else if str_eqb a (lit "language-server") then finish (read_args [] false args' []) (fun _ => Some LanguageServer)
      else if str_eqb a (lit "new") then finish (read_args new_options false args' []) (fun g => option_map New (value_of (lit "name") g))
      else if str_eqb a (lit "add") then finish (read_args [] true args' []) (fun g => option_map Add (value_of [] g))
      else if str_eqb a (lit "version") then finish (read_args [] false args' []) (fun _ => Some Version)
      else if str_eqb a (lit "help") then
        match args' with
        | [] => Help
        | [b] => if named b then Help else Usage
        | _ => Usage
        end
      else match classify [] a with WantHelp => Help | _ => Usage end
  end.

(** * [main] *)

(** The lines that `compile` prints (main.rs 60-120), one for each [println!] *)
Definition printed_lines (shown : N -> bool) (ids : list nat -> str) (p : printed) : list str :=
  match p with
  | PTokens true ts => [print (JArr (map ser_token ts))]
  | PTokens false ts => map (debug_token shown) ts
  | PCst true c => [print (ser_cst ids c)]
  | PCst false c => [debug_cst shown ids c]
  | PAst true a => [print (ser_ast a)]
  | PAst false a => [debug_ast shown a]
  | PErrors es => map debug_error es
  | PText s => [s]
  end.
Definition print_all (ls : list str) : io unit := fun _ => (map Print ls, Ok tt).

(** Everything outside the program: segmentation, random numbers, plugins, libraries, environment variables (those that are set to
    UTF-8), directory listings. *)
Record machine := mkMachine {
  m_seg : str -> list str; m_uuid : nat -> nat -> str; m_checks : bool; m_world : world; m_toml : toml; m_shown : N -> bool;
  m_ids : list nat -> str; m_outside : outside; m_order : list nat; m_wasm : bytes -> option (list metadata);
  m_variable : str -> option str; m_ls : path -> option (list bytes); m_docs : fs -> option (list bytes); m_outs : fs -> list bytes
}.

(** main.rs 153-181; [None] is the language server, whose model is in Server.v. *)
Definition run_command (m : machine) (c : command) : option (io unit) :=
  match c with
  | Compile d _ filename level json =>
      Some (io! p := run_compile (m_seg m) (m_uuid m 0) (m_checks m) (m_world m) (m_wasm m) (m_ls m) (m_variable m (lit "BRACK_PLUGINS_PATH"))
                       d filename level json in
            print_all (printed_lines (m_shown m) (m_ids m) p))
  | Build =>
      Some (build_command (m_seg m) (m_uuid m) (m_checks m) (m_world m) (m_toml m) (m_shown m) (m_outside m) (m_order m) (m_wasm m) (m_docs m) (m_outs m))
  | LanguageServer => None
  | New name => Some (new_project (m_outside m) name)
  | Add schema => Some (add_plugin (m_toml m) (m_outside m) schema)
  | Version => Some (emit (Print (lit "Brack " ++ match m_variable m (lit "APP_VERSION") with Some v => v | None => lit "0.2.0" end)))
  end.

(** The exit status: [Termination] of [Result], of a panic, and of clap. A program that waits for ever has none. *)
Definition status (r : res unit) : option N :=
  match r with Ok _ => Some 0%N | Err _ => Some 1%N | Panic _ => Some 101%N | Fuel => None end.

(** main.rs 153-181 *)
Definition main (m : machine) (args : list str) : option (fs -> list op * option N) :=
  match parse_args args with
  | Help => Some (fun _ => ([], Some 0%N))
  | Usage => Some (fun _ => ([], Some 2%N))
  | Run c => option_map (fun (p : io unit) f => let (os, r) := p f in (os, status r)) (run_command m c)
  end.
