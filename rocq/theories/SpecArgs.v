(** How the commands of brack are written on a command line. *)
From Coq Require Import String List NArith.
From Verif Require Import Base Project Args.
Import ListNotations.

(** A text that can be an argument of its own without being taken for an option *)
Definition free (v : str) : Prop := v = lit "-" \/ hd_error v <> Some 45%N.

(** The ways to give an option a value: `--long v`, `--long=v`, `-l v`, `-lv` and `-l=v` *)
Inductive valued (long : str) (letter : option N) (v : str) : list str -> Prop :=
| long_apart : free v -> valued long letter v [lit "--" ++ long; v]
| long_joined : valued long letter v [lit "--" ++ long ++ lit "=" ++ v]
| short_apart : forall c, letter = Some c -> free v -> valued long letter v [[45%N; c]; v]
| short_joined : forall c, letter = Some c -> v <> [] -> hd_error v <> Some 61%N -> valued long letter v [[45%N; c] ++ v]
| short_equals : forall c, letter = Some c -> valued long letter v [[45%N; c] ++ lit "=" ++ v].

(** What can be said to `compile` *)
Inductive setting := Directory (s : str) | Backend (s : str) | Filename (s : str) | Level (s : str) | Json.
Definition setting_words (s : setting) (ws : list str) : Prop :=
  match s with
  | Directory v => valued (lit "plugins-dir-path") (Some 112%N) v ws
  | Backend v => valued (lit "backend") (Some 98%N) v ws
  | Filename v => valued (lit "filename") (Some 102%N) v ws
  | Level v => valued (lit "output-level") None v ws
  | Json => ws = [lit "--json"]
  end.
Definition setting_kind (s : setting) : nat :=
  match s with Directory _ => 0 | Backend _ => 1 | Filename _ => 2 | Level _ => 3 | Json => 4 end.

(** Numbers from 0 to 255: decimal digits, perhaps after a sign *)
Definition number (ds : str) : N := fold_left (fun n c => 10 * n + (c - 48))%N ds 0%N.
Definition level_text (s : str) (n : N) : Prop :=
  exists ds, ds <> [] /\ Forall (fun c => 48 <= c /\ c <= 57)%N ds /\ number ds = n /\ (n <= 255)%N /\
    (s = ds \/ s = 43%N :: ds \/ (s = 45%N :: ds /\ n = 0%N)).

(** A last `--` says that no options follow. *)
Definition last_words (ws : list str) : Prop := ws = [] \/ ws = [lit "--"].

Definition asks_compile (ss : list setting) (d : option str) (b f : str) (n : N) (j : bool) : Prop :=
  (forall x, d = Some x <-> In (Directory x) ss) /\ In (Backend b) ss /\ In (Filename f) ss /\
  ((exists t, In (Level t) ss /\ level_text t n) \/ ((forall t, ~ In (Level t) ss) /\ n = 5%N)) /\
  (j = true <-> In Json ss).

Inductive spelled : list str -> command -> Prop :=
| spelled_compile : forall ss wss stop d b f n j, Forall2 setting_words ss wss -> NoDup (map setting_kind ss) -> last_words stop ->
    asks_compile ss d b f n j -> spelled (lit "compile" :: concat wss ++ stop) (Compile d b f n j)
| spelled_build : forall stop, last_words stop -> spelled (lit "build" :: stop) Build
| spelled_server : forall stop, last_words stop -> spelled (lit "language-server" :: stop) LanguageServer
| spelled_new : forall name ws stop, valued (lit "name") (Some 110%N) name ws -> last_words stop ->
    spelled (lit "new" :: ws ++ stop) (New name)
| spelled_add : forall schema stop, free schema -> last_words stop -> spelled (lit "add" :: schema :: stop) (Add schema)
| spelled_add_any : forall schema, spelled [lit "add"; lit "--"; schema] (Add schema)
| spelled_version : forall stop, last_words stop -> spelled (lit "version" :: stop) Version.

(** `--help`, or `-h` with anything behind it, asks for help, as long as what stands before it is in order: known options with
    values that are accepted, none twice. What comes after does not matter. `help` explains the program or one command. *)
Definition help_word (w : str) : Prop := w = lit "--help" \/ exists s, w = lit "-h" ++ s.
Inductive asks_help : list str -> Prop :=
| help_first : forall w rest, help_word w -> asks_help (w :: rest)
| help_alone : asks_help [lit "help"]
| help_about : forall c, In c ["compile"; "build"; "language-server"; "new"; "add"; "version"; "help"]%string -> asks_help [lit "help"; lit c]
| help_compile : forall ss wss w rest, Forall2 setting_words ss wss -> NoDup (map setting_kind ss) ->
    (forall t, In (Level t) ss -> exists n, level_text t n) -> help_word w -> asks_help (lit "compile" :: concat wss ++ w :: rest)
| help_new : forall ws w rest, (ws = [] \/ exists name, valued (lit "name") (Some 110%N) name ws) -> help_word w ->
    asks_help (lit "new" :: ws ++ w :: rest)
| help_add : forall ws w rest, (ws = [] \/ exists schema, free schema /\ ws = [schema]) -> help_word w ->
    asks_help (lit "add" :: ws ++ w :: rest)
| help_plain : forall c w rest, In c ["build"; "language-server"; "version"]%string -> help_word w -> asks_help (lit c :: w :: rest).

(** What a program prints, and that it does nothing else *)
Definition stdout (os : list op) : str := concat (map (fun o => match o with Print s => s ++ [10%N] | _ => [] end) os).
Definition only_prints (os : list op) : Prop := Forall (fun o => exists s, o = Print s) os.
