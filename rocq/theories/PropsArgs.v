(** Property theorems C93-C95 (what the arguments of the program mean, and its exit status). *)
From Coq Require Import String List NArith Bool Permutation.
From Verif Require Import Base Graphemes UAX29 Plugin GenWitness Utf8 Json Serde Project SpecProject Cli Show Toml Args SpecArgs ArgsProofs ArgsMore ArgsHelp
  WitnessProject PropsProject PropsCli.
Import ListNotations.

(** ** C93 *)
(** The arguments that are accepted are exactly the spellings of commands. *)
Theorem C93_exactly : forall args c, parse_args args = Run c <-> spelled args c.
Proof. exact args_spec. Qed.
Print Assumptions C93_exactly.

(** The options of `compile` can be given in any order. *)
Theorem C93_any_order : forall (l l' : list (setting * list str)) d b f n j, Permutation l l' ->
  Forall (fun p => setting_words (fst p) (snd p)) l -> NoDup (map (fun p => setting_kind (fst p)) l) ->
  asks_compile (map fst l) d b f n j ->
  parse_args (lit "compile" :: concat (map snd l')) = Run (Compile d b f n j).
Proof. exact order_free. Qed.
Print Assumptions C93_any_order.

(** They can be given once, and backend and file have to be given. *)
Theorem C93_once : forall ss wss stop, Forall2 setting_words ss wss -> last_words stop -> ~ NoDup (map setting_kind ss) ->
  parse_args (lit "compile" :: concat wss ++ stop) = Usage.
Proof. exact twice_complained. Qed.
Print Assumptions C93_once.
Theorem C93_required : forall ss wss stop, Forall2 setting_words ss wss -> last_words stop ->
  ((forall b, ~ In (Backend b) ss) \/ (forall f, ~ In (Filename f) ss)) ->
  parse_args (lit "compile" :: concat wss ++ stop) = Usage.
Proof. exact required. Qed.
Print Assumptions C93_required.

(** Every command can be given, whatever its values. *)
Theorem C93_every_command : forall c, match c with Compile _ _ _ n _ => (n <= 255)%N | _ => True end -> exists args, parse_args args = Run c.
Proof. exact every_command. Qed.
Print Assumptions C93_every_command.

Example C93_example :
  let demo := Compile (Some (lit "-x")) (lit "html") (lit "a.[]") 3 true in
  parse_args [lit "compile"; lit "-p=-x"; lit "-bhtml"; lit "-f"; lit "a.[]"; lit "--output-level"; lit "+03"; lit "--json"; lit "--"] = Run demo /\
  parse_args [lit "compile"; lit "--json"; lit "--filename=a.[]"; lit "--output-level=3"; lit "--backend"; lit "html"; lit "--plugins-dir-path=-x"] = Run demo /\
  parse_args [lit "compile"; lit "-b"; lit "html"; lit "-f"; lit "a.[]"] = Run (Compile None (lit "html") (lit "a.[]") 5 false) /\
  parse_args [lit "compile"; lit "-b"; lit "html"; lit "-f"; lit "a.[]"; lit "--output-level=256"] = Usage /\
  parse_args [lit "compile"; lit "-b"; lit "html"; lit "-f"; lit "-"] = Run (Compile None (lit "html") (lit "-") 5 false) /\
  parse_args [lit "compile"; lit "-b"; lit "html"; lit "-f"; lit "-x"] = Usage /\
  parse_args [lit "compile"; lit "-b"; lit "html"; lit "-f"; lit "a"; lit "-b"; lit "tex"] = Usage /\
  parse_args [lit "compile"; lit "-b"; lit "html"] = Usage /\
  parse_args [lit "compile"; lit "-b"; lit "html"; lit "-h"; lit "--nonsense"] = Help /\
  parse_args [lit "add"; lit "github:o/r@1"] = Run (Add (lit "github:o/r@1")) /\ parse_args [lit "add"; lit "a"; lit "b"] = Usage /\
  parse_args [lit "new"; lit "-nbook"] = Run (New (lit "book")) /\ parse_args [lit "new"; lit "book"] = Usage.
Proof. vm_compute. repeat split; reflexivity. Qed.
Definition demo_settings : list (setting * list str) :=
  [(Backend (lit "html"), [lit "-bhtml"]); (Filename (lit "a.[]"), [lit "-f"; lit "a.[]"]); (Level (lit "3"), [lit "--output-level=3"])].
Example C93_settings_example :
  Forall (fun p => setting_words (fst p) (snd p)) demo_settings /\ NoDup (map (fun p => setting_kind (fst p)) demo_settings) /\
  asks_compile (map fst demo_settings) None (lit "html") (lit "a.[]") 3 false /\
  ~ NoDup (map setting_kind [Json; Backend (lit "html"); Json]) /\ Forall2 setting_words [Json; Json] [[lit "--json"]; [lit "--json"]].
Proof.
  split; [|split; [|split; [|split]]].
  - repeat apply Forall_cons; [| | |apply Forall_nil].
    + apply (short_joined _ _ (lit "html") 98%N); [reflexivity|discriminate|discriminate].
    + apply (short_apart _ _ (lit "a.[]") 102%N); [reflexivity|right; discriminate].
    + exact (long_joined (lit "output-level") _ (lit "3")).
  - repeat constructor; cbn; intuition discriminate.
  - split; [intro x; cbn; intuition discriminate|]. split; [cbn; tauto|]. split; [cbn; tauto|]. split; [|cbn; intuition discriminate].
    left. exists (lit "3"). split; [cbn; tauto|]. apply read_level_spec. reflexivity.
  - cbn. intro N. inversion N as [|? ? H _]; subst. apply H. right. left. reflexivity.
  - repeat constructor.
Qed.

(** ** C94 *)
(** The backend that `compile` requires has no influence on what it does. *)
Theorem C94_backend_refuted : forall m args args' d b b' filename n j,
  spelled args (Compile d b filename n j) -> spelled args' (Compile d b' filename n j) -> main m args = main m args'.
Proof. exact main_backend. Qed.
Print Assumptions C94_backend_refuted.

Definition no_machine : machine :=
  mkMachine gseg marks true echo toml_crate ascii_shown (fun _ => lit "i") mirror [] wasm_demo (fun _ => None) plugins_listing (fun _ => Some [lit "main.[]"]) (fun _ => [lit "main."]).
Example C94_example :
  spelled [lit "compile"; lit "-bhtml"; lit "-pplugins"; lit "-fdocs/a.[]"] (Compile (Some (lit "plugins")) (lit "html") (lit "docs/a.[]") 5 false) /\
  spelled [lit "compile"; lit "-btex"; lit "-pplugins"; lit "-fdocs/a.[]"] (Compile (Some (lit "plugins")) (lit "tex") (lit "docs/a.[]") 5 false) /\
  option_map (fun p => p built_fs) (main no_machine [lit "compile"; lit "-btex"; lit "-pplugins"; lit "-fdocs/a.[]"])
  = Some ([Print (lit "x (f:y)")], Some 0%N).
Proof. split; [apply args_spec; reflexivity|]. split; [apply args_spec; reflexivity|]. vm_compute. reflexivity. Qed.

(** ** C95 *)
(** The status is 0 for success, 1 for an error and 101 for a panic; arguments that are no command do nothing and give 2, or 0 if
    they ask for help. *)
Theorem C95_status : forall m args c p f, spelled args c -> run_command m c = Some p ->
  exists q, main m args = Some q /\ fst (q f) = fst (p f) /\
    (snd (q f) = Some 0%N <-> snd (p f) = Ok tt) /\
    (snd (q f) = Some 1%N <-> exists e, snd (p f) = Err e) /\
    (snd (q f) = Some 101%N <-> exists e, snd (p f) = Panic e).
Proof. exact main_status. Qed.
Print Assumptions C95_status.

Theorem C95_help : forall m args, asks_help args ->
  main m args = Some (fun _ => ([], Some 0%N)) /\ forall c, ~ spelled args c.
Proof. exact (fun m args H => conj (main_help m args H) (fun c => help_or_command args c H)). Qed.
Print Assumptions C95_help.
Theorem C95_no_command : forall m args, (forall c, ~ spelled args c) -> ~ asks_help args ->
  main m args = Some (fun _ => ([], Some 2%N)).
Proof. exact main_usage. Qed.
Print Assumptions C95_no_command.

Example C95_help_example :
  asks_help [lit "compile"; lit "--json"; lit "-bhtml"; lit "-h?"; lit "--no"] /\ asks_help [lit "help"; lit "add"] /\
  ~ asks_help [lit "compile"; lit "--json"; lit "--json"; lit "--help"] /\ ~ asks_help [lit "add"; lit "--"; lit "--help"] /\
  ~ asks_help [] /\ ~ asks_help [lit "help"; lit "me"] /\ (forall c, ~ spelled [lit "add"; lit "a"; lit "b"] c) /\
  ~ asks_help [lit "add"; lit "a"; lit "b"].
Proof.
  split; [apply help_spec; reflexivity|]. split; [apply help_spec; reflexivity|].
  repeat (split; [first [intro H; apply help_spec in H; discriminate H | intros c H; apply args_spec in H; discriminate H]|]).
  intro H. apply help_spec in H. discriminate H.
Qed.

(** `compile` prints its result, as C83 describes the texts, and does nothing else. *)
Theorem C95_compile : forall m args d b filename n j f, spelled args (Compile d b filename n j) ->
  exists p, main m args = Some p /\
  match snd (run_compile (m_seg m) (m_uuid m 0) (m_checks m) (m_world m) (m_wasm m) (m_ls m) (m_variable m (lit "BRACK_PLUGINS_PATH")) d filename n j f) with
  | Ok x => exists os, p f = (os, Some 0%N) /\ only_prints os /\ stdout os = printed_text (m_shown m) (m_ids m) x
  | Err _ => p f = ([], Some 1%N)
  | Panic _ => p f = ([], Some 101%N)
  | Fuel => p f = ([], None)
  end.
Proof. exact main_compile. Qed.
Print Assumptions C95_compile.

Theorem C95_version : forall m args f, spelled args Version -> exists p, main m args = Some p /\
  p f = ([Print (lit "Brack " ++ match m_variable m (lit "APP_VERSION") with Some v => v | None => lit "0.2.0" end)], Some 0%N).
Proof. exact main_version. Qed.
Print Assumptions C95_version.

(** `brack new` and then `brack build` in the new directory succeed. *)
Theorem C95_new_build : forall m m2 a1 a2 name f q os g, seg_laws (m_seg m2) -> m_toml m2 = toml_crate ->
  spelled a1 (New name) -> spelled a2 Build -> Forall scalar name -> plain_name name ->
  (forall r, present f (utf8 name ++ [47%N] ++ r) = false) -> (forall p, denied (m_outside m2) p = false) ->
  main m a1 = Some q -> q f = (os, Some 0%N) -> seen_from name (apply_all f os) g ->
  m_docs m2 g = Some [lit "main.[]"] -> (forall h, file h (lit "out/main.") <> None -> m_outs m2 h = [lit "main."]) ->
  exists q2 os2, main m2 a2 = Some q2 /\ q2 g = (os2, Some 0%N) /\ file (apply_all g os2) (lit "out/main.") = Some [].
Proof. exact main_new_build. Qed.
Print Assumptions C95_new_build.

Example C95_example :
  option_map (fun p => snd (p (fs_of [] []))) (main no_machine [lit "new"; lit "-n"; lit "book"]) = Some (Some 0%N) /\
  option_map (fun p => p book_fs) (main no_machine [lit "build"; lit "--"])
  = Some ([Mkdir (lit "out"); Create (lit "out/main."); Print (lit "Build succeeded."); Print (lit "  - ./out/main.")], Some 0%N) /\
  option_map (fun p => p (fs_of [] [])) (main no_machine [lit "build"]) = Some ([], Some 1%N) /\
  option_map (fun p => p (fs_of [] [])) (main no_machine [lit "version"]) = Some ([Print (lit "Brack 0.2.0")], Some 0%N) /\
  option_map (fun p => p (fs_of [] [])) (main no_machine [lit "--version"]) = Some ([], Some 2%N).
Proof. vm_compute. repeat split; reflexivity. Qed.
