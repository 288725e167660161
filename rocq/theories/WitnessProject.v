(** A project used in the examples. *)
From Coq Require Import String List NArith ZArith Bool Lia.
From Verif Require Import Base Tokens Tokenizer Plugin Utf8 Json SpecJson JsonProofs SpecLsp JsonTotal Serde SerdeProofs Compile Project SpecProject.
Import ListNotations.
#[local] Open Scope N_scope.

(** JSON, used in the place of TOML; the empty text is an empty table as in TOML. *)
Definition json_toml : toml :=
  mkToml (fun s => match s with [] => Ok (JObj []) | _ => from_str s end) (fun j => Ok (print j)).

Lemma strs_fine : forall l, Forall (Forall scalar) l -> plain (JArr (map JStr l)) /\ texts (JArr (map JStr l)) /\ (nesting (JArr (map JStr l)) <= 1)%nat.
Proof.
  intros l F. cbn [plain texts nesting]. induction l as [|s l IH]; cbn [map fold_right]; [repeat split; lia|].
  inversion F; subst. destruct (IH H2) as (A & B & C). cbn [plain texts nesting] in *. repeat split; try assumption.
Qed.
Lemma schema_fine : forall s, schema_scalar s -> plain (ser_schema s) /\ texts (ser_schema s) /\ nesting (ser_schema s) = 1%nat.
Proof.
  intros [o r v a b c d] (A & B & C). cbn [s_owner s_repo s_version] in *.
  assert (L : forall x : string, forallb (fun c => N.ltb c 128) (lit x) = true -> Forall scalar (lit x)) by (intro x; apply ascii_scalar).
  destruct a as [[]|], b as [[]|], c as [[]|], d as [[]|]; cbn; (split; [tauto|split; [|reflexivity]]);
    repeat (split; [first [assumption|apply ascii_scalar; reflexivity|exact I]|]); exact I.
Qed.
Lemma schemas_fine : forall ps, Forall (fun p => Forall scalar (fst p) /\ schema_scalar (snd p)) ps ->
  let j := JObj (map (fun p => (fst p, ser_schema (snd p))) ps) in plain j /\ texts j /\ (nesting j <= 2)%nat.
Proof.
  intros ps F. cbn [plain texts nesting]. induction ps as [|[n s] ps IH]; cbn [map fold_right fst snd]; [repeat split; lia|].
  inversion F as [|? ? [Hn Hs] F']; subst. cbn [fst snd] in *. destruct (IH F') as (A & B & C). destruct (schema_fine s Hs) as (A' & B' & C').
  split; [split; assumption|]. split; [split; [assumption|split; assumption]|]. cbn [nesting] in C. lia.
Qed.

Lemma json_toml_law : toml_law json_toml.
Proof.
  intros [[dn dv db da] ps] (A & B & C & D & E). exists (print (ser_config (mkConfig (mkDocument dn dv db da) ps))). cbn [c_document d_name d_version d_backend d_authors c_plugins] in *.
  assert (G : plain (ser_config (mkConfig (mkDocument dn dv db da) ps)) /\ texts (ser_config (mkConfig (mkDocument dn dv db da) ps)) /\
              (nesting (ser_config (mkConfig (mkDocument dn dv db da) ps)) < 128)%nat).
  { unfold ser_config, ser_document, jobj. cbn [c_document c_plugins d_name d_version d_backend d_authors map].
    destruct (strs_fine da D) as (P1 & P2 & P3).
    set (L := JArr (map JStr da)) in *. clearbody L.
    assert (K : forall s : string, forallb (fun c => N.ltb c 128) (lit s) = true -> Forall scalar (lit s)) by (intro; apply ascii_scalar).
    destruct ps as [ps|].
    - destruct E as [_ E]. pose proof (schemas_fine ps E) as Q. cbv zeta in Q.
      match goal with |- context [(lit "plugins", ?x)] => set (J := x) in * end.
      change (plain J /\ texts J /\ (nesting J <= 2)%nat) in Q. destruct Q as (Q1 & Q2 & Q3). clearbody J. cbn [fst snd].
      split; [cbn [plain fold_right]; repeat split; assumption|]. split; [|cbn [nesting fold_right]; rewrite ?Nat.max_0_l, ?Nat.max_0_r; lia].
      cbn [texts fold_right]. repeat (split; [first [assumption|apply K; reflexivity]|]); repeat split; try assumption; apply K; reflexivity.
    - cbn [fst snd]. split; [cbn [plain fold_right]; repeat split; assumption|]. split; [|cbn [nesting fold_right]; rewrite ?Nat.max_0_l, ?Nat.max_0_r; lia].
      cbn [texts fold_right]. repeat split; try assumption; apply K; reflexivity. }
  destruct G as (G1 & G2 & G3). split; [reflexivity|]. split; [apply print_scalar; exact G2|].
  cbn [toml_read json_toml]. rewrite from_str_print by exact G1.
  apply Nat.ltb_lt in G3. rewrite G3.
  destruct (print (ser_config _)) as [|x y] eqn:X; [|reflexivity].
  destruct (print_opens _ G1) as (c & r & Y & _). rewrite X in Y. discriminate Y.
Qed.

(** Every character from the space to the tilde is shown as it is. *)
Definition ascii_shown (c : N) : bool := N.leb 32 c && N.ltb c 127.

Definition plain_entry : str * schema := (lit "html", mkSchema (lit "brack-lang") (lit "brack-html") (lit "v0.2") None None None None).
Definition hook_entry : str * schema := (lit "list", mkSchema (lit "me") (lit "my list""s") (lit "1") None (Some false) (Some true) None).
Definition demo_document : document := mkDocument (lit "Demo") (lit "0.1.0") (lit "html") [lit "A"; [233]].
Definition demo_config : config := mkConfig demo_document (Some [plain_entry; hook_entry]).

Definition fs_of (files : list (path * bytes)) (dirs : list path) : fs :=
  mkfs (fun p => hm_get str_eqb files p) (fun p => existsb (str_eqb p) dirs).
Definition config_bytes (c : config) : bytes := utf8 (print (ser_config c)).
Definition demo_fs : fs := fs_of [(lit "Brack.toml", config_bytes demo_config)] [lit "plugins"].

(** Every plugin can be downloaded: its content is the address. *)
Definition mirror : outside := mkOutside (fun _ => false) (fun url => Response 200 (Some (utf8 url))).
(** Nothing can. *)
Definition offline : outside := mkOutside (fun _ => false) (fun _ => NoResponse).

Lemma demo_storable : config_storable demo_config.
Proof.
  assert (L : forall x : string, forallb (fun c => N.ltb c 128) (lit x) = true -> Forall scalar (lit x)) by (intro x; apply ascii_scalar).
  unfold config_storable, demo_config, demo_document, plain_entry, hook_entry, schema_scalar.
  cbn [c_document c_plugins d_name d_version d_backend d_authors s_owner s_repo s_version fst snd map].
  repeat split; try (apply L; reflexivity).
  - constructor; [apply L; reflexivity|]. constructor; [|constructor]. constructor; [|constructor]. left. reflexivity.
  - constructor; [|constructor; [|constructor]]; cbn [In]; [|intros []]. intros [H|[]]. discriminate H.
  - repeat constructor; cbn [fst snd s_owner s_repo s_version]; apply L; reflexivity.
Qed.
