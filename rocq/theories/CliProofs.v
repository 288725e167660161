(** The commands. *)
From Coq Require Import String List NArith Arith Bool Lia.
From Verif Require Import Base Tokens Tokenizer CST Parser AST TransformError Transform Plugin Expander Codegen Utf8 Framing Json Serde Compile Project SpecProject
  Cli PluginProofs CacheProofs DownloadProofs DownloadProofs2 AddProofs AddProofs2 Utf8Proofs BuildProofs.
Import ListNotations.

(** ** The pattern *)
Lemma span_stop : forall u s, (exists c, In c u /\ alpha c = false) ->
  exists a c r, span alpha (u ++ s) = (a, c :: r) /\ In c u.
Proof.
  induction u as [|x u IH]; intros s (c & I & A); [destruct I|]. cbn [app span]. destruct (alpha x) eqn:X.
  - destruct I as [->|I]; [congruence|]. destruct (IH s) as (a & d & r & E & J); [eauto|]. rewrite E. exists (x :: a), d, r. split; [reflexivity|right; exact J].
  - exists [], x, (u ++ s). split; [reflexivity|left; reflexivity].
Qed.
Lemma after_name_other : forall c r, c <> 95%N -> after_name (c :: r) = false.
Proof. intros c [|d r] N; [reflexivity|]. cbn [after_name]. destruct (N.eqb_spec c 95); [contradiction|reflexivity]. Qed.
Lemma capture_none : forall u s, no 95 u -> (exists c, In c u /\ alpha c = false) -> capture_here (u ++ s) = None.
Proof.
  intros u s N A. unfold capture_here. destruct (span_stop u s A) as (a & c & r & E & I). rewrite E. destruct a; [reflexivity|].
  rewrite after_name_other; [reflexivity|]. intros ->. exact (N I).
Qed.
Lemma captures_step : forall c s, capture_here (c :: s) = None -> captures (c :: s) = captures s.
Proof. intros c s H. cbn [captures]. rewrite H. reflexivity. Qed.

(** Nothing is found before a character that is no letter. *)
Lemma captures_skip : forall u x s, no 95 u -> x <> 95%N -> alpha x = false -> captures (u ++ x :: s) = captures s.
Proof.
  induction u as [|c u IH]; intros x s N X A; cbn [app].
  - apply captures_step. apply (capture_none [x] s); [intros [E|[]]; congruence|exists x; split; [left; reflexivity|exact A]].
  - rewrite captures_step.
    + apply IH; try assumption. intro I. apply N. right. exact I.
    + change (c :: u ++ x :: s) with ((c :: u) ++ [x] ++ s). rewrite app_assoc. apply capture_none.
      * intro I. apply in_app_or in I as [I|[I|[]]]; [exact (N I)|congruence].
      * exists x. split; [apply in_or_app; right; left; reflexivity|exact A].
Qed.
Lemma captures_no : forall s, no 95 s -> captures s = None.
Proof.
  induction s as [|c s IH]; intro N; [reflexivity|]. rewrite captures_step; [apply IH; intro I; apply N; right; exact I|].
  unfold capture_here.
  assert (S : forall l, exists a r, span alpha l = (a, r) /\ incl r l).
  { induction l as [|x l (a & r & E & J)]; [exists [], []; split; [reflexivity|intros y []]|]. cbn [span]. destruct (alpha x).
    - rewrite E. exists (x :: a), r. split; [reflexivity|]. intros y K. right. apply J. exact K.
    - exists [], (x :: l). split; [reflexivity|apply incl_refl]. }
  destruct (S (c :: s)) as (a & r & E & J). rewrite E. destruct a; [reflexivity|]. destruct r as [|d r]; [reflexivity|].
  rewrite after_name_other; [reflexivity|]. intros ->. apply N. apply J. left. reflexivity.
Qed.
Lemma span_all : forall a c r, Forall (fun x => alpha x = true) a -> alpha c = false -> span alpha (a ++ c :: r) = (a, c :: r).
Proof.
  intros a c r F A. induction F as [|x a X F IH]; cbn [app span]; [rewrite A; reflexivity|]. rewrite X, IH. reflexivity.
Qed.

Lemma hex_alnum : forall c, In c (lit "0123456789abcdef") -> alnum c = true /\ c <> 95%N.
Proof.
  intros c I. assert (B : forallb (fun c => alnum c && negb (N.eqb c 95)) (lit "0123456789abcdef") = true) by reflexivity.
  rewrite forallb_forall in B. apply B in I. apply andb_true_iff in I as [A N]. split; [exact A|]. apply negb_true_iff in N. apply N.eqb_neq. exact N.
Qed.
Lemma more_alnum_hash : forall h r, Forall (fun c => In c (lit "0123456789abcdef")) h -> more_alnum (h ++ lit ".wasm" ++ r) = true.
Proof.
  intros h r F. induction F as [|c h X F IH]; cbn [app]; [reflexivity|]. cbn [more_alnum]. apply hex_alnum in X as [X _]. rewrite X, IH.
  cbn [andb]. apply orb_true_r.
Qed.

(** The module name found for a file [p a _ hash .wasm] in a directory: the letters at the end of the name. *)
Theorem captures_exact : forall d p a h, no 95 d -> no 95 p -> Forall (fun x => alpha x = true) a ->
  (p = [] \/ exists q x, p = q ++ [x] /\ alpha x = false) ->
  h <> [] -> Forall (fun c => In c (lit "0123456789abcdef")) h ->
  captures (d ++ lit "/" ++ (p ++ a) ++ lit "_" ++ h ++ lit ".wasm") = match a with [] => None | _ => Some a end.
Proof.
  intros d p a h D P A L N H. change (lit "/" ++ ?x) with (47%N :: x). rewrite captures_skip; [|exact D|discriminate|reflexivity].
  rewrite <- app_assoc.
  assert (S : captures (p ++ a ++ lit "_" ++ h ++ lit ".wasm") = captures (a ++ lit "_" ++ h ++ lit ".wasm")).
  { destruct L as [->|(q & x & -> & X)]; [reflexivity|]. rewrite <- app_assoc. cbn [app]. apply captures_skip; [|intros ->|exact X].
    - intro I. apply P. apply in_or_app. left. exact I.
    - apply P. apply in_or_app. right. left. reflexivity. }
  rewrite S. clear S. destruct a as [|c a].
  - cbn [app]. change (lit "_" ++ ?x) with (95%N :: x). rewrite captures_step by reflexivity. apply captures_no. intro I. apply in_app_or in I as [I|I].
    + rewrite Forall_forall in H. apply H in I. apply hex_alnum in I as [_ I]. apply I. reflexivity.
    + vm_compute in I. intuition discriminate.
  - change (lit "_" ++ ?x) with (95%N :: x).
    assert (C : capture_here ((c :: a) ++ 95%N :: h ++ lit ".wasm") = Some (c :: a)).
    { unfold capture_here. rewrite span_all by (exact A || reflexivity). destruct h as [|d0 h]; [exfalso; apply N; reflexivity|].
      inversion H as [|? ? H1 H']; subst. cbn [app after_name]. apply hex_alnum in H1 as [H1 _]. rewrite H1.
      rewrite <- (app_nil_r (lit ".wasm")), more_alnum_hash by exact H'. reflexivity. }
    cbn [app captures] in *. rewrite C. reflexivity.
Qed.

Lemma letters_end : forall s, exists p a, s = p ++ a /\ Forall (fun x => alpha x = true) a /\ (p = [] \/ exists q x, p = q ++ [x] /\ alpha x = false).
Proof.
  intro s. induction s as [|c s (p & a & -> & A & L)].
  - exists [], []. repeat split; [constructor|left; reflexivity].
  - destruct L as [->|(q & x & -> & X)].
    + destruct (alpha c) eqn:C.
      * exists [], (c :: a). repeat split; [constructor; assumption|left; reflexivity].
      * exists [c], a. repeat split; [exact A|right; exists [], c; auto].
    + exists (c :: q ++ [x]), a. repeat split; [exact A|right; exists (c :: q), x; auto].
Qed.

(** The name of the plugin is found exactly when it consists of letters. *)
Theorem captures_name : forall d name h, no 95 d -> no 95 name -> name <> [] ->
  h <> [] -> Forall (fun c => In c (lit "0123456789abcdef")) h ->
  (captures (d ++ lit "/" ++ name ++ lit "_" ++ h ++ lit ".wasm") = Some name <-> Forall (fun x => alpha x = true) name).
Proof.
  intros d name h D N E H0 H. destruct (letters_end name) as (p & a & -> & A & L).
  rewrite (captures_exact d p a h D); try assumption; [|intro I; apply N; apply in_or_app; left; exact I]. split.
  - intro X. destruct a as [|c a]; [discriminate|]. injection X as X. destruct p as [|y p]; [exact A|]. exfalso.
    apply (f_equal (@length _)) in X. cbn [length app] in X. rewrite app_length in X. cbn [length] in X. lia.
  - intro F. destruct L as [->|(q & x & -> & X)].
    + cbn [app] in *. destruct a; [contradiction|reflexivity].
    + exfalso. apply Forall_app in F as [F _]. apply Forall_app in F as [_ F]. inversion F. congruence.
Qed.

(** ** The directory *)
Lemma join_plugins : forall name, join (lit "plugins") name = lit "plugins/" ++ name.
Proof. reflexivity. Qed.

Theorem found : forall shown name s names t, Forall scalar name -> name <> [] -> Forall (fun x => alpha x = true) name ->
  Forall (fun n => from_utf8 (lit "plugins/" ++ n) <> None) names ->
  In (utf8 (name ++ lit "_" ++ hash_sha256 shown s ++ lit ".wasm")) names ->
  (forall n text, In n names -> from_utf8 (lit "plugins/" ++ n) = Some text -> captures text = Some name ->
     n = utf8 (name ++ lit "_" ++ hash_sha256 shown s ++ lit ".wasm")) ->
  exists t', find_plugins (lit "plugins") names t = Ok t' /\
    hm_get str_eqb t' name = Some (cache_path shown name s, mkFlags false false false false).
Proof.
  intros shown name s names t S NE A.
  set (fl := utf8 (name ++ lit "_" ++ hash_sha256 shown s ++ lit ".wasm")).
  assert (CP : lit "plugins/" ++ fl = cache_path shown name s) by (unfold cache_path; rewrite (utf8_app (lit "plugins/")); reflexivity).
  assert (FU : from_utf8 (lit "plugins/" ++ fl) = Some (lit "plugins" ++ lit "/" ++ name ++ lit "_" ++ hash_sha256 shown s ++ lit ".wasm")).
  { rewrite CP. unfold cache_path. rewrite from_utf8_utf8 by (apply cache_name_scalar; exact S). reflexivity. }
  assert (CN : captures (lit "plugins" ++ lit "/" ++ name ++ lit "_" ++ hash_sha256 shown s ++ lit ".wasm") = Some name).
  { destruct (hash_shape shown s) as [HL HS]. apply captures_name; try assumption.
    - vm_compute. intuition discriminate.
    - intro I. rewrite Forall_forall in A. apply A in I. discriminate.
    - intro E. rewrite E in HL. discriminate. }
  assert (G : forall names t, Forall (fun n => from_utf8 (lit "plugins/" ++ n) <> None) names ->
    (forall n text, In n names -> from_utf8 (lit "plugins/" ++ n) = Some text -> captures text = Some name -> n = fl) ->
    (In fl names \/ hm_get str_eqb t name = Some (cache_path shown name s, mkFlags false false false false)) ->
    exists t', find_plugins (lit "plugins") names t = Ok t' /\ hm_get str_eqb t' name = Some (cache_path shown name s, mkFlags false false false false)).
  { clear names t. induction names as [|n names IH]; intros t V U I.
    - exists t. split; [reflexivity|]. destruct I as [[]|I]; exact I.
    - inversion V as [|? ? V1 V']; subst. cbn [find_plugins]. rewrite join_plugins.
      assert (U' : forall m text, In m names -> from_utf8 (lit "plugins/" ++ m) = Some text -> captures text = Some name -> m = fl)
        by (intros m text J; apply U; right; exact J).
      destruct (from_utf8 (lit "plugins/" ++ n)) as [text|] eqn:T; [|exfalso; apply V1; reflexivity]. cbn [ok_or bind].
      destruct (captures text) as [m|] eqn:C.
      + apply IH; [exact V'|exact U'|]. rewrite hm_get_insert. destruct (str_eqb name m) eqn:E.
        * apply str_eqb_eq in E. subst m. rewrite (U n text (or_introl eq_refl) T C). right. rewrite CP. reflexivity.
        * destruct I as [[->|I]|I]; [|left; exact I|right; exact I]. exfalso. assert (CM : Some name = Some m) by congruence. injection CM as <-.
          rewrite str_eqb_refl in E. discriminate.
      + apply IH; [exact V'|exact U'|]. destruct I as [[->|I]|I]; [|left; exact I|right; exact I]. exfalso. congruence. }
  intros V I U. apply G; [exact V|exact U|left; exact I].
Qed.

(** ** Levels *)
Section Levels.
  Variable seg : str -> list str.
  Variable uuid : nat -> str.
  Variable checks : bool.
  Variable w : world.
  Notation output := (output seg uuid checks w).

  Theorem output_stages : forall ps json s ts c a es e h1 g h2,
    tokenize_str seg s = Ok ts -> parse ts = Ok c -> transform uuid c = Ok (a, es) ->
    expander w ps a [] = (Ok e, h1) -> generate checks w ps e h1 = (Ok g, h2) ->
    output ps 1 json (Ok s) [] = (Ok (PTokens json ts), []) /\
    output ps 2 json (Ok s) [] = (Ok (PCst json c), []) /\
    fst (output ps 3 true (Ok s) []) = Ok (PAst true a) /\
    fst (output ps 3 false (Ok s) []) = Ok (match es with [] => PAst false a | _ => PErrors es end) /\
    output ps 4 json (Ok s) [] = (Ok (PAst json e), h1) /\
    output ps 5 false (Ok s) [] = (Ok (PText g), h2).
  Proof.
    intros ps json s ts c a es e h1 g h2 T P X E G. unfold Cli.output, mbind, ret. rewrite T, P, X, E, G.
    repeat split.
  Qed.

  (** A level fails exactly when one of the stages up to it fails. *)
  Theorem level_ok : forall ps json s,
    ((exists x, fst (output ps 1 json (Ok s) []) = Ok x) <-> exists ts, tokenize_str seg s = Ok ts) /\
    ((exists x, fst (output ps 2 json (Ok s) []) = Ok x) <-> exists ts c, tokenize_str seg s = Ok ts /\ parse ts = Ok c) /\
    ((exists x, fst (output ps 3 json (Ok s) []) = Ok x) <->
       exists ts c r, tokenize_str seg s = Ok ts /\ parse ts = Ok c /\ transform uuid c = Ok r) /\
    ((exists x, fst (output ps 4 json (Ok s) []) = Ok x) <->
       exists ts c a es e h1, tokenize_str seg s = Ok ts /\ parse ts = Ok c /\ transform uuid c = Ok (a, es) /\ expander w ps a [] = (Ok e, h1)) /\
    ((exists x, fst (output ps 5 false (Ok s) []) = Ok x) <->
       exists ts c a es e h1 g h2, tokenize_str seg s = Ok ts /\ parse ts = Ok c /\ transform uuid c = Ok (a, es) /\
         expander w ps a [] = (Ok e, h1) /\ generate checks w ps e h1 = (Ok g, h2)).
  Proof.
    intros ps json s. unfold Cli.output, mbind, ret.
    destruct (tokenize_str seg s) as [ts| | |]; cbn [fst].
    2-4: repeat split; intros; repeat match goal with H : exists _, _ |- _ => destruct H | H : _ /\ _ |- _ => destruct H end; discriminate.
    split; [split; intros; [eauto|eauto]|].
    destruct (parse ts) as [c| | |] eqn:P; cbn [fst].
    2-4: repeat split; intros; repeat match goal with H : exists _, _ |- _ => destruct H | H : _ /\ _ |- _ => destruct H end; congruence.
    split; [split; intros; [exists ts, c; auto|eauto]|].
    destruct (transform uuid c) as [[a es]| | |] eqn:X; cbn [fst].
    2-4: repeat split; intros; repeat match goal with H : exists _, _ |- _ => destruct H | H : _ /\ _ |- _ => destruct H end; congruence.
    split; [split; intros; [exists ts, c, (a, es); auto|eauto]|].
    destruct (expander w ps a []) as [r h1] eqn:E. destruct r as [e| | |]; cbn [fst].
    2-4: repeat split; intros; repeat match goal with H : exists _, _ |- _ => destruct H | H : _ /\ _ |- _ => destruct H end; congruence.
    split; [split; intros; [exists ts, c, a, es, e, h1; auto|eauto]|].
    destruct (generate checks w ps e h1) as [r h2] eqn:G. destruct r as [g| | |]; cbn [fst].
    2-4: repeat split; intros; repeat match goal with H : exists _, _ |- _ => destruct H | H : _ /\ _ |- _ => destruct H end; congruence.
    split; intros; [exists ts, c, a, es, e, h1, g, h2; repeat split; assumption|eauto].
  Qed.

  (** The last level is what [build] does to one document. *)
  Theorem level5_compile : forall ps s g h, (output ps 5 false (Ok s) [] = (Ok (PText g), h)) <-> compile seg uuid checks w ps s [] = (Ok g, h).
  Proof.
    intros ps s g h. unfold Cli.output, compile, mbind, ret. destruct (tokenize_str seg s) as [ts| | |]; try (split; congruence).
    destruct (parse ts) as [c| | |]; try (split; congruence). destruct (transform uuid c) as [[a es]| | |]; try (split; congruence).
    destruct (expander w ps a []) as [[e| | |] h1]; try (split; congruence).
    destruct (generate checks w ps e h1) as [[g'| | |] h2]; split; congruence.
  Qed.
End Levels.
