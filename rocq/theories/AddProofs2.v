(** What adding leaves behind. *)
From Coq Require Import String List NArith Arith Bool Lia.
From Verif Require Import Base Plugin Utf8 Framing Json Serde Project SpecProject PluginProofs SerdeProofs ProjectProofs CacheProofs DownloadProofs DownloadProofs2 AddProofs.
Import ListNotations.

Lemma get_none' : forall {V} (m : list (str * V)) k, hm_get str_eqb m k = None <-> ~ In k (map fst m).
Proof.
  intros V m k. induction m as [|[k' v] m IH]; cbn [hm_get map fst]; [split; [intros _ []|reflexivity]|].
  destruct (str_eqb k k') eqn:E.
  - apply str_eqb_eq in E. subst k'. split; [discriminate|]. intro H. exfalso. apply H. left. reflexivity.
  - apply str_eqb_neq in E. rewrite IH. split; intros H I; apply H; [|right; exact I]. destruct I as [I|I]; [congruence|exact I].
Qed.

Lemma nodup_snoc : forall {A} (l : list A) x, NoDup l -> ~ In x l -> NoDup (l ++ [x]).
Proof.
  intros A l x D N. induction D as [|y l I D IH]; cbn [app]; [constructor; [intros []|constructor]|].
  constructor; [|apply IH; intro J; apply N; right; exact J]. intro J. apply in_app_or in J as [J|[J|[]]]; [contradiction|]. apply N. left. congruence.
Qed.
Lemma with_entry_storable : forall c n s, config_storable c -> ~ In n (map fst (entries c)) -> Forall scalar n -> schema_scalar s ->
  config_storable (with_entry c n s).
Proof.
  intros [d ps] n s (A & B & C & D & E) N F G. unfold config_storable, with_entry, entries in *. cbn [c_document c_plugins] in *.
  repeat (split; [assumption|]). destruct ps as [ps|].
  - destruct E as [E1 E2]. rewrite map_app. split; [apply nodup_snoc; assumption|]. apply Forall_app. split; [exact E2|]. constructor; [auto|constructor].
  - cbn. split; [constructor; [intros []|constructor]|]. constructor; [auto|constructor].
Qed.

Lemma scalar_upto : forall c s, Forall scalar s -> Forall scalar (upto c s).
Proof. intros c s F. apply Forall_forall. intros x I. rewrite Forall_forall in F. apply F. eapply upto_in. exact I. Qed.

Lemma load_written : forall t f c s, toml_read t s = Ok (ser_config c) -> Forall scalar s -> file f brack_toml = Some (utf8 s) ->
  snd (load_brack_toml t f) = Ok c.
Proof.
  intros t f c s R F W. unfold load_brack_toml, ibind, read_to_string, done. rewrite W, from_utf8_utf8 by exact F. cbn [ok_or].
  rewrite R. cbn [bind snd]. apply de_ser_config.
Qed.

Lemma github_scalar : forall owner repo version, Forall scalar (github owner repo version) ->
  Forall scalar owner /\ Forall scalar repo /\ Forall scalar version.
Proof.
  intros owner repo version F. unfold github in F. rewrite !Forall_app in F. tauto.
Qed.
Lemma name_github : forall owner repo, repo <> [] -> no 47 repo -> name_of owner repo = Ok repo.
Proof. intros owner repo N H. unfold name_of. rewrite repo_name by assumption. reflexivity. Qed.
Lemma url_added : forall owner repo version, url_of owner repo version repo = added_url owner repo version.
Proof. intros. unfold url_of, added_url. rewrite <- !app_assoc. reflexivity. Qed.

Lemma make_plugins_file : forall f q, file (apply_all f (make_plugins f)) q = file f q.
Proof. intros f q. unfold make_plugins. destruct (dir f (lit "plugins")); reflexivity. Qed.

(** What is recorded. *)
Theorem add_records : forall t o owner repo version c f os,
  toml_law t -> config_storable c -> Forall scalar (github owner repo version) ->
  no 47 owner -> no 58 owner -> no 64 owner -> no 47 repo -> no 64 repo -> repo <> [] -> no 64 version ->
  snd (load_brack_toml t f) = Ok c -> add_plugin t o (github owner repo version) f = (os, Ok tt) ->
  ~ In (before_dot repo) (map fst (entries c)) /\
  snd (load_brack_toml t (apply_all f os)) = Ok (with_entry c (before_dot repo) (hookless owner repo version)) /\
  (exists body, serves o (added_url owner repo version) body /\ file (apply_all f os) (added_file repo) = Some body) /\
  requests os = [added_url owner repo version] /\
  forall p, p <> brack_toml -> p <> added_file repo -> file (apply_all f os) p = file f p.
Proof.
  intros t o owner repo version c f os T S F A1 A2 A3 A4 A5 A6 A7 L H.
  pose proof (parse_github _ _ _ A1 A2 A3 A4 A5 A7) as P. apply github_scalar in F as (F1 & F2 & F3).
  destruct (add_cases t o (github owner repo version) f) as [[_ X]|(ow & re & ve & c' & rn & P' & L' & N' & G & [[X _]|(body & out & B & W & E)])].
  - exfalso. rewrite H in X. apply (X tt). reflexivity.
  - exfalso. rewrite H in X. apply (X tt). reflexivity.
  - rewrite P in P'. injection P' as <- <- <-. rewrite L in L'. injection L' as <-. rewrite name_github in N' by assumption. injection N' as <-.
    rewrite url_added in *. rewrite before_dot_upto. apply get_none' in G.
    assert (OS : os = [Request (added_url owner repo version)] ++ make_plugins f ++ writes (added_file repo) body ++ writes brack_toml (utf8 out)).
    { rewrite H in E. injection E as ->. reflexivity. }
    clear H E. subst os.
    assert (SS : config_storable (with_entry c (upto 46 repo) (hookless owner repo version))).
    { apply with_entry_storable; try assumption; [apply scalar_upto; exact F2|]. repeat split; assumption. }
    destruct (T _ SS) as (out' & W' & O & R). rewrite W in W'. injection W' as <-.
    assert (D : added_file repo <> brack_toml) by (unfold added_file; apply plugin_not_toml).
    split; [exact G|]. split.
    { eapply load_written; [exact R|exact O|]. rewrite !apply_all_app, writes_file, str_eqb_refl. reflexivity. }
    split; [exists body; split; [exact B|]|split].
    + rewrite !apply_all_app, writes_file. destruct (str_eqb brack_toml (added_file repo)) eqn:Q; [apply str_eqb_eq in Q; congruence|].
      rewrite writes_file, str_eqb_refl. reflexivity.
    + rewrite !requests_app, !requests_writes, !app_nil_r. unfold make_plugins. destruct (dir f (lit "plugins")); reflexivity.
    + intros p X Y. rewrite !apply_all_app, writes_file.
      destruct (str_eqb brack_toml p) eqn:Q; [apply str_eqb_eq in Q; congruence|]. rewrite writes_file.
      destruct (str_eqb (added_file repo) p) eqn:Q'; [apply str_eqb_eq in Q'; congruence|]. rewrite make_plugins_file. reflexivity.
Qed.

(** An entry with that name stays, and nothing is done. *)
Theorem add_existing : forall t o s f owner repo version c rn x,
  parse_schema s = Ok (owner, repo, version) -> snd (load_brack_toml t f) = Ok c -> name_of owner repo = Ok rn ->
  hm_get str_eqb (entries c) (upto 46 rn) = Some x ->
  fst (add_plugin t o s f) = [] /\ forall y, snd (add_plugin t o s f) <> Ok y.
Proof.
  intros t o s f owner repo version c rn x P L N G.
  destruct (add_cases t o s f) as [X|(ow & re & ve & c' & rn' & P' & L' & N' & G' & _)]; [exact X|].
  rewrite P in P'. injection P' as <- <- <-. rewrite L in L'. injection L' as <-. rewrite N in N'. injection N' as <-. congruence.
Qed.

(** A failure leaves Brack.toml as it was. *)
Theorem add_fails : forall t o s f, (forall x, snd (add_plugin t o s f) <> Ok x) ->
  file (after (add_plugin t o s) f) brack_toml = file f brack_toml.
Proof.
  intros t o s f X. unfold after. destruct (add_cases t o s f) as [[E _]|(ow & re & ve & c & rn & _ & _ & _ & _ & [[_ U]|(b & out & _ & _ & E)])].
  - rewrite E. reflexivity.
  - apply untouched_file. exact U.
  - exfalso. rewrite E in X. apply (X tt). reflexivity.
Qed.

(** Killed at any moment. *)
Lemma killed_untouched : forall {A} (m : io A) f f' q, killed m f f' -> Forall (untouched q) (fst (m f)) -> file f' q = file f q.
Proof.
  intros A m f f' q (a & b & E & ->) U. apply untouched_file. rewrite E in U. apply Forall_app in U as [U _]. exact U.
Qed.

Theorem add_killed : forall t o s f f', killed (add_plugin t o s) f f' ->
  file f' brack_toml = file f brack_toml \/
  exists g n, add_plugin t o s f = (g, Ok tt) /\
    exists new, file (apply_all f g) brack_toml = Some new /\ file f' brack_toml = Some (firstn n new).
Proof.
  intros t o s f f' K. destruct (add_cases t o s f) as [[E _]|(ow & re & ve & c & rn & _ & _ & _ & _ & [[_ U]|(b & out & _ & _ & E)])].
  - left. eapply killed_untouched; [exact K|]. rewrite E. constructor.
  - left. eapply killed_untouched; [exact K|exact U].
  - destruct K as (before & rest & K & ->). rewrite E in *. cbn [fst] in K.
    set (url := url_of ow re ve rn) in *. set (w := utf8 (lit "plugins/" ++ rn ++ lit ".wasm")) in *.
    assert (U : Forall (untouched brack_toml) (Request url :: make_plugins f ++ writes w b)).
    { constructor; [exact I|]. apply Forall_app. split; [unfold make_plugins; destruct (dir f (lit "plugins")); repeat constructor|].
      apply untouched_writes. unfold w. apply plugin_not_toml. }
    assert (Q : Request url :: make_plugins f ++ writes w b ++ writes brack_toml (utf8 out)
                = (Request url :: make_plugins f ++ writes w b) ++ writes brack_toml (utf8 out)).
    { cbn [app]. rewrite <- !app_assoc. reflexivity. }
    rewrite Q in K. rewrite Q. apply app_eq_app in K as (l & [[K G]|[K G]]).
    + left. apply untouched_file. rewrite K in U. apply Forall_app in U as [U _]. exact U.
    + rewrite K, apply_all_app.
      destruct (writes_begun brack_toml (utf8 out) l rest (apply_all f (Request url :: make_plugins f ++ writes w b)) brack_toml G) as [_ [[_ [B|[n B]]]|[N _]]].
      * left. rewrite B. apply untouched_file. exact U.
      * right. exists ((Request url :: make_plugins f ++ writes w b) ++ writes brack_toml (utf8 out)), n. split; [reflexivity|].
        exists (utf8 out). split; [|exact B]. rewrite apply_all_app, writes_file, str_eqb_refl. reflexivity.
      * exfalso. apply N. reflexivity.
Qed.

(** Each addition can leave an empty Brack.toml, which is not a configuration. *)
Theorem add_empties : forall t o s f os, add_plugin t o s f = (os, Ok tt) ->
  exists f', killed (add_plugin t o s) f f' /\ file f' brack_toml = Some [] /\
    (toml_read t [] = Ok (JObj []) ->
       (exists e, snd (load_brack_toml t f') = Err e) /\
       forall o' s', fst (add_plugin t o' s' f') = [] /\ forall x, snd (add_plugin t o' s' f') <> Ok x).
Proof.
  intros t o s f os H. destruct (add_cases t o s f) as [[_ X]|(ow & re & ve & c & rn & _ & _ & _ & _ & [[X _]|(b & out & _ & _ & E)])];
    [exfalso; rewrite H in X; apply (X tt); reflexivity..|].
  set (url := url_of ow re ve rn) in *. set (w := utf8 (lit "plugins/" ++ rn ++ lit ".wasm")) in *.
  exists (apply_all f ((Request url :: make_plugins f ++ writes w b) ++ [Create brack_toml])). split; [|split].
  - unfold killed. rewrite E. cbn [fst]. exists ((Request url :: make_plugins f ++ writes w b) ++ [Create brack_toml]), (map (Append brack_toml) (utf8 out)).
    split; [|reflexivity]. cbn [app]. rewrite <- !app_assoc. reflexivity.
  - rewrite apply_all_app. reflexivity.
  - intro T. set (f' := apply_all f _).
    assert (Z : file f' brack_toml = Some []) by (unfold f'; rewrite apply_all_app; reflexivity).
    assert (L : exists e, snd (load_brack_toml t f') = Err e).
    { unfold load_brack_toml, ibind, read_to_string, done. rewrite Z. cbn [from_utf8 ok_or]. rewrite T. eexists. reflexivity. }
    split; [exact L|]. intros o' s'. destruct L as [e L].
    destruct (add_cases t o' s' f') as [X|(ow' & re' & ve' & c' & rn' & _ & L' & _)]; [exact X|]. congruence.
Qed.

(** ** When adding succeeds *)
Lemma utf8_app : forall a b, utf8 (a ++ b) = utf8 a ++ utf8 b.
Proof. intros. unfold utf8. rewrite map_app, concat_app. reflexivity. Qed.
Lemma utf8_no : forall c s, (c < 128)%N -> Forall scalar s -> no c s -> no c (utf8 s).
Proof.
  intros c s B F N I. unfold utf8 in I. apply in_concat in I as (l & I & J). apply in_map_iff in I as (x & <- & I).
  rewrite Forall_forall in F. apply utf8_char_slash in J; [|apply F; exact I|exact B]. subst x. exact (N I).
Qed.
Lemma added_parent : forall repo, Forall scalar repo -> no 47 repo -> parent (added_file repo) = lit "plugins".
Proof.
  intros repo F N. unfold added_file. rewrite utf8_app. change (utf8 (lit "plugins/")) with (lit "plugins" ++ [47%N]).
  rewrite <- app_assoc. cbn [app]. apply (parent_slash (lit "plugins")). apply utf8_no; [lia| |].
  - apply Forall_app. split; [exact F|apply lit_scalar; reflexivity].
  - intro I. apply in_app_or in I as [I|I]; [exact (N I)|]. vm_compute in I. intuition discriminate.
Qed.

Theorem add_succeeds : forall t o owner repo version c f body,
  toml_law t -> config_storable c -> Forall scalar (github owner repo version) ->
  no 47 owner -> no 58 owner -> no 64 owner -> no 47 repo -> no 64 repo -> repo <> [] -> no 64 version ->
  snd (load_brack_toml t f) = Ok c -> ~ In (before_dot repo) (map fst (entries c)) ->
  serves o (added_url owner repo version) body ->
  (dir f (lit "plugins") = true \/ (file f (lit "plugins") = None /\ denied o (lit "plugins") = false)) ->
  dir f (added_file repo) = false -> denied o (added_file repo) = false ->
  dir f brack_toml = false -> denied o brack_toml = false ->
  exists os, add_plugin t o (github owner repo version) f = (os, Ok tt).
Proof.
  intros t o owner repo version c f body T S F A1 A2 A3 A4 A5 A6 A7 L N B D1 D2 D3 D4 D5.
  pose proof (parse_github _ _ _ A1 A2 A3 A4 A5 A7) as P. apply github_scalar in F as (F1 & F2 & F3).
  destruct (loaded_file t f c L) as [L' M]. unfold add_plugin.
  rewrite (ibind_step _ _ f [] true) by (rewrite M; reflexivity). cbn [apply_all fold_left negb]. rewrite ibind_pure, P. cbv zeta.
  rewrite (ibind_step _ _ f [] c L'). cbn [apply_all fold_left]. fold (name_of owner repo). rewrite ibind_pure, name_github by assumption.
  rewrite ibind_pure, (split_cons 46 repo). cbn [nth_error ok_or]. fold (entries c). rewrite before_dot_upto in N. 
  pose proof N as G. apply get_none' in G. rewrite G.
  change ((lit "https://github.com/" ++ owner ++ lit "/" ++ repo) ++ lit "/releases/download/" ++ version ++ lit "/" ++ repo ++ lit ".wasm")
    with (url_of owner repo version repo). rewrite url_added.
  rewrite (ibind_step _ _ f [Request (added_url owner repo version)] body) by (unfold get; apply fetched_serves in B; rewrite B; reflexivity).
  cbn [apply_all fold_left apply].
  assert (C : create_dir_all o (lit "plugins") f = (make_plugins f, Ok tt)).
  { unfold create_dir_all, make_plugins. destruct (dir f (lit "plugins")); [reflexivity|]. destruct D1 as [D1|[D1 D1']]; [discriminate|].
    rewrite D1, D1'. reflexivity. }
  rewrite (ibind_step _ _ f _ tt C). set (f1 := apply_all f (make_plugins f)). fold (added_file repo).
  assert (E : forall q, dir f1 q = if dir f (lit "plugins") then dir f q else str_eqb (lit "plugins") q || dir f q).
  { intro q. unfold f1, make_plugins. destruct (dir f (lit "plugins")); reflexivity. }
  assert (W : writable o f1 (added_file repo)).
  { split; [|split; [|exact D3]].
    - right. rewrite added_parent by assumption. rewrite E. destruct (dir f (lit "plugins")); reflexivity.
    - rewrite E, D2. destruct (dir f (lit "plugins")); [reflexivity|]. rewrite orb_false_r. apply str_eqb_neq.
      unfold added_file. intro Q. apply (f_equal (@length _)) in Q. rewrite !utf8_app, !app_length in Q. cbn in Q. lia. }
  rewrite (ibind_step _ _ f1 _ tt (write_file_ok o _ body f1 W)). rewrite insert_new by exact G.
  change (mkConfig (c_document c) (Some (entries c ++ [(upto 46 repo, mkSchema owner repo version None None None None)])))
    with (with_entry c (upto 46 repo) (hookless owner repo version)).
  destruct (T (with_entry c (upto 46 repo) (hookless owner repo version))) as (out & WO & _).
  { apply with_entry_storable; try assumption; [apply scalar_upto; exact F2|]. repeat split; assumption. }
  rewrite ibind_pure, WO. rewrite write_file_ok; [eexists; reflexivity|].
  split; [left; reflexivity|]. split; [|exact D5]. rewrite writes_dir, E, D4. destruct (dir f (lit "plugins")); reflexivity.
Qed.
