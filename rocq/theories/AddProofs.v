(** Adding plugins. *)
From Coq Require Import String List NArith Arith Bool Lia.
From Verif Require Import Base Plugin Utf8 Framing Json Serde Project SpecProject PluginProofs SerdeProofs ProjectProofs CacheProofs DownloadProofs DownloadProofs2.
Import ListNotations.

(** ** Strings *)
Lemma split_cons : forall c s, split c s = upto c s :: match past c s with Some r => split c r | None => [] end.
Proof.
  intros c s. induction s as [|x s IH]; [reflexivity|]. cbn [split upto past]. destruct (N.eqb x c); [reflexivity|]. rewrite IH. reflexivity.
Qed.
Lemma upto_no : forall c s, no c (upto c s).
Proof.
  intros c s. induction s as [|x s IH]; [intros []|]. cbn [upto]. destruct (N.eqb_spec x c); [intros []|]. intros [E|I]; [congruence|auto].
Qed.
Lemma upto_in : forall c s x, In x (upto c s) -> In x s.
Proof.
  intros c s. induction s as [|y s IH]; intros x I; [destruct I|]. cbn [upto] in I. destruct (N.eqb y c); [destruct I|].
  destruct I as [->|I]; [left; reflexivity|right; auto].
Qed.
Lemma upto_app : forall c a b, no c a -> upto c (a ++ c :: b) = a.
Proof.
  intros c a b. induction a as [|x a IH]; intro H; cbn [app upto]; [rewrite N.eqb_refl; reflexivity|].
  destruct (N.eqb_spec x c) as [->|]; [exfalso; apply H; left; reflexivity|]. f_equal. apply IH. intro I. apply H. right. exact I.
Qed.
Lemma past_app : forall c a b, no c a -> past c (a ++ c :: b) = Some b.
Proof.
  intros c a b. induction a as [|x a IH]; intro H; cbn [app past]; [rewrite N.eqb_refl; reflexivity|].
  destruct (N.eqb_spec x c) as [->|]; [exfalso; apply H; left; reflexivity|]. apply IH. intro I. apply H. right. exact I.
Qed.
Lemma upto_none : forall c a, no c a -> upto c a = a.
Proof.
  intros c a. induction a as [|x a IH]; intro H; [reflexivity|]. cbn [upto].
  destruct (N.eqb_spec x c) as [->|]; [exfalso; apply H; left; reflexivity|]. f_equal. apply IH. intro I. apply H. right. exact I.
Qed.
Lemma past_none : forall c a, no c a <-> past c a = None.
Proof.
  intros c a. induction a as [|x a IH]; [split; [reflexivity|intros _ []]|]. cbn [past]. destruct (N.eqb_spec x c) as [->|N].
  - split; [|discriminate]. intro H. exfalso. apply H. left. reflexivity.
  - rewrite <- IH. split; intros H I; apply H; [right; exact I|]. destruct I as [E|I]; [congruence|exact I].
Qed.
Lemma past_some : forall c s r, past c s = Some r -> s = upto c s ++ c :: r.
Proof.
  intros c s. induction s as [|x s IH]; intros r H; [discriminate|]. cbn [past upto] in *. destruct (N.eqb_spec x c) as [->|].
  - injection H as ->. reflexivity.
  - cbn [app]. f_equal. apply IH. exact H.
Qed.
Lemma before_dot_upto : forall s, before_dot s = upto 46 s.
Proof. induction s as [|x s IH]; [reflexivity|]. cbn [before_dot upto]. destruct (N.eqb x 46); [reflexivity|f_equal; exact IH]. Qed.

(** What is accepted as a schema, and as what. *)
Theorem parse_schema_exact : forall s owner repo version,
  parse_schema s = Ok (owner, repo, version) <->
  exists a b v, s = lit "github:" ++ a ++ lit "/" ++ b /\ no 47 a /\ past 64 s = Some v /\
    owner = upto 58 a /\ repo = upto 64 (upto 47 b) /\ version = upto 64 v.
Proof.
  intros s owner repo version. unfold parse_schema. rewrite (split_cons 58 s). cbn [nth_error ok_or bind].
  rewrite (split_cons 47 s). cbn [nth_error ok_or bind]. rewrite (split_cons 58 (upto 47 s)). cbn [nth_error].
  split.
  - intro H. destruct (past 58 (upto 47 s)) as [a|] eqn:A; [|discriminate]. rewrite (split_cons 58 a) in H. cbn [nth_error ok_or bind] in H.
    destruct (past 47 s) as [b|] eqn:B; [|discriminate]. rewrite (split_cons 47 b) in H. cbn [nth_error ok_or bind] in H.
    rewrite (split_cons 64 (upto 47 b)), (split_cons 64 s) in H. cbn [nth_error ok_or bind] in H.
    destruct (past 64 s) as [v|] eqn:V; [|discriminate]. rewrite (split_cons 64 v) in H. cbn [nth_error ok_or bind] in H.
    destruct (str_eqb (upto 58 s) (lit "github")) eqn:G; [|discriminate]. injection H as <- <- <-. apply str_eqb_eq in G.
    exists a, b, v. repeat split.
    + apply past_some in A. apply past_some in B.
      assert (U : upto 58 (upto 47 s) = lit "github").
      { rewrite <- G. rewrite B at 2. rewrite A at 2. rewrite <- app_assoc. cbn [app]. symmetry. apply upto_app. apply upto_no. }
      rewrite U in A. rewrite B, A at 1. rewrite <- app_assoc. reflexivity.
    + pose proof (upto_no 47 s) as N. apply past_some in A. rewrite A in N. intro I. apply N. apply in_or_app. right. right. exact I.
  - intros (a & b & v & -> & N & V & -> & -> & ->).
    assert (U : upto 47 (lit "github:" ++ a ++ lit "/" ++ b) = lit "github:" ++ a).
    { rewrite app_assoc. apply (upto_app 47 (lit "github:" ++ a)). intro I. apply in_app_or in I as [I|I]; [|exact (N I)].
      vm_compute in I. intuition discriminate. }
    assert (P : past 47 (lit "github:" ++ a ++ lit "/" ++ b) = Some b).
    { rewrite app_assoc. apply (past_app 47 (lit "github:" ++ a)). intro I. apply in_app_or in I as [I|I]; [|exact (N I)].
      vm_compute in I. intuition discriminate. }
    assert (G : past 58 (lit "github:" ++ a) = Some a) by reflexivity.
    rewrite U, P, G. rewrite (split_cons 58 a). cbn [nth_error ok_or bind].
    rewrite (split_cons 47 b). cbn [nth_error ok_or bind]. rewrite (split_cons 64 (upto 47 b)). cbn [nth_error ok_or bind].
    rewrite (split_cons 64 (lit "github:" ++ a ++ lit "/" ++ b)). rewrite V. rewrite (split_cons 64 v). cbn [nth_error ok_or bind].
    change (upto 58 (lit "github:" ++ a ++ lit "/" ++ b)) with (lit "github"). rewrite str_eqb_refl. reflexivity.
Qed.

Theorem parse_github : forall owner repo version,
  no 47 owner -> no 58 owner -> no 64 owner -> no 47 repo -> no 64 repo -> no 64 version ->
  parse_schema (github owner repo version) = Ok (owner, repo, version).
Proof.
  intros owner repo version A B C D E F. apply parse_schema_exact. exists owner, (repo ++ lit "@" ++ version), version. repeat split.
  - exact A.
  - unfold github. change (lit "@" ++ version) with (64%N :: version). rewrite 2 app_assoc. rewrite (app_assoc _ repo). apply past_app.
    intro I. rewrite !in_app_iff in I. destruct I as [[[I|I]|I]|I]; [vm_compute in I; intuition discriminate|auto|vm_compute in I; intuition discriminate|auto].
  - symmetry. apply upto_none. exact B.
  - change (lit "@" ++ version) with (64%N :: version).
    assert (G : exists w, upto 47 (repo ++ 64%N :: version) = repo ++ 64%N :: w).
    { exists (upto 47 version). clear -D. induction repo as [|x r IH]; [reflexivity|]. cbn [app upto].
      destruct (N.eqb_spec x 47) as [->|]; [exfalso; apply D; left; reflexivity|]. f_equal. apply IH. intro I. apply D. right. exact I. }
    destruct G as [w G]. rewrite G. symmetry. apply upto_app. exact E.
  - symmetry. apply upto_none. exact F.
Qed.

(** ** The name *)
Lemma split_last : forall c a r, no c r -> exists l, split c (a ++ c :: r) = l ++ [r].
Proof.
  intros c a r H. induction a as [|x a [l IH]]; cbn [app split].
  - rewrite N.eqb_refl. exists [[]]. rewrite split_cons, upto_none by exact H. apply past_none in H. rewrite H. reflexivity.
  - rewrite IH. destruct (N.eqb x c); [exists ([] :: l); reflexivity|]. destruct l as [|y l].
    + exfalso. cbn [app] in IH. rewrite split_cons in IH. injection IH as E F.
      destruct (past c (a ++ c :: r)) as [q|] eqn:P; [rewrite split_cons in F; discriminate|].
      apply past_none in P. apply P. apply in_or_app. right. left. reflexivity.
    + exists ((x :: y) :: l). reflexivity.
Qed.
Lemma trim_none : forall a c r, r <> [] -> no c r -> trim_end c (a ++ r) = a ++ r.
Proof.
  intros a c r N H. unfold trim_end. rewrite rev_app_distr. destruct (rev r) as [|x q] eqn:E.
  - exfalso. apply N. rewrite <- (rev_involutive r), E. reflexivity.
  - cbn [app trim_end_rev]. destruct (N.eqb_spec x c) as [->|].
    + exfalso. apply H. apply in_rev. rewrite E. left. reflexivity.
    + change (x :: q ++ rev a) with ((x :: q) ++ rev a). rewrite <- E, rev_app_distr, !rev_involutive. reflexivity.
Qed.
Lemma repo_name : forall owner repo, repo <> [] -> no 47 repo ->
  last_of (split 47 (trim_end 47 (lit "https://github.com/" ++ owner ++ lit "/" ++ repo))) = Some repo.
Proof.
  intros owner repo N H. rewrite !app_assoc, trim_none by assumption.
  change (lit "/") with [47%N]. rewrite <- (app_assoc _ [47%N]). cbn [app].
  destruct (split_last 47 (lit "https://github.com/" ++ owner) repo H) as [l E]. rewrite E. unfold last_of. rewrite rev_app_distr. reflexivity.
Qed.

Lemma insert_new : forall {V} (m : list (str * V)) k v, hm_get str_eqb m k = None -> hm_insert str_eqb m k v = m ++ [(k, v)].
Proof.
  intros V m k v. induction m as [|[k' v'] m IH]; intro H; [reflexivity|]. cbn [hm_get hm_insert] in *.
  destruct (str_eqb k k'); [discriminate|]. cbn [app]. f_equal. apply IH. exact H.
Qed.

(** ** Running *)
Lemma ibind_ok : forall {A B} (m : io A) (k : A -> io B) f os b, ibind m k f = (os, Ok b) ->
  exists o1 a o2, m f = (o1, Ok a) /\ k a (apply_all f o1) = (o2, Ok b) /\ os = o1 ++ o2.
Proof.
  intros A B m k f os b H. unfold ibind in H. destruct (m f) as [o1 r]. destruct r as [a| | |]; try discriminate.
  destruct (k a (apply_all f o1)) as [o2 r2] eqn:E. injection H as <- ->. exists o1, a, o2. auto.
Qed.
Lemma ibind_pure : forall {A B} (r : res A) (k : A -> io B) f,
  ibind (done r) k f = match r with Ok a => k a f | Err e => ([], Err e) | Panic e => ([], Panic e) | Fuel => ([], Fuel) end.
Proof. intros A B [a| | |] k f; cbn; [|reflexivity..]. destruct (k a f). reflexivity. Qed.

Lemma ibind_step : forall {A B} (m : io A) (k : A -> io B) f o1 a, m f = (o1, Ok a) ->
  ibind m k f = let (o2, r) := k a (apply_all f o1) in (o1 ++ o2, r).
Proof. intros A B m k f o1 a H. unfold ibind. rewrite H. reflexivity. Qed.

Lemma loaded_file : forall t f c, snd (load_brack_toml t f) = Ok c -> load_brack_toml t f = ([], Ok c) /\ present f brack_toml = true.
Proof.
  intros t f c H. unfold load_brack_toml, ibind, read_to_string, done in *. unfold present.
  destruct (file f brack_toml) as [b|]; [|discriminate]. split; [|reflexivity].
  destruct (ok_or (from_utf8 b) _) as [s| | |]; cbn [snd apply_all fold_left app] in *; [rewrite H; reflexivity|discriminate..].
Qed.
Lemma load_none : forall t f, fst (load_brack_toml t f) = [].
Proof.
  intros t f. unfold load_brack_toml, ibind, read_to_string, done. destruct (file f brack_toml) as [b|]; [|reflexivity].
  destruct (ok_or (from_utf8 b) _); reflexivity.
Qed.

Lemma parent_slash : forall d r, no 47 r -> parent (d ++ 47%N :: r) = d.
Proof.
  intros d r H. unfold parent. rewrite rev_app_distr. cbn [rev]. rewrite <- app_assoc. cbn [app].
  assert (G : forall q, no 47 q -> (fix after_slash (r : bytes) : option bytes :=
     match r with [] => None | c :: r' => if N.eqb c 47 then Some r' else after_slash r' end) (q ++ 47%N :: rev d) = Some (rev d)).
  { intro q. induction q as [|x q IH]; intro N; cbn [app]; [reflexivity|].
    destruct (N.eqb_spec x 47) as [->|]; [exfalso; apply N; left; reflexivity|]. apply IH. intro I. apply N. right. exact I. }
  rewrite G; [apply rev_involutive|]. intro I. apply H. apply in_rev. exact I.
Qed.

Lemma utf8_char_slash : forall c b, scalar c -> In b (utf8_char c) -> (b < 128)%N -> b = c.
Proof.
  intros c b S I B. unfold utf8_char in I.
  destruct (N.ltb c 0x80); [destruct I as [->|[]]; reflexivity|].
  repeat match type of I with context [if ?x then _ else _] => destruct x end; cbn [In] in I; exfalso;
    repeat (destruct I as [I|I]; [subst b; match type of B with (_ + ?y < _)%N => generalize y, B; clear; intros; lia end|]); exact I.
Qed.

(** ** Adding *)
Definition untouched (q : path) (x : op) : Prop :=
  match x with Create p | Append p _ => p <> q | RemoveAll _ => False | _ => True end.
Lemma untouched_file : forall q os f, Forall (untouched q) os -> file (apply_all f os) q = file f q.
Proof.
  intros q os. induction os as [|x os IH]; intros f F; [reflexivity|]. inversion F as [|? ? U F']; subst.
  change (apply_all f (x :: os)) with (apply_all (apply f x) os). rewrite IH by exact F'.
  destruct x; cbn [apply file untouched] in *; try reflexivity; [..|destruct U].
  - destruct (str_eqb p q) eqn:E; [apply str_eqb_eq in E; contradiction|reflexivity].
  - destruct (str_eqb p q) eqn:E; [apply str_eqb_eq in E; contradiction|reflexivity].
Qed.
Lemma untouched_writes : forall p q b, p <> q -> Forall (untouched q) (writes p b).
Proof. intros p q b N. constructor; [exact N|]. apply Forall_forall. intros x I. apply in_map_iff in I as (y & <- & _). exact N. Qed.
Lemma plugin_not_toml : forall r, utf8 (lit "plugins/" ++ r) <> brack_toml.
Proof. intros r H. vm_compute in H. discriminate. Qed.

Definition make_plugins (f : fs) : list op := if dir f (lit "plugins") then [] else [Mkdir (lit "plugins")].
Definition name_of (owner repo : str) : res str :=
  ok_or (last_of (split 47 (trim_end 47 (lit "https://github.com/" ++ owner ++ lit "/" ++ repo)))) "Last element of URL is not found.".
Definition url_of (owner repo version rn : str) : str :=
  (lit "https://github.com/" ++ owner ++ lit "/" ++ repo) ++ lit "/releases/download/" ++ version ++ lit "/" ++ rn ++ lit ".wasm".

(** All that can happen. *)
Theorem add_cases : forall t o s f,
  (fst (add_plugin t o s f) = [] /\ forall x, snd (add_plugin t o s f) <> Ok x) \/
  exists owner repo version c rn, parse_schema s = Ok (owner, repo, version) /\ snd (load_brack_toml t f) = Ok c /\
    name_of owner repo = Ok rn /\ hm_get str_eqb (entries c) (upto 46 rn) = None /\
    (((forall x, snd (add_plugin t o s f) <> Ok x) /\ Forall (untouched brack_toml) (fst (add_plugin t o s f))) \/
     exists body out, serves o (url_of owner repo version rn) body /\
       toml_write t (ser_config (with_entry c (upto 46 rn) (hookless owner repo version))) = Ok out /\
       add_plugin t o s f =
         (Request (url_of owner repo version rn) :: make_plugins f ++ writes (utf8 (lit "plugins/" ++ rn ++ lit ".wasm")) body
            ++ writes brack_toml (utf8 out), Ok tt)).
Proof.
  intros t o s f. remember (add_plugin t o s f) as R eqn:E. unfold add_plugin in E.
  rewrite (ibind_step _ _ f [] (present f brack_toml)) in E by reflexivity. cbn [apply_all fold_left] in E.
  destruct (present f brack_toml) eqn:F; cbn [negb] in E; cycle 1.
  { left. subst R. split; [reflexivity|]. intros x H. discriminate. }
  rewrite ibind_pure in E. destruct (parse_schema s) as [[[owner repo] version]| | |] eqn:P;
    try (left; subst R; split; [reflexivity|intros x H; discriminate]).
  cbv zeta in E. pose proof (load_none t f) as L0. destruct (load_brack_toml t f) as [l0 r] eqn:L. cbn [fst] in L0. subst l0.
  destruct r as [c| | |]; try (left; unfold ibind at 1 in E; rewrite L in E; subst R; split; [reflexivity|intros x H; discriminate]).
  rewrite (ibind_step _ _ f [] c) in E by exact L. cbn [apply_all fold_left] in E.
  fold (name_of owner repo) in E. rewrite ibind_pure in E.
  destruct (name_of owner repo) as [rn| | |] eqn:N; try (left; subst R; split; [reflexivity|intros x H; discriminate]).
  rewrite ibind_pure in E. rewrite (split_cons 46 rn) in E. cbn [nth_error ok_or] in E. fold (entries c) in E.
  destruct (hm_get str_eqb (entries c) (upto 46 rn)) eqn:G; [left; subst R; split; [reflexivity|intros x H; discriminate]|].
  right. exists owner, repo, version, c, rn. repeat (split; [assumption || reflexivity|]).
  change ((lit "https://github.com/" ++ owner ++ lit "/" ++ repo) ++ lit "/releases/download/" ++ version ++ lit "/" ++ rn ++ lit ".wasm")
    with (url_of owner repo version rn) in E.
  destruct (fetched_other (net o (url_of owner repo version rn))) as [[b B]|[e B]]; cycle 1.
  { left. unfold ibind at 1, get in E. rewrite B in E. subst R. split; [intros x H; discriminate|]. repeat constructor. }
  rewrite (ibind_step _ _ f [Request (url_of owner repo version rn)] b) in E by (unfold get; rewrite B; reflexivity).
  cbn [apply_all fold_left apply] in E.
  assert (M : (exists e, create_dir_all o (lit "plugins") f = ([], Err e)) \/ create_dir_all o (lit "plugins") f = (make_plugins f, Ok tt)).
  { unfold make_plugins, create_dir_all. destruct (dir f (lit "plugins")); [right; reflexivity|].
    destruct (file f (lit "plugins")); [left; eexists; reflexivity|]. destruct (denied o (lit "plugins")); [left; eexists|right]; reflexivity. }
  destruct M as [[e M]|M].
  { left. unfold ibind at 1 in E. rewrite M in E. subst R. split; [intros x H; discriminate|]. repeat constructor. }
  rewrite (ibind_step _ _ f _ tt M) in E.
  assert (UM : Forall (untouched brack_toml) (make_plugins f)).
  { unfold make_plugins. destruct (dir f (lit "plugins")); repeat constructor. }
  set (f1 := apply_all f (make_plugins f)) in E.
  set (w := utf8 (lit "plugins/" ++ rn ++ lit ".wasm")) in *.
  destruct (writable_dec o f1 w) as [W|W]; cycle 1.
  { destruct (write_file_not o w b f1 W) as [e' X]. unfold ibind at 1 in E. rewrite X in E. left. subst R. split; [intros x H; discriminate|].
    cbn [fst app]. rewrite app_nil_r. constructor; [exact I|exact UM]. }
  rewrite (ibind_step _ _ f1 _ tt (write_file_ok o w b f1 W)) in E. rewrite insert_new in E by exact G.
  change (mkConfig (c_document c) (Some (entries c ++ [(upto 46 rn, mkSchema owner repo version None None None None)])))
    with (with_entry c (upto 46 rn) (hookless owner repo version)) in E.
  rewrite ibind_pure in E. set (f2 := apply_all f1 (writes w b)) in E.
  assert (UW : Forall (untouched brack_toml) (Request (url_of owner repo version rn) :: make_plugins f ++ writes w b)).
  { constructor; [exact I|]. apply Forall_app. split; [exact UM|]. apply untouched_writes. unfold w. apply plugin_not_toml. }
  destruct (toml_write t (ser_config (with_entry c (upto 46 rn) (hookless owner repo version)))) as [out| | |] eqn:T;
    try (left; subst R; split; [intros x H; discriminate|]; cbn [fst app]; rewrite ?app_nil_r; exact UW).
  destruct (writable_dec o f2 brack_toml) as [X|X]; cycle 1.
  { destruct (write_file_not o brack_toml (utf8 out) f2 X) as [e' Y]. rewrite Y in E. left. subst R. split; [intros x H; discriminate|].
    cbn [fst app]. rewrite ?app_nil_r. exact UW. }
  right. exists b, out. split; [apply fetched_serves; exact B|]. split; [reflexivity|].
  rewrite write_file_ok in E by exact X. subst R. cbn [app]. rewrite <- ?app_assoc. reflexivity.
Qed.
