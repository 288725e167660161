(** Names found by `compile`, new projects, and the commands as a whole. *)
From Coq Require Import String List NArith Bool Lia.
From Verif Require Import Base Tokens Tokenizer CST Parser AST TransformError Transform Plugin Expander Codegen Utf8 Json Serde Compile Sha256 Project SpecProject ProjectProofs CacheProofs
  DownloadProofs DownloadProofs2 AddProofs AddProofs2 Utf8Proofs BuildProofs Cli CliProofs CliProofs2 ProjectMore.
Import ListNotations.
#[local] Open Scope N_scope.

(** ** Names *)
Lemma span_all : forall p s, Forall (fun x => p x = true) (fst (span p s)).
Proof.
  intros p s. induction s as [|c s IH]; [constructor|]. cbn [span]. destruct (p c) eqn:E; [|constructor].
  destruct (span p s). constructor; [exact E|exact IH].
Qed.
Theorem captures_letters : forall s a, captures s = Some a -> a <> [] /\ Forall (fun x => alpha x = true) a.
Proof.
  assert (H : forall s a, capture_here s = Some a -> a <> [] /\ Forall (fun x => alpha x = true) a).
  { intros s a. unfold capture_here. pose proof (span_all alpha s) as F. destruct (span alpha s) as [b r]. cbn [fst] in F.
    destruct b as [|x b]; [discriminate|]. destruct (after_name r); [|discriminate]. intro E. assert (a = x :: b) by congruence. subst a.
    split; [discriminate|exact F]. }
  induction s as [|c s IH]; intros a E.
  - apply (H [] a). cbn [captures] in E. destruct (capture_here []); [exact E|discriminate].
  - cbn [captures] in E. destruct (capture_here (c :: s)) eqn:X; [apply (H (c :: s) a); congruence|apply IH; exact E].
Qed.
Lemma alpha_no : forall name, Forall (fun x => alpha x = true) name -> no 95 name.
Proof. intros name F I. rewrite Forall_forall in F. specialize (F _ I). discriminate F. Qed.

Theorem captured_iff : forall shown name s, name <> [] ->
  (captures (lit "plugins/" ++ name ++ lit "_" ++ hash_sha256 shown s ++ lit ".wasm") = Some name <-> Forall (fun x => alpha x = true) name).
Proof.
  intros shown name s NE. split; [intro E; apply (captures_letters _ _ E)|]. intro F.
  apply (captures_name (lit "plugins") name (hash_sha256 shown s)).
  - intro I. revert I. clear. cbn. intuition discriminate.
  - apply alpha_no. exact F.
  - exact NE.
  - destruct (hash_shape shown s) as [L _]. intro X. rewrite X in L. discriminate L.
  - apply hash_shape.
  - exact F.
Qed.

Lemma insert_in : forall {A} (t : list (str * A)) k v x, In x (hm_insert str_eqb t k v) -> In x t \/ x = (k, v).
Proof.
  intros A t k v x. induction t as [|[k' v'] t IH]; cbn [hm_insert]; [intros [<-|[]]; right; reflexivity|].
  destruct (str_eqb k k') eqn:E; cbn [In].
  - apply str_eqb_eq in E. subst k'. intros [<-|I]; [right; reflexivity|left; right; exact I].
  - intros [<-|I]; [left; left; reflexivity|]. destruct (IH I) as [J|J]; [left; right; exact J|right; exact J].
Qed.
Lemma get_in : forall {A} (t : list (str * A)) k v, hm_get str_eqb t k = Some v -> In (k, v) t.
Proof.
  intros A t k v. induction t as [|[k' v'] t IH]; cbn [hm_get]; [discriminate|]. destruct (str_eqb k k') eqn:E.
  - apply str_eqb_eq in E. intro H. left. congruence.
  - intro H. right. apply IH. exact H.
Qed.

Theorem only_letters : forall d names t, find_plugins d names [] = Ok t ->
  forall name x, hm_get str_eqb t name = Some x -> name <> [] /\ Forall (fun x => alpha x = true) name.
Proof.
  intros d names t H.
  assert (G : forall names t0 t, find_plugins d names t0 = Ok t -> (forall n x, In (n, x) t0 -> n <> [] /\ Forall (fun x => alpha x = true) n) ->
              forall n x, In (n, x) t -> n <> [] /\ Forall (fun x => alpha x = true) n).
  { clear. induction names as [|y names IH]; intros t0 t H F n x I; cbn [find_plugins] in H; [injection H as <-; eapply F; exact I|].
    destruct (from_utf8 (join d y)) as [s|]; cbn [ok_or bind] in H; [|discriminate H]. destruct (captures s) as [m|] eqn:C; [|eapply IH; eassumption].
    eapply IH; [exact H| |exact I]. intros n' x' J. apply insert_in in J. destruct J as [J|J]; [eapply F; exact J|].
    assert (n' = m) by congruence. subst n'. eapply captures_letters. exact C. }
  intros name x X. eapply (G names [] t H); [intros ? ? []|]. apply get_in. exact X.
Qed.

Lemma insert_get : forall {A} (t : list (str * A)) k v, hm_get str_eqb (hm_insert str_eqb t k v) k = Some v.
Proof. intros A t k v. rewrite hm_get_insert, str_eqb_refl. reflexivity. Qed.
Theorem last_wins : forall d names x s name t t', from_utf8 (join d x) = Some s -> captures s = Some name ->
  find_plugins d (names ++ [x]) t = Ok t' -> hm_get str_eqb t' name = Some (join d x, mkFlags false false false false).
Proof.
  intros d names x s name t t' S C. revert t. induction names as [|y names IH]; intros t H; cbn [app find_plugins] in H.
  - rewrite S in H. cbn [ok_or bind] in H. rewrite C in H. injection H as <-. apply insert_get.
  - destruct (from_utf8 (join d y)) as [s'|]; cbn [ok_or bind] in H; [|discriminate H]. destruct (captures s'); eapply IH; exact H.
Qed.

(** ** New projects *)
Definition new_toml (name : str) : str :=
  lit "[document]" ++ [10] ++ lit "name = """ ++ name ++ lit """" ++ [10]
  ++ lit "version = ""0.1.0""" ++ [10] ++ lit "backend = """"" ++ [10]
  ++ lit "authors = [""your name <your email>""]" ++ [10; 10] ++ lit "[plugins]" ++ [10].
Definition new_ignore : str := lit "plugins" ++ [10] ++ lit "out" ++ [10].

Theorem new_exists : forall o name f, present f (utf8 name) = true -> exists e, new_project o name f = ([], Err e).
Proof. intros o name f P. eexists. unfold new_project, ibind, create_dir. rewrite P. reflexivity. Qed.

Lemma create_dir_ok : forall o p f os, create_dir o p f = (os, Ok tt) -> os = [Mkdir p] /\ present f p = false.
Proof. intros o p f os. unfold create_dir. destruct (present f p); [discriminate|]. match goal with |- context [if ?b then _ else _] => destruct b end; [discriminate|]. intro H. split; [congruence|reflexivity]. Qed.
Lemma write_ok : forall o p b f os, write_file o p b f = (os, Ok tt) -> os = writes p b.
Proof. intros o p b f os. unfold write_file. match goal with |- context [if ?b then _ else _] => destruct b end; [|discriminate]. intro H. injection H as <-. reflexivity. Qed.

Theorem new_ops : forall o name f os, new_project o name f = (os, Ok tt) ->
  present f (utf8 name) = false /\ present (apply f (Mkdir (utf8 name))) (utf8 (name ++ lit "/docs")) = false /\
  os = [Mkdir (utf8 name); Mkdir (utf8 (name ++ lit "/docs"))] ++ writes (utf8 (name ++ lit "/docs/main.[]")) []
    ++ writes (utf8 (name ++ lit "/Brack.toml")) (utf8 (new_toml name)) ++ writes (utf8 (name ++ lit "/.gitignore")) (utf8 new_ignore).
Proof.
  intros o name f os H. unfold new_project in H.
  apply ibind_ok in H as (o1 & [] & o1' & H1 & H & ->). apply ibind_ok in H as (o2 & [] & o2' & H2 & H & ->).
  apply ibind_ok in H as (o3 & [] & o3' & H3 & H & ->). apply ibind_ok in H as (o4 & [] & o5 & H4 & H5 & ->).
  apply create_dir_ok in H1 as [-> P1]. apply create_dir_ok in H2 as [-> P2]. apply write_ok in H3, H4, H5. subst. split; [exact P1|]. split; [exact P2|]. reflexivity.
Qed.

Lemma suffix_neq : forall name a b, a <> b -> Forall scalar a -> Forall scalar b -> utf8 (name ++ a) <> utf8 (name ++ b).
Proof.
  intros name a b N A B X. rewrite !utf8_app in X. apply app_inv_head in X. apply N. apply (utf8_inj a b A B X).
Qed.
Lemma suffix_neq0 : forall name a, a <> [] -> Forall scalar a -> utf8 name <> utf8 (name ++ a).
Proof.
  intros name a N A X. rewrite utf8_app in X. rewrite <- (app_nil_r (utf8 name)) in X at 1. apply app_inv_head in X. apply N. apply (utf8_nil a). symmetry. exact X.
Qed.

Ltac neqs := first [apply suffix_neq; [discriminate|apply lit_scalar; reflexivity|apply lit_scalar; reflexivity]
  |apply suffix_neq0; [discriminate|apply lit_scalar; reflexivity]].

Theorem new_files : forall o name f os, new_project o name f = (os, Ok tt) ->
  (forall p, dir (apply_all f os) p = true <-> p = utf8 name \/ p = utf8 (name ++ lit "/docs") \/ dir f p = true) /\
  file (apply_all f os) (utf8 (name ++ lit "/docs/main.[]")) = Some [] /\
  file (apply_all f os) (utf8 (name ++ lit "/Brack.toml")) = Some (utf8 (new_toml name)) /\
  file (apply_all f os) (utf8 (name ++ lit "/.gitignore")) = Some (utf8 new_ignore) /\
  (forall p, p <> utf8 (name ++ lit "/docs/main.[]") -> p <> utf8 (name ++ lit "/Brack.toml") -> p <> utf8 (name ++ lit "/.gitignore") ->
     file (apply_all f os) p = file f p).
Proof.
  intros o name f os H. apply new_ops in H as (_ & _ & ->). rewrite !apply_all_app.
  set (p1 := utf8 (name ++ lit "/docs/main.[]")). set (p2 := utf8 (name ++ lit "/Brack.toml")). set (p3 := utf8 (name ++ lit "/.gitignore")).
  assert (N12 : p1 <> p2) by neqs. assert (N13 : p1 <> p3) by neqs. assert (N23 : p2 <> p3) by neqs.
  assert (E : forall a b : path, a <> b -> str_eqb a b = false) by (intros a b X; apply str_eqb_neq; exact X).
  split; [|split; [|split; [|split]]].
  - intro p. rewrite !writes_dir. cbn [apply_all fold_left apply dir]. rewrite !orb_true_iff, !str_eqb_eq. intuition auto.
  - rewrite !writes_file, str_eqb_refl. rewrite (E p3 p1), (E p2 p1) by congruence. reflexivity.
  - rewrite !writes_file, str_eqb_refl. rewrite (E p3 p2) by congruence. reflexivity.
  - rewrite !writes_file, str_eqb_refl. reflexivity.
  - intros p A B C. rewrite !writes_file. rewrite (E p3 p), (E p2 p), (E p1 p) by congruence. reflexivity.
Qed.

Lemma parent_name : forall name r, Forall scalar r -> no 47 r -> parent (utf8 (name ++ lit "/" ++ r)) = utf8 name.
Proof. intros name r S N. rewrite !utf8_app. change (utf8 (lit "/")) with [47]. apply parent_slash. apply utf8_no; [lia|exact S|exact N]. Qed.
Lemma parent_none : forall p, no 47 p -> parent p = [].
Proof.
  intros p N. unfold parent.
  assert (G : forall q, no 47 q -> (fix after_slash (r : bytes) : option bytes :=
     match r with [] => None | c :: r' => if N.eqb c 47 then Some r' else after_slash r' end) q = None).
  { induction q as [|c q IH]; intro H; [reflexivity|]. destruct (N.eqb_spec c 47) as [->|X]; [exfalso; apply H; left; reflexivity|]. apply IH. intro I. apply H. right. exact I. }
  rewrite G; [reflexivity|]. intro I. apply N. apply in_rev. exact I.
Qed.

Lemma lit_no : forall c s, forallb (fun x => negb (N.eqb x c)) s = true -> no c s.
Proof. intros c s H I. rewrite forallb_forall in H. specialize (H _ I). rewrite N.eqb_refl in H. discriminate H. Qed.

Theorem new_succeeds : forall o name f, Forall scalar name -> no 47 name -> present f (utf8 name) = false ->
  (forall r, present f (utf8 (name ++ lit "/" ++ r)) = false) -> (forall p, denied o p = false) ->
  exists os, new_project o name f = (os, Ok tt).
Proof.
  intros o name f S N P Q D. unfold new_project.
  set (A := utf8 (name ++ lit "/docs")). set (p1 := utf8 (name ++ lit "/docs/main.[]")). set (p2 := utf8 (name ++ lit "/Brack.toml")). set (p3 := utf8 (name ++ lit "/.gitignore")).
  assert (E : forall a b : path, a <> b -> str_eqb a b = false) by (intros a b X; apply str_eqb_neq; exact X).
  assert (C1 : create_dir o (utf8 name) f = ([Mkdir (utf8 name)], Ok tt)).
  { unfold create_dir. rewrite P, D, (parent_none (utf8 name)) by (apply utf8_no; [lia|exact S|exact N]). reflexivity. }
  rewrite (ibind_step _ _ f _ tt C1). cbn [apply_all fold_left].
  assert (PA : parent A = utf8 name) by (apply (parent_name name (lit "docs")); [apply lit_scalar; reflexivity|apply lit_no; reflexivity]).
  assert (C2 : create_dir o A (apply f (Mkdir (utf8 name))) = ([Mkdir A], Ok tt)).
  { unfold create_dir. rewrite D, PA. unfold present. cbn [apply file dir]. rewrite str_eqb_refl.
    pose proof (Q (lit "docs")) as Y. unfold present in Y. change (lit "/" ++ lit "docs") with (lit "/docs") in Y. fold A in Y.
    destruct (file f A); [discriminate Y|]. rewrite Y. rewrite (E (utf8 name) A) by (unfold A; neqs). rewrite orb_true_r. reflexivity. }
  rewrite (ibind_step _ _ _ _ tt C2). cbn [apply_all fold_left].
  set (g := apply (apply f (Mkdir (utf8 name))) (Mkdir A)).
  assert (Dg : dir g (utf8 name) = true /\ dir g A = true).
  { unfold g. cbn [apply dir]. rewrite !str_eqb_refl. split; [|reflexivity]. apply orb_true_r. }
  assert (Fg : forall r, utf8 (name ++ lit "/" ++ r) <> A -> dir g (utf8 (name ++ lit "/" ++ r)) = false).
  { intros r X. unfold g. cbn [apply dir]. rewrite (E A) by congruence. pose proof (Q r) as Y. unfold present in Y.
    destruct (file f _); [discriminate Y|]. rewrite Y. rewrite E; [reflexivity|]. rewrite utf8_app. intro Z. rewrite <- (app_nil_r (utf8 name)) in Z at 1.
    apply app_inv_head in Z. rewrite utf8_app in Z. discriminate Z. }
  assert (W : forall r h, (forall p, dir h p = dir g p) -> utf8 (name ++ lit "/" ++ r) <> A ->
     (parent (utf8 (name ++ lit "/" ++ r)) = utf8 name \/ parent (utf8 (name ++ lit "/" ++ r)) = A) -> writable o h (utf8 (name ++ lit "/" ++ r))).
  { intros r h H X Pa. split; [right; rewrite H; destruct Pa as [-> | ->]; apply Dg|]. split; [rewrite H; apply Fg; exact X|apply D]. }
  assert (N1 : p1 <> A) by (unfold A; neqs). assert (N2 : p2 <> A) by (unfold A; neqs). assert (N3 : p3 <> A) by (unfold A; neqs).
  assert (W1 : writable o g p1).
  { apply (W (lit "docs/main.[]") g); [reflexivity|exact N1|]. right.
    change (parent (utf8 (name ++ lit "/docs" ++ lit "/" ++ lit "main.[]")) = A). rewrite app_assoc.
    apply (parent_name (name ++ lit "/docs")); [apply lit_scalar; reflexivity|apply lit_no; reflexivity]. }
  rewrite (ibind_step _ _ g _ tt (write_file_ok o p1 [] g W1)).
  set (g1 := apply_all g (writes p1 [])).
  assert (W2 : writable o g1 p2).
  { apply (W (lit "Brack.toml") g1); [intro p; apply writes_dir|exact N2|]. left. apply parent_name; [apply lit_scalar; reflexivity|apply lit_no; reflexivity]. }
  rewrite (ibind_step _ _ g1 _ tt (write_file_ok o p2 _ g1 W2)).
  match goal with |- context [apply_all g1 ?x] => set (g2 := apply_all g1 x) end.
  assert (W3 : writable o g2 p3).
  { apply (W (lit ".gitignore") g2); [intro p; unfold g2; rewrite writes_dir; apply writes_dir|exact N3|]. left. apply parent_name; [apply lit_scalar; reflexivity|apply lit_no; reflexivity]. }
  rewrite (write_file_ok o p3 _ g2 W3). eexists. reflexivity.
Qed.

(** After being killed, it cannot be run again. *)
Theorem new_killed : forall o o2 name f f', killed (new_project o name) f f' ->
  same_files f f' \/ (exists e, new_project o2 name f' = ([], Err e)).
Proof.
  intros o o2 name f f' (before & rest & E & ->).
  assert (G : exists r, fst (new_project o name f) = [] \/ fst (new_project o name f) = Mkdir (utf8 name) :: r).
  { unfold new_project. match goal with |- context [ibind _ ?k f] => generalize k end. intro k. unfold ibind, create_dir.
    match goal with |- context [if ?b then _ else _] => destruct b end; [exists []; left; reflexivity|]. destruct (k tt _) as [r x]. exists r. right. reflexivity. }
  destruct G as [r [G|G]]; rewrite G in E.
  - destruct before; [left; split; reflexivity|discriminate E].
  - destruct before as [|b before]; [left; split; reflexivity|]. injection E as Eb E. subst b. right.
    assert (K : forall os h, Forall (fun x => forall p, x <> RemoveAll p) os -> dir h (utf8 name) = true -> dir (apply_all h os) (utf8 name) = true).
    { induction os as [|x os IH]; intros h F D; [exact D|]. inversion F; subst. cbn [apply_all fold_left]. apply IH; [assumption|].
      destruct x; cbn [apply dir]; try exact D; [rewrite D; apply orb_true_r|exfalso; eapply H1; reflexivity]. }
    apply new_exists. unfold present.
    assert (D : dir (apply_all f (Mkdir (utf8 name) :: before)) (utf8 name) = true).
    { cbn [apply_all fold_left]. apply K; [|cbn [apply dir]; rewrite str_eqb_refl; reflexivity].
      assert (A : Forall (fun x => forall p, x <> RemoveAll p) (fst (new_project o name f))).
      { assert (L : forall (m : io unit) (k : unit -> io unit) h, Forall (fun x => forall p, x <> RemoveAll p) (fst (m h)) ->
            (forall h', Forall (fun x => forall p, x <> RemoveAll p) (fst (k tt h'))) -> Forall (fun x => forall p, x <> RemoveAll p) (fst (ibind m k h))).
        { intros m k h H1 H2. unfold ibind. destruct (m h) as [os [[]| | |]]; cbn [fst] in *; try exact H1. specialize (H2 (apply_all h os)).
          destruct (k tt (apply_all h os)). cbn [fst] in *. apply Forall_app. split; assumption. }
        assert (L1 : forall p h, Forall (fun x => forall p, x <> RemoveAll p) (fst (create_dir o p h))).
        { intros p h. unfold create_dir. match goal with |- context [if ?b then _ else _] => destruct b end; [constructor|]. constructor; [intros q X; discriminate X|constructor]. }
        assert (L2 : forall p b h, Forall (fun x => forall p, x <> RemoveAll p) (fst (write_file o p b h))).
        { intros p b h. unfold write_file. match goal with |- context [if ?b then _ else _] => destruct b end; [|constructor]. constructor; [intros q X; discriminate X|].
          induction b; constructor; [intros q X; discriminate X|assumption]. }
        unfold new_project. repeat (apply L; [first [apply L1|apply L2]|intro]). apply L2. }
      rewrite G in A. rewrite E in A. inversion A as [|? ? _ A']; subst. apply Forall_app in A'. apply A'. }
    rewrite D. destruct (file _ _); reflexivity.
Qed.

(** ** Adding, then building *)
Lemma add_dirs : forall t o s f os, add_plugin t o s f = (os, Ok tt) -> forall p, p <> lit "plugins" -> dir (apply_all f os) p = dir f p.
Proof.
  intros t o s f os E p N. destruct (add_cases t o s f) as [[_ X]|(owner & repo & version & c & rn & _ & _ & _ & _ & [[X _]|(body & out & _ & _ & X)])].
  - exfalso. apply (X tt). rewrite E. reflexivity.
  - exfalso. apply (X tt). rewrite E. reflexivity.
  - rewrite E in X. apply (f_equal fst) in X. cbn [fst] in X. rewrite X. match goal with |- dir (apply_all f (?r :: ?x)) p = _ => change (dir (apply_all f x) p = dir f p) end.
    rewrite !apply_all_app, !writes_dir. unfold make_plugins. destruct (dir f (lit "plugins")); [reflexivity|]. cbn [apply_all fold_left apply dir].
    destruct (str_eqb (lit "plugins") p) eqn:Q; [apply str_eqb_eq in Q; exfalso; apply N; symmetry; exact Q|]. reflexivity.
Qed.

Theorem add_downloads_again : forall shown t o owner repo version c f os,
  toml_law t -> config_storable c -> Forall scalar (github owner repo version) ->
  no 47 owner -> no 58 owner -> no 64 owner -> no 47 repo -> no 64 repo -> repo <> [] -> no 64 version ->
  snd (load_brack_toml t f) = Ok c -> add_plugin t o (github owner repo version) f = (os, Ok tt) ->
  let name := before_dot repo in let s := hookless owner repo version in
  present f (cache_path shown name s) = false ->
  exists c', snd (load_brack_toml t (apply_all f os)) = Ok c' /\ In (name, s) (entries c') /\
    forall o2 order t2, In (plugin_url (d_backend (c_document c)) name s)
      (requests (fst (download_plugins_using_config shown o2 order c' t2 (apply_all f os)))).
Proof.
  intros shown t o owner repo version c f os T CS Sc A1 A2 A3 A4 A5 A6 A7 L E name s P.
  destruct (add_records t o owner repo version c f os T CS Sc A1 A2 A3 A4 A5 A6 A7 L E) as (_ & L' & _ & _ & F).
  exists (with_entry c name s). split; [exact L'|]. split; [unfold with_entry; cbn; apply in_or_app; right; left; reflexivity|].
  intros o2 order t2. rewrite (download_requests shown o2 order (with_entry c name s) (entries c ++ [(name, s)]) t2 _ eq_refl).
  apply in_map_iff. exists (name, s). split; [reflexivity|]. apply filter_In. split; [apply in_or_app; right; left; reflexivity|].
  unfold missing. cbn [fst snd].
  assert (SR : Forall scalar repo) by (unfold github in Sc; rewrite !Forall_app in Sc; apply Sc).
  assert (X : present (apply_all f os) (cache_path shown name s) = present f (cache_path shown name s)).
  { unfold present. rewrite (add_dirs t o _ f os E) by apply cache_not_plugins. rewrite F; [reflexivity| |].
    - intro Y. pose proof (cache_below shown name s) as B. rewrite Y in B. discriminate B.
    - intro Y. symmetry in Y. exact (added_not_cached shown repo s SR Y). }
  rewrite X, P. reflexivity.
Qed.

(** ** `build` as a whole *)
Theorem built : forall seg uuid checks w t shown o order wasm docs outs_of f os,
  build_command seg uuid checks w t shown o order wasm docs outs_of f = (os, Ok tt) ->
  (forall c ps, snd (load_brack_toml t f) = Ok c -> c_plugins c = Some ps ->
     all_end order ps /\ NoDup (map fst ps) /\ Forall (fun e : str * schema => Forall scalar (fst e)) ps) ->
  (forall g names, docs g = Some names -> NoDup names) ->
  exists c tab f1 names pv ps outs h', snd (load_brack_toml t f) = Ok c /\
    (forall n s, In (n, s) (entries c) -> hm_get str_eqb tab n = Some (cache_path shown n s, schema_flags s)) /\
    (forall n, ~ In n (map fst (entries c)) -> hm_get str_eqb tab n = None) /\
    (forall n s, In (n, s) (entries c) -> present f (cache_path shown n s) = false ->
       exists b, serves o (plugin_url (d_backend (c_document c)) n s) b /\ file f1 (cache_path shown n s) = Some b) /\
    (forall p, present f p = true -> file f1 p = file f p) /\
    docs f1 = Some names /\ open_plugins wasm tab f1 = ([], Ok pv) /\ plugins_new pv = Ok ps /\
    compiled seg uuid checks w ps f1 O names [] outs h' /\
    (forall stem, In stem (map fst outs) <-> stem <> [] /\ Forall scalar stem /\ In (utf8 stem ++ lit ".[]") names) /\
    (forall stem gen, In (stem, gen) outs -> file (apply_all f os) (out_file (d_backend (c_document c)) stem) = Some (utf8 gen)).
Proof.
  intros seg uuid checks w t shown o order wasm docs outs_of f os E Hc Hd. unfold build_command in E.
  apply ibind_ok in E as (o1 & c & o1' & E1 & E & ->). apply ibind_ok in E as (o2 & tab & o3 & E2 & E3 & ->).
  assert (o1 = []).
  { unfold load_brack_toml in E1. apply ibind_ok in E1 as (a & b & d & X & Y & ->). unfold read_to_string in X. unfold done in Y. apply (f_equal fst) in X, Y. cbn [fst] in X, Y. subst a d. reflexivity. }
  subst o1. cbn [apply_all fold_left app] in *. change (fold_left apply o2 f) with (apply_all f o2) in E3. change (fold_left apply (o2 ++ o3) f) with (apply_all f (o2 ++ o3)).
  set (f1 := apply_all f o2) in *. assert (L : snd (load_brack_toml t f) = Ok c) by (rewrite E1; reflexivity).
  destruct (build_outputs seg uuid checks w o wasm outs_of (d_backend (c_document c)) (docs f1) tab f1 o3 E3 (Hd f1))
    as (names & pv & ps & outs & h' & D & Op & P & C & St & F & _).
  exists c, tab, f1, names, pv, ps, outs, h'.
  assert (K : forall p, present f p = true -> file f1 p = file f p).
  { intros p Pp. pose proof (download_keeps shown o order c [] f p) as H. unfold after in H. rewrite E2 in H. apply H; [|exact Pp].
    intros qs Q. apply (Hc c qs L Q). }
  assert (T : (forall n s, In (n, s) (entries c) -> hm_get str_eqb tab n = Some (cache_path shown n s, schema_flags s)) /\
    (forall n, ~ In n (map fst (entries c)) -> hm_get str_eqb tab n = None) /\
    (forall n s, In (n, s) (entries c) -> present f (cache_path shown n s) = false ->
       exists b, serves o (plugin_url (d_backend (c_document c)) n s) b /\ file f1 (cache_path shown n s) = Some b)).
  { unfold entries. destruct (c_plugins c) as [qs|] eqn:Q.
    - destruct (Hc c qs L Q) as (A & ND & Sc). destruct (downloaded shown o order c qs [] f o2 tab Q A ND Sc E2) as (H1 & H2 & _).
      split; [intros n s I; apply (H1 n s I)|]. split; [intros n I; rewrite (H2 n I); reflexivity|]. intros n s I. apply (H1 n s I).
    - unfold download_plugins_using_config in E2. rewrite Q in E2. injection E2 as _ <-. split; [intros n s []|]. split; [reflexivity|intros n s []]. }
  destruct T as (T1 & T2 & T3).
  split; [exact L|]. split; [exact T1|]. split; [exact T2|]. split; [exact T3|]. split; [exact K|]. split; [exact D|]. split; [exact Op|].
  split; [exact P|]. split; [exact C|]. split; [exact St|].
  intros stem gen I. rewrite apply_all_app. apply F. exact I.
Qed.

(** ** Other levels *)
Theorem levels_other : forall seg uuid checks w ps s h,
  (forall ts c a es, tokenize_str seg s = Ok ts -> parse ts = Ok c -> transform uuid c = Ok (a, es) -> es <> [] ->
     output seg uuid checks w ps 3 false (Ok s) h = (Ok (PErrors es), h)) /\
  (exists e, output seg uuid checks w ps 5 true (Ok s) h = (Err e, h)) /\
  (forall n json, (n = 0 \/ n > 5)%N -> exists e, output seg uuid checks w ps n json (Ok s) h = (Err e, h)).
Proof.
  intros seg uuid checks w ps s h. split; [|split].
  - intros ts c a es T P R N. unfold output, mbind, ret. rewrite T, P, R. destruct es; [exfalso; apply N; reflexivity|]. reflexivity.
  - eexists. reflexivity.
  - intros n json H. destruct n as [|p]; [eexists; reflexivity|].
    destruct p as [[[]|[]|]|[[]|[]|]|]; try (eexists; reflexivity); exfalso; destruct H as [H|H]; try discriminate H; vm_compute in H; discriminate H.
Qed.
