(** Consequences for several runs: changed backends, killed runs, hash maps in another order, cleared caches. *)
From Coq Require Import String List NArith Bool Lia Permutation.
From Verif Require Import Base Plugin Utf8 Json Serde Compile Sha256 Project SpecProject ProjectProofs CacheProofs
  DownloadProofs DownloadProofs2 AddProofs AddProofs2.
Import ListNotations.
#[local] Open Scope N_scope.

Lemma all_end_nil : forall ps : list (str * schema), all_end (seq 0 (length ps)) ps.
Proof. intros ps i H. apply in_seq. lia. Qed.

Section More.
  Variable shown : N -> bool.

  (** A run with everything in the cache. *)
  Theorem cached_run : forall o order c ps t f, c_plugins c = Some ps -> all_end order ps ->
    NoDup (map fst ps) -> Forall (fun e : str * schema => Forall scalar (fst e)) ps ->
    (forall n s, In (n, s) ps -> present f (cache_path shown n s) = true) ->
    exists t', download_plugins_using_config shown o order c t f = ([], Ok t') /\
      forall n s, In (n, s) ps -> hm_get str_eqb t' n = Some (cache_path shown n s, schema_flags s).
  Proof.
    intros o order c ps t f C A ND Sc P.
    assert (R : exists t', snd (download_plugins_using_config shown o order c t f) = Ok t').
    { apply (download_ok_iff shown o order c ps t f C A). intros n s I F. rewrite (P n s I) in F. discriminate F. }
    destruct R as [t' R]. destruct (download_plugins_using_config shown o order c t f) as [os r] eqn:E. cbn [snd] in R. subst r.
    exists t'. split.
    - f_equal. revert E. unfold download_plugins_using_config. rewrite C.
      assert (X : forall qs, incl qs ps -> forall t0, fst (start_tasks shown (d_backend (c_document c)) qs f t0) = []).
      { induction qs as [|[n s] qs IH]; intros Q t0; [reflexivity|]. cbn [start_tasks]. rewrite (P n s (Q _ (or_introl eq_refl))).
        apply IH. intros x Hx. apply Q. right. exact Hx. }
      specialize (X ps (incl_refl _) t). destruct (start_tasks shown (d_backend (c_document c)) ps f t) as [tasks t0]. cbn [fst] in X. subst tasks.
      cbn. intro E. injection E as E _. symmetry. exact E.
    - intros n s I. destruct (downloaded shown o order c ps t f os t' C A ND Sc E) as [H _]. apply H. exact I.
  Qed.

  (** ** Another backend *)
  Theorem backend_reused : forall o order c ps t f os t' c2 o2 order2 t2, c_plugins c = Some ps -> all_end order ps ->
    NoDup (map fst ps) -> Forall (fun e : str * schema => Forall scalar (fst e)) ps ->
    download_plugins_using_config shown o order c t f = (os, Ok t') ->
    c_plugins c2 = Some ps -> all_end order2 ps ->
    exists t2', download_plugins_using_config shown o2 order2 c2 t2 (apply_all f os) = ([], Ok t2') /\
      forall n s, In (n, s) ps -> hm_get str_eqb t2' n = Some (cache_path shown n s, schema_flags s) /\
        (present f (cache_path shown n s) = false ->
         exists b, serves o (plugin_url (d_backend (c_document c)) n s) b /\ file (apply_all f os) (cache_path shown n s) = Some b).
  Proof.
    intros o order c ps t f os t' c2 o2 order2 t2 C A ND Sc E C2 A2.
    destruct (downloaded shown o order c ps t f os t' C A ND Sc E) as [H _].
    destruct (cached_run o2 order2 c2 ps t2 (apply_all f os) C2 A2 ND Sc) as (t2' & E2 & T).
    { intros n s I. apply (H n s I). }
    exists t2'. split; [exact E2|]. intros n s I. split; [apply T; exact I|]. apply (H n s I).
  Qed.

  (** ** A killed run *)
  Theorem poisoned : forall o order c ps t f n s os t', c_plugins c = Some ps -> all_end order ps ->
    NoDup (map fst ps) -> Forall (fun e : str * schema => Forall scalar (fst e)) ps ->
    download_plugins_using_config shown o order c t f = (os, Ok t') -> In (n, s) ps -> present f (cache_path shown n s) = false ->
    exists f', killed (download_plugins_using_config shown o order c t) f f' /\ file f' (cache_path shown n s) = Some [] /\
      forall o2 order2 t2 os2 r2, all_end order2 ps -> download_plugins_using_config shown o2 order2 c t2 f' = (os2, r2) ->
        file (apply_all f' os2) (cache_path shown n s) = Some [] /\
        forall t2', r2 = Ok t2' -> hm_get str_eqb t2' n = Some (cache_path shown n s, schema_flags s).
  Proof.
    intros o order c ps t f n s os t' C A ND Sc E I P.
    destruct (download_poisons shown o order c ps t f n s os t' C A E I P) as (f' & K & F). exists f'. split; [exact K|]. split; [exact F|].
    intros o2 order2 t2 os2 r2 A2 E2. split.
    - pose proof (download_keeps shown o2 order2 c t2 f' (cache_path shown n s)) as H. unfold after in H. rewrite E2 in H. cbn [fst] in H.
      rewrite H; [exact F| |unfold present; rewrite F; reflexivity]. intros ps' C'. rewrite C in C'. injection C' as <-. exact A2.
    - intros t2' ->. destruct (downloaded shown o2 order2 c ps t2 f' os2 t2' C A2 ND Sc E2) as [H _]. apply (H n s I).
  Qed.

  (** ** The order of the hash map *)
  Lemma serves_fun : forall o u b b', serves o u b -> serves o u b' -> b = b'.
  Proof. intros o u b b' (s & E & _) (s' & E' & _). rewrite E in E'. injection E' as _ <-. reflexivity. Qed.

  Theorem map_order : forall o order order2 c c2 ps ps2 t f os t', c_plugins c = Some ps -> c_plugins c2 = Some ps2 ->
    c_document c2 = c_document c -> Permutation ps ps2 -> all_end order ps -> all_end order2 ps2 ->
    NoDup (map fst ps) -> Forall (fun e : str * schema => Forall scalar (fst e)) ps ->
    download_plugins_using_config shown o order c t f = (os, Ok t') ->
    exists os2 t2', download_plugins_using_config shown o order2 c2 t f = (os2, Ok t2') /\
      (forall n, hm_get str_eqb t2' n = hm_get str_eqb t' n) /\ same_files (apply_all f os) (apply_all f os2).
  Proof.
    intros o order order2 c c2 ps ps2 t f os t' C C2 D P A A2 ND Sc E.
    assert (ND2 : NoDup (map fst ps2)) by (eapply Permutation_NoDup; [apply Permutation_map; exact P|exact ND]).
    assert (Sc2 : Forall (fun e : str * schema => Forall scalar (fst e)) ps2) by (eapply Permutation_Forall; eassumption).
    assert (I2 : forall e, In e ps2 <-> In e ps) by (intro e; split; apply Permutation_in; [symmetry|]; exact P).
    assert (R : exists t2', snd (download_plugins_using_config shown o order2 c2 t f) = Ok t2').
    { apply (download_ok_iff shown o order2 c2 ps2 t f C2 A2). rewrite D. intros n s I.
      apply (proj1 (download_ok_iff shown o order c ps t f C A)); [exists t'; rewrite E; reflexivity|]. apply I2. exact I. }
    destruct R as [t2' R]. destruct (download_plugins_using_config shown o order2 c2 t f) as [os2 r] eqn:E2. cbn [snd] in R. subst r.
    exists os2, t2'. split; [reflexivity|].
    destruct (downloaded shown o order c ps t f os t' C A ND Sc E) as (H & Ho & Hf & Hd).
    destruct (downloaded shown o order2 c2 ps2 t f os2 t2' C2 A2 ND2 Sc2 E2) as (H2 & Ho2 & Hf2 & Hd2). split.
    - intro n. destruct (in_dec str_dec n (map fst ps)) as [I|I].
      + apply in_map_iff in I. destruct I as [[n' s] [<- I]]. cbn [fst]. destruct (H n' s I) as [-> _].
        destruct (H2 n' s (proj2 (I2 _) I)) as [-> _]. reflexivity.
      + rewrite (Ho n I). apply Ho2. intro X. apply I. eapply Permutation_in; [|exact X]. apply Permutation_map. symmetry. exact P.
    - split; [|intro p; rewrite Hd, Hd2; reflexivity]. intro p.
      destruct (in_dec str_dec p (map (fun e => cache_path shown (fst e) (snd e)) ps)) as [I|I].
      + apply in_map_iff in I. destruct I as [[n s] [<- I]]. cbn [fst snd]. destruct (H n s I) as (_ & _ & Hp & Ha).
        destruct (H2 n s (proj2 (I2 _) I)) as (_ & _ & Hp2 & Ha2).
        destruct (present f (cache_path shown n s)).
        * rewrite Hp, Hp2; reflexivity.
        * destruct (Ha eq_refl) as (b & S & ->). destruct (Ha2 eq_refl) as (b2 & S2 & ->). rewrite D in S2. f_equal. eapply serves_fun; eassumption.
      + rewrite Hf, Hf2; [reflexivity| |]; intros n s J X; apply I; apply in_map_iff; exists (n, s); [split; [exact X|apply I2; exact J]|split; assumption].
  Qed.

  (** ** Clearing *)
  Theorem cleared : forall o f,
    (dir f (lit "plugins") = false -> exists e, clear_plugins o f = ([], Err e)) /\
    (dir f (lit "plugins") = true -> denied o (lit "plugins") = false -> exists os, clear_plugins o f = (os, Ok []) /\
       dir (apply_all f os) (lit "plugins") = true /\
       (forall p, file (apply_all f os) p = if below (lit "plugins") p then None else file f p) /\
       forall p, p <> lit "plugins" -> dir (apply_all f os) p = if below (lit "plugins") p then false else dir f p).
  Proof.
    intros o f. split.
    - intro D. exists (lit "No such file or directory"). unfold clear_plugins, ibind. rewrite D. reflexivity.
    - intros D P. exists [RemoveAll (lit "plugins"); Mkdir (lit "plugins")]. split; [|split; [|split]].
      + unfold clear_plugins, ibind. rewrite D. unfold create_dir. rewrite P.
        assert (X : present (apply_all f [RemoveAll (lit "plugins")]) (lit "plugins") = false) by reflexivity. rewrite X. reflexivity.
      + reflexivity.
      + intro p. reflexivity.
      + intros p N. cbn [apply_all fold_left apply dir]. destruct (str_eqb (lit "plugins") p) eqn:Q; [apply str_eqb_eq in Q; exfalso; apply N; symmetry; exact Q|]. reflexivity.
  Qed.

  Lemma cache_below : forall n s, below (lit "plugins") (cache_path shown n s) = true.
  Proof.
    intros n s. unfold below. apply orb_true_iff. right. unfold cache_path.
    change (lit "plugins/" ++ n ++ lit "_" ++ hash_sha256 shown s ++ lit ".wasm")
      with (lit "plugins/" ++ (n ++ lit "_" ++ hash_sha256 shown s ++ lit ".wasm")). rewrite utf8_app.
    generalize (utf8 (n ++ lit "_" ++ hash_sha256 shown s ++ lit ".wasm")). intro r.
    change (utf8 (lit "plugins/")) with (lit "plugins" ++ lit "/"). rewrite firstn_app. reflexivity.
  Qed.
  Lemma cache_not_plugins : forall n s, cache_path shown n s <> lit "plugins".
  Proof.
    intros n s X. unfold cache_path in X.
    change (lit "plugins/" ++ n ++ lit "_" ++ hash_sha256 shown s ++ lit ".wasm")
      with (lit "plugins/" ++ (n ++ lit "_" ++ hash_sha256 shown s ++ lit ".wasm")) in X. rewrite utf8_app in X.
    revert X. generalize (utf8 (n ++ lit "_" ++ hash_sha256 shown s ++ lit ".wasm")). intros r X. discriminate X.
  Qed.

  Theorem cleared_requests : forall o f os t o2 order c ps t2, clear_plugins o f = (os, Ok t) -> c_plugins c = Some ps ->
    t = [] /\ requests (fst (download_plugins_using_config shown o2 order c t2 (apply_all f os)))
    = map (fun e => plugin_url (d_backend (c_document c)) (fst e) (snd e)) ps.
  Proof.
    intros o f os t o2 order c ps t2 E C. destruct (cleared o f) as [A B].
    destruct (dir f (lit "plugins")) eqn:D; [|destruct (A eq_refl) as [e X]; rewrite X in E; discriminate E].
    destruct (denied o (lit "plugins")) eqn:P.
    { exfalso. revert E. unfold clear_plugins, ibind. rewrite D. unfold create_dir. rewrite P, orb_true_r. cbn. discriminate. }
    destruct (B eq_refl eq_refl) as (os' & X & D1 & F1 & D2). rewrite X in E. injection E as <- <-. split; [reflexivity|].
    rewrite (download_requests shown o2 order c ps t2 _ C). f_equal.
    assert (Y : forall qs, filter (missing shown (apply_all f os')) qs = qs).
    { induction qs as [|[n s] qs IH]; [reflexivity|]. cbn [filter]. unfold missing at 1, present. cbn [fst snd].
      rewrite F1, D2 by apply cache_not_plugins. rewrite cache_below. cbn [negb]. rewrite IH. reflexivity. }
    apply Y.
  Qed.

  (** ** No directory for the plugins *)
  Lemma cache_parent : forall n s, Forall scalar n -> no 47 n -> parent (cache_path shown n s) = lit "plugins".
  Proof.
    intros n s Sc Nn. unfold cache_path.
    change (lit "plugins/" ++ n ++ lit "_" ++ hash_sha256 shown s ++ lit ".wasm")
      with (lit "plugins" ++ lit "/" ++ (n ++ lit "_" ++ hash_sha256 shown s ++ lit ".wasm")).
    rewrite !utf8_app. change (utf8 (lit "plugins")) with (lit "plugins"). change (utf8 (lit "/")) with (lit "/").
    apply parent_slash. rewrite <- !utf8_app. apply utf8_no; [lia| |].
    { rewrite !Forall_app. repeat split; [exact Sc|apply lit_scalar; reflexivity|apply digits_scalar; apply hash_shape|apply lit_scalar; reflexivity]. }
    intro X. rewrite !in_app_iff in X. destruct X as [X|[X|[X|X]]].
    - exact (Nn X).
    - revert X. clear. cbn. intuition discriminate.
    - destruct (sha256_shape (utf8 (debug_schema shown s))) as [_ H]. unfold hash_sha256 in X. rewrite Forall_forall in H. specialize (H _ X).
      revert H. clear. cbn. intuition discriminate.
    - revert X. clear. cbn. intuition discriminate.
  Qed.
  Theorem no_directory : forall o order c ps t f n s, c_plugins c = Some ps -> all_end order ps -> In (n, s) ps -> Forall scalar n -> no 47 n ->
    dir f (lit "plugins") = false -> present f (cache_path shown n s) = false ->
    forall t', snd (download_plugins_using_config shown o order c t f) <> Ok t'.
  Proof.
    intros o order c ps t f n s C A I Sc Nn D P t' X.
    destruct (proj1 (download_ok_iff shown o order c ps t f C A) (ex_intro _ t' X) n s I P) as [_ [[Q|Q] _]];
      rewrite (cache_parent n s Sc Nn) in Q; [discriminate Q|]. rewrite D in Q. discriminate Q.
  Qed.

  (** ** A file stored by [add_plugin] is not the one that is looked for *)
  Lemma before_dot_cases : forall R, before_dot R = R \/ exists r, R = before_dot R ++ 46 :: r.
  Proof.
    induction R as [|c R IH]; [left; reflexivity|]. cbn [before_dot]. destruct (N.eqb_spec c 46) as [->|Hc].
    - right. exists R. reflexivity.
    - destruct IH as [IH|[r IH]]; [left; rewrite IH; reflexivity|right; exists r; cbn [app]; rewrite <- IH; reflexivity].
  Qed.
  Theorem added_not_cached : forall R s, Forall scalar R -> added_file R <> cache_path shown (before_dot R) s.
  Proof.
    intros R s Sc X. unfold added_file, cache_path in X.
    assert (Sb : Forall scalar (before_dot R)).
    { destruct (before_dot_cases R) as [Y|[r Y]]; [rewrite Y; exact Sc|]. rewrite Y in Sc. apply Forall_app in Sc. apply Sc. }
    apply utf8_inj in X.
    - apply app_inv_head in X. rewrite app_assoc, app_assoc in X. apply app_inv_tail in X. rewrite <- app_assoc in X.
      destruct (before_dot_cases R) as [Y|[r Y]].
      + rewrite Y in X. assert (L : length R = length (R ++ lit "_" ++ hash_sha256 shown s)) by (rewrite <- X; reflexivity).
        rewrite app_length in L. cbn [lit app length] in L. revert L. change (lit "_" ++ hash_sha256 shown s) with (95 :: hash_sha256 shown s). cbn [length]. lia.
      + rewrite Y in X at 1. apply app_inv_head in X. discriminate X.
    - rewrite !Forall_app. repeat split; [apply lit_scalar; reflexivity|exact Sc|apply lit_scalar; reflexivity].
    - apply cache_name_scalar. exact Sb.
  Qed.
End More.

(** ** Schedules *)
Theorem completion_order : forall shown o order order2 c t f,
  (forall ps, c_plugins c = Some ps -> all_end order ps /\ all_end order2 ps) ->
  download_plugins_using_config shown o order c t f = download_plugins_using_config shown o order2 c t f.
Proof.
  intros shown o order order2 c t f H. destruct (c_plugins c) as [ps|] eqn:E.
  - destruct (H ps eq_refl) as [A B]. rewrite (download_run shown o order c ps t f E A), (download_run shown o order2 c ps t f E B). reflexivity.
  - unfold download_plugins_using_config. rewrite E. reflexivity.
Qed.

(** ** The order of fields *)
Theorem field_order : forall kvs kvs' s, Permutation kvs kvs' -> de_schema (JObj kvs) = Ok s -> de_schema (JObj kvs') = Ok s.
Proof.
  intros kvs kvs' s P H. apply schema_exact. apply schema_exact in H. destruct H as (A & B & C & D & E & F & G1 & G2 & G3 & G4).
  assert (I : forall x, In x kvs -> In x kvs') by (intro x; apply Permutation_in; exact P).
  assert (K : forall x, In x (map fst kvs') -> In x (map fst kvs)) by (intro x; apply Permutation_in; apply Permutation_map; symmetry; exact P).
  assert (L : forall n o, hook_field kvs n o -> hook_field kvs' n o).
  { intros n [b|] X; cbn [hook_field] in *; [apply I; exact X|]. intro Y. apply X. apply K. exact Y. }
  split; [eapply Permutation_NoDup; [apply Permutation_map; exact P|exact A]|]. split; [intros x X; apply B; apply K; exact X|].
  repeat split; first [apply I; assumption|apply L; assumption].
Qed.
Theorem not_a_table : forall j, (forall kvs, j <> JObj kvs) -> exists e, de_schema j = Err e.
Proof. intros [] H; try (eexists; reflexivity). exfalso. eapply H. reflexivity. Qed.
