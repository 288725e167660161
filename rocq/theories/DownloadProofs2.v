(** What downloads leave behind. *)
From Coq Require Import String List NArith Arith Bool Lia Permutation.
From Verif Require Import Base Plugin Utf8 Framing Serde Project SpecProject PluginProofs CacheProofs DownloadProofs.
Import ListNotations.

Lemma all_writes_other : forall o ks f q, (forall k, In k ks -> task_path k <> q) -> file (apply_all f (all_writes o ks)) q = file f q.
Proof.
  intros o ks. induction ks as [|k ks IH]; intros f q N; [reflexivity|]. cbn [all_writes flat_map]. rewrite apply_all_app.
  fold (all_writes o ks). rewrite IH by (intros k' I; apply N; right; exact I). rewrite writes_file.
  destruct (str_eqb (task_path k) q) eqn:E; [|reflexivity]. apply str_eqb_eq in E. exfalso. apply (N k); [left; reflexivity|exact E].
Qed.
Lemma all_writes_in : forall o ks f k, NoDup (map task_path ks) -> In k ks ->
  file (apply_all f (all_writes o ks)) (task_path k) = Some (body o k).
Proof.
  intros o ks. induction ks as [|x ks IH]; intros f k D I; [destruct I|]. cbn [map] in D. inversion D as [|? ? N D']; subst.
  cbn [all_writes flat_map]. rewrite apply_all_app. fold (all_writes o ks). destruct I as [<-|I]; [|apply IH; assumption].
  rewrite all_writes_other.
  - rewrite writes_file, str_eqb_refl. reflexivity.
  - intros k I E. apply N. rewrite <- E. apply in_map. exact I.
Qed.
(** A beginning of several writes. *)
Lemma all_writes_begun : forall o ks before rest f q, all_writes o ks = before ++ rest ->
  dir (apply_all f before) q = dir f q /\
  (file (apply_all f before) q = file f q \/
   exists k n, In k ks /\ task_path k = q /\ file (apply_all f before) q = Some (firstn n (body o k))).
Proof.
  intros o ks. induction ks as [|k ks IH]; intros before rest f q H.
  - destruct before; [|discriminate]. split; [reflexivity|left; reflexivity].
  - cbn [all_writes flat_map] in H. fold (all_writes o ks) in H. apply app_eq_app in H as (l & [[H E]|[H E]]).
    + destruct (writes_begun _ _ _ _ f q H) as [D [[P [B|[n B]]]|[P B]]]; (split; [exact D|]).
      * left. exact B.
      * right. exists k, n. repeat split; [left; reflexivity|exact P|exact B].
      * left. exact B.
    + rewrite H, apply_all_app. destruct (IH l rest (apply_all f (writes (task_path k) (body o k))) q E) as [D B].
      rewrite writes_dir in D. split; [exact D|]. destruct B as [B|(k' & n & I & P & B)].
      * rewrite writes_file in B. destruct (str_eqb (task_path k) q) eqn:X; [|left; exact B].
        apply str_eqb_eq in X. right. exists k, (length (body o k)). rewrite firstn_all. repeat split; [left; reflexivity|exact X|exact B].
      * right. exists k', n. repeat split; [right; exact I|exact P|exact B].
Qed.

Lemma enter_get : forall ks t n,
  ~ In n (map task_name ks) -> hm_get str_eqb (fold_left enter ks t) n = hm_get str_eqb t n.
Proof.
  induction ks as [|k ks IH]; intros t n N; [reflexivity|]. cbn [fold_left]. rewrite IH by (intro; apply N; right; assumption).
  unfold enter. rewrite hm_get_insert. destruct (str_eqb n (task_name k)) eqn:E; [|reflexivity].
  apply str_eqb_eq in E. exfalso. apply N. left. congruence.
Qed.
Lemma enter_in : forall ks t k, NoDup (map task_name ks) -> In k ks ->
  hm_get str_eqb (fold_left enter ks t) (task_name k) = Some (task_path k, task_flags k).
Proof.
  induction ks as [|x ks IH]; intros t k D I; [destruct I|]. cbn [map] in D. inversion D as [|? ? N D']; subst. cbn [fold_left].
  destruct I as [<-|I]; [|apply IH; assumption]. rewrite enter_get by exact N. unfold enter. rewrite hm_get_insert, str_eqb_refl. reflexivity.
Qed.

Lemma nodup_filter : forall {A B} (g : A -> B) p l, NoDup (map g l) -> NoDup (map g (filter p l)).
Proof.
  intros A B g p l. induction l as [|x l IH]; intro D; [constructor|]. cbn [map] in D. inversion D as [|? ? N D']; subst.
  cbn [filter]. destruct (p x); [|auto]. cbn [map]. constructor; [|auto]. intro I. apply N.
  apply in_map_iff in I as (y & E & I). apply filter_In in I as [I _]. apply in_map_iff. eauto.
Qed.

Section Download.
  Variable shown : N -> bool.
  Notation cached := (fun e : str * schema => cache_path shown (fst e) (snd e)).

  Lemma cached_nodup : forall ps, NoDup (map fst ps) -> Forall (fun e : str * schema => Forall scalar (fst e)) ps -> NoDup (map cached ps).
  Proof.
    intros ps. induction ps as [|[n s] ps IH]; intros D F; [constructor|]. cbn [map fst snd] in *.
    inversion D as [|? ? N D']; subst. inversion F as [|? ? F1 F']; subst. cbn [fst] in F1.
    constructor; [|apply IH; assumption]. intro I. apply in_map_iff in I as ([n' s'] & E & I). cbn [fst snd] in E. apply N.
    apply cache_path_name in E as [-> _]; [|rewrite Forall_forall in F'; apply (F' _ I)|exact F1].
    apply in_map_iff. exists (n, s'). auto.
  Qed.
  Lemma task_names : forall backend ps, map task_name (map (task_of shown backend) ps) = map fst ps.
  Proof. intros. rewrite map_map. reflexivity. Qed.
  Lemma task_paths : forall backend ps, map task_path (map (task_of shown backend) ps) = map cached ps.
  Proof. intros. rewrite map_map. reflexivity. Qed.

  Lemma requests_app : forall a b, requests (a ++ b) = requests a ++ requests b.
  Proof. intros. apply flat_map_app. Qed.
  Lemma requests_writes : forall p b, requests (writes p b) = [].
  Proof. intros p b. cbn [writes requests flat_map app]. induction b as [|x b IH]; [reflexivity|]. exact IH. Qed.
  Lemma requests_requested : forall ks, requests (requested ks) = map task_url ks.
  Proof. induction ks as [|k ks IH]; [reflexivity|]. cbn. f_equal. exact IH. Qed.
  Lemma requests_store : forall o rs t f, requests (fst (store o rs t f)) = [].
  Proof.
    intros o rs. induction rs as [|[k [r|]] rs IH]; intros t f; cbn [store]; [reflexivity| |reflexivity].
    unfold ibind at 1, done at 1. destruct r as [c| | |]; try reflexivity. unfold ibind.
    destruct (write_file o (task_path k) c _) as [os r] eqn:W.
    assert (R : requests os = []).
    { unfold write_file in W. destruct (_ && _); injection W as <- _; [apply requests_writes|reflexivity]. }
    destruct r as [[]| | |]; try (cbn [fst app]; exact R). specialize (IH (hm_insert str_eqb t (task_name k) (task_path k, task_flags k))
      (apply_all (apply_all f []) os)). destruct (store o rs _ _) as [os' r']. cbn [fst app] in *. rewrite requests_app, R, IH. reflexivity.
  Qed.

  (** Whatever happens, the plugins asked for are those whose file is not there. *)
  Theorem download_requests : forall o order c ps t f, c_plugins c = Some ps ->
    requests (fst (download_plugins_using_config shown o order c t f))
    = map (fun e => plugin_url (d_backend (c_document c)) (fst e) (snd e)) (filter (missing shown f) ps).
  Proof.
    intros o order c ps t f P. unfold download_plugins_using_config. rewrite P.
    pose proof (start_tasks_tasks shown (d_backend (c_document c)) ps f t) as E.
    destruct (start_tasks shown (d_backend (c_document c)) ps f t) as [ts t']. cbn [fst] in E. subst ts. unfold ibind.
    set (rs := combine _ _). clearbody rs. cbn [app].
    match goal with |- context [store o rs t' ?g] => pose proof (requests_store o rs t' g) as R; destruct (store o rs t' g) as [os r] end.
    cbn [fst] in *. rewrite requests_app, R, app_nil_r.
    change (map (fun k => Request (task_url k)) ?l) with (requested l). rewrite requests_requested, map_map. reflexivity.
  Qed.

  Lemma fine_task : forall o f backend e, fine o f (task_of shown backend e) <->
    (exists b, serves o (plugin_url backend (fst e) (snd e)) b) /\ writable o f (cached e).
  Proof.
    intros o f backend e. unfold fine, task_of. cbn [task_url task_path]. split; intros [[b B] W]; (split; [exists b|exact W]).
    - apply fetched_serves. exact B.
    - apply fetched_serves. exact B.
  Qed.

  (** When a download succeeds. *)
  Theorem download_ok_iff : forall o order c ps t f, c_plugins c = Some ps -> all_end order ps ->
    ((exists t', snd (download_plugins_using_config shown o order c t f) = Ok t') <->
     forall n s, In (n, s) ps -> present f (cache_path shown n s) = false ->
       (exists b, serves o (plugin_url (d_backend (c_document c)) n s) b) /\ writable o f (cache_path shown n s)).
  Proof.
    intros o order c ps t f P A. rewrite (download_run shown o order c ps t f P A).
    set (t0 := snd (start_tasks _ _ _ _ _)). clearbody t0. set (ks := map (task_of _ _) _).
    assert (I : Forall (fine o f) ks <-> forall n s, In (n, s) ps -> present f (cache_path shown n s) = false ->
       (exists b, serves o (plugin_url (d_backend (c_document c)) n s) b) /\ writable o f (cache_path shown n s)).
    { unfold ks. rewrite Forall_forall. split.
      - intros H n s I M. apply (fine_task o f _ (n, s)). apply H. apply in_map. apply filter_In. split; [exact I|].
        unfold missing. cbn [fst snd]. rewrite M. reflexivity.
      - intros H k I. apply in_map_iff in I as ([n s] & <- & I). apply filter_In in I as [I M]. apply fine_task. cbn [fst snd].
        apply H; [exact I|]. apply negb_true_iff in M. exact M. }
    rewrite <- I. destruct (fine_cases o f ks) as [F|(a & k & b & E & F & N)].
    - rewrite store_all by exact F. split; [intros _; exact F|]. intros _. eexists. reflexivity.
    - rewrite E. destruct (store_stop o a k b f t0 F N) as [e S]. rewrite S. split.
      + intros [t' H]. discriminate.
      + intro G. exfalso. apply N. rewrite Forall_forall in G. apply G. apply in_or_app. right. left. reflexivity.
  Qed.

  (** What a download that succeeds leaves. *)
  Theorem downloaded : forall o order c ps t f os t', c_plugins c = Some ps -> all_end order ps ->
    NoDup (map fst ps) -> Forall (fun e : str * schema => Forall scalar (fst e)) ps ->
    download_plugins_using_config shown o order c t f = (os, Ok t') ->
    (forall n s, In (n, s) ps ->
       hm_get str_eqb t' n = Some (cache_path shown n s, schema_flags s) /\
       present (apply_all f os) (cache_path shown n s) = true /\
       (present f (cache_path shown n s) = true ->
          file (apply_all f os) (cache_path shown n s) = file f (cache_path shown n s)) /\
       (present f (cache_path shown n s) = false ->
          exists b, serves o (plugin_url (d_backend (c_document c)) n s) b /\
                    file (apply_all f os) (cache_path shown n s) = Some b)) /\
    (forall n, ~ In n (map fst ps) -> hm_get str_eqb t' n = hm_get str_eqb t n) /\
    (forall p, (forall n s, In (n, s) ps -> cache_path shown n s <> p) -> file (apply_all f os) p = file f p) /\
    (forall p, dir (apply_all f os) p = dir f p).
  Proof.
    intros o order c ps t f os t' P A D V H. rewrite (download_run shown o order c ps t f P A) in H.
    set (ks := map (task_of _ _) _) in H. destruct (fine_cases o f ks) as [F|(a & k & b & E & F & N)]; cycle 1.
    { rewrite E in H. destruct (store_stop o a k b f (snd (start_tasks shown (d_backend (c_document c)) ps f t)) F N) as [e S]. rewrite S in H. discriminate. }
    rewrite store_all in H by exact F. injection H as <- <-. rewrite apply_all_app, requested_fs.
    assert (Dn : NoDup (map task_name ks)) by (unfold ks; rewrite task_names; apply nodup_filter; exact D).
    assert (Dp : NoDup (map task_path ks)) by (unfold ks; rewrite task_paths; apply nodup_filter; apply cached_nodup; assumption).
    repeat split.
    - (* table *)
      destruct (present f (cache_path shown n s)) eqn:M.
      + rewrite enter_get.
        * rewrite (start_tasks_table shown _ ps f t n s D H), M. reflexivity.
        * unfold ks. rewrite task_names. intro I. apply in_map_iff in I as ([n' s'] & E & I). cbn [fst] in E. subst n'.
          apply filter_In in I as [I X]. unfold missing in X. cbn [fst snd] in X. apply negb_true_iff in X.
          assert (S : s' = s).
          { clear -D H I. induction ps as [|[m u] ps IH]; [destruct I|]. cbn [map fst] in D. inversion D as [|? ? N D']; subst.
            destruct I as [I|I], H as [H|H]; [congruence| | |auto].
            - injection I as -> ->. exfalso. apply N. apply in_map_iff. exists (n, s). auto.
            - injection H as -> ->. exfalso. apply N. apply in_map_iff. exists (n, s'). auto. }
          subst s'. congruence.
      + assert (I : In (task_of shown (d_backend (c_document c)) (n, s)) ks).
        { unfold ks. apply in_map. apply filter_In. split; [exact H|]. unfold missing. cbn [fst snd]. rewrite M. reflexivity. }
        exact (enter_in ks _ _ Dn I).
    - unfold present. destruct (present f (cache_path shown n s)) eqn:M.
      + rewrite all_writes_other; cycle 1.
        { intros k I. unfold ks in I. apply in_map_iff in I as (e & <- & I). apply filter_In in I as [_ X].
          unfold missing in X. apply negb_true_iff in X. cbn [task_path task_of]. intro E. cbn beta in E. rewrite E in X. congruence. }
        rewrite all_writes_dir. exact M.
      + assert (I : In (task_of shown (d_backend (c_document c)) (n, s)) ks).
        { unfold ks. apply in_map. apply filter_In. split; [exact H|]. unfold missing. cbn [fst snd]. rewrite M. reflexivity. }
        pose proof (all_writes_in o ks f _ Dp I) as W. cbn [task_path task_of fst snd] in W. rewrite W. reflexivity.
    - intro M. apply all_writes_other.
      intros k I. unfold ks in I. apply in_map_iff in I as (e & <- & I). apply filter_In in I as [_ X].
      unfold missing in X. apply negb_true_iff in X. cbn [task_path task_of]. intro E. rewrite E in X. congruence.
    - intro M. assert (I : In (task_of shown (d_backend (c_document c)) (n, s)) ks).
      { unfold ks. apply in_map. apply filter_In. split; [exact H|]. unfold missing. cbn [fst snd]. rewrite M. reflexivity. }
      pose proof (all_writes_in o ks f _ Dp I) as W. cbn [task_path task_of fst snd] in W.
      rewrite Forall_forall in F. destruct (F _ I) as [[b B] _]. exists b. split.
      + apply fetched_serves. exact B.
      + rewrite W. unfold body. rewrite B. reflexivity.
    - intros n N. rewrite enter_get.
      + apply start_tasks_other. exact N.
      + unfold ks. rewrite task_names. intro I. apply N. apply in_map_iff in I as (e & E & I). apply filter_In in I as [I _].
        apply in_map_iff. eauto.
    - intros p N. apply all_writes_other. intros k I. unfold ks in I. apply in_map_iff in I as ([n s] & <- & I).
      apply filter_In in I as [I _]. apply (N n s I).
    - intro p. apply all_writes_dir.
  Qed.

  (** Killed, at any moment. *)
  Theorem download_killed : forall o order c ps t f f', c_plugins c = Some ps -> all_end order ps ->
    killed (download_plugins_using_config shown o order c t) f f' ->
    forall p, dir f' p = dir f p /\
      (file f' p = file f p \/
       exists n s b m, In (n, s) ps /\ p = cache_path shown n s /\ present f p = false /\
         serves o (plugin_url (d_backend (c_document c)) n s) b /\ file f' p = Some (firstn m b)).
  Proof.
    intros o order c ps t f f' P A (before & rest & H & ->) p. rewrite (download_run shown o order c ps t f P A) in H.
    set (ks := map (task_of _ _) _) in H. set (t0 := snd (start_tasks _ _ _ _ _)) in H. clearbody t0.
    assert (E : exists a b, ks = a ++ b /\ Forall (fine o f) a /\ fst (store o (map (told o) ks) t0 f) = all_writes o a).
    { destruct (fine_cases o f ks) as [F|(a & k & b & E & F & N)].
      - exists ks, []. rewrite app_nil_r, store_all by exact F. auto.
      - exists a, (k :: b). rewrite E. destruct (store_stop o a k b f t0 F N) as [e S]. rewrite S. auto. }
    destruct E as (a & b & E & F & W). destruct (store o (map (told o) ks) t0 f) as [os r]. cbn [fst] in *. subst os.
    assert (X : exists w rest', all_writes o a = w ++ rest' /\ apply_all f before = apply_all f w).
    { apply app_eq_app in H as (l & [[H G]|[H G]]).
      - exists [], (all_writes o a). split; [reflexivity|]. unfold requested in H. apply map_split in H. rewrite H.
        exact (requested_fs (firstn (length before) ks) f).
      - exists l, rest. split; [exact G|]. rewrite H, apply_all_app, requested_fs. reflexivity. }
    destruct X as (w & rest' & X & ->). destruct (all_writes_begun o a w rest' f p X) as [D [B|(k & n & I & K & B)]];
      (split; [exact D|]); [left; exact B|right].
    rewrite Forall_forall in F. destruct (F k I) as [[c' C] _].
    assert (I' : In k ks) by (rewrite E; apply in_or_app; left; exact I).
    unfold ks in I'. apply in_map_iff in I' as ([x s] & <- & I'). apply filter_In in I' as [I' M].
    exists x, s, c', n. repeat split.
    - exact I'.
    - symmetry. exact K.
    - unfold missing in M. apply negb_true_iff in M. rewrite <- K. exact M.
    - apply fetched_serves. exact C.
    - rewrite B. unfold body. rewrite C. reflexivity.
  Qed.

  (** What is there stays as it is. *)
  Theorem download_keeps : forall o order c t f p, (forall ps, c_plugins c = Some ps -> all_end order ps) ->
    present f p = true -> file (after (download_plugins_using_config shown o order c t) f) p = file f p.
  Proof.
    intros o order c t f p A M. destruct (c_plugins c) as [ps|] eqn:P.
    - destruct (download_killed o order c ps t f (after (download_plugins_using_config shown o order c t) f) P (A _ eq_refl)) with (p := p) as [_ [E|E]].
      + exists (fst (download_plugins_using_config shown o order c t f)), []. rewrite app_nil_r. auto.
      + exact E.
      + destruct E as (n & s & b & m & _ & _ & X & _). congruence.
    - unfold after, download_plugins_using_config. rewrite P. reflexivity.
  Qed.

  (** Each plugin whose file is fetched can be left with an empty file. *)
  Theorem download_poisons : forall o order c ps t f n s os t', c_plugins c = Some ps -> all_end order ps ->
    download_plugins_using_config shown o order c t f = (os, Ok t') -> In (n, s) ps -> present f (cache_path shown n s) = false ->
    exists f', killed (download_plugins_using_config shown o order c t) f f' /\ file f' (cache_path shown n s) = Some [].
  Proof.
    intros o order c ps t f n s os t' P A H I M. unfold killed. rewrite H. cbn [fst].
    rewrite (download_run shown o order c ps t f P A) in H.
    set (ks := map (task_of _ _) _) in H. destruct (fine_cases o f ks) as [F|(a & k & b & E & F & N)]; cycle 1.
    { rewrite E in H. destruct (store_stop o a k b f (snd (start_tasks shown (d_backend (c_document c)) ps f t)) F N) as [e S]. rewrite S in H. discriminate. }
    rewrite store_all in H by exact F. injection H as <- _.
    assert (K : In (task_of shown (d_backend (c_document c)) (n, s)) ks).
    { unfold ks. apply in_map. apply filter_In. split; [exact I|]. unfold missing. cbn [fst snd]. rewrite M. reflexivity. }
    apply in_split in K as (a & b & K). set (k := task_of _ _ _) in K.
    exists (apply_all f (requested ks ++ all_writes o a ++ [Create (task_path k)])). split.
    - exists (requested ks ++ all_writes o a ++ [Create (task_path k)]), (map (Append (task_path k)) (body o k) ++ all_writes o b).
      split; [|reflexivity]. rewrite <- !app_assoc. f_equal. rewrite K. unfold all_writes at 1. rewrite flat_map_app. reflexivity.
    - rewrite !apply_all_app. cbn [apply_all fold_left apply file]. change (cache_path shown n s) with (task_path k).
      rewrite str_eqb_refl. reflexivity.
  Qed.
End Download.

Lemma address_and_hooks : forall backend name s,
  plugin_url backend name s
  = concat [lit "https://github.com/"; s_owner s; lit "/"; s_repo s; lit "/releases/download/"; s_version s; lit "/"; name; lit "."; backend; lit ".wasm"] /\
  (document_hook (schema_flags s) = true <-> s_document_hook s = Some true) /\
  (stmt_hook (schema_flags s) = true <-> s_stmt_hook s = Some true) /\
  (expr_hook (schema_flags s) = true <-> s_expr_hook s = Some true) /\
  (text_hook (schema_flags s) = true <-> s_text_hook s = Some true).
Proof.
  intros backend name s. split; [unfold plugin_url; cbn [concat]; rewrite app_nil_r; reflexivity|].
  assert (K : forall o, is_set o = true <-> o = Some true) by (intros [[]|]; cbn; split; congruence).
  unfold schema_flags. cbn [document_hook stmt_hook expr_hook text_hook]. auto.
Qed.
