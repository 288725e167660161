(** Downloading plugins. *)
From Coq Require Import String List NArith Arith Bool Lia Permutation.
From Verif Require Import Base Plugin Utf8 Framing Serde Project SpecProject PluginProofs CacheProofs.
Import ListNotations.

(** ** Hash maps *)
Lemma hm_get_insert : forall {V} (t : list (str * V)) k v n,
  hm_get str_eqb (hm_insert str_eqb t k v) n = if str_eqb n k then Some v else hm_get str_eqb t n.
Proof.
  intros V t k v n. induction t as [|[k' v'] t IH]; cbn [hm_insert hm_get]; [reflexivity|].
  destruct (str_eqb k k') eqn:E; cbn [hm_get].
  - apply str_eqb_eq in E. subst k'. destruct (str_eqb n k); reflexivity.
  - rewrite IH. destruct (str_eqb n k') eqn:E'; [|reflexivity]. apply str_eqb_eq in E'. subst k'.
    destruct (str_eqb n k) eqn:E''; [|reflexivity]. apply str_eqb_eq in E''. subst k. rewrite str_eqb_refl in E. discriminate.
Qed.

(** ** Files *)
Definition writes (p : path) (b : bytes) : list op := Create p :: map (Append p) b.

Lemma apply_all_app : forall f a b, apply_all f (a ++ b) = apply_all (apply_all f a) b.
Proof. intros. apply fold_left_app. Qed.

Lemma appends_file : forall p b f q,
  file (apply_all f (map (Append p) b)) q =
  if str_eqb p q then match file f q with Some c => Some (c ++ b) | None => None end else file f q.
Proof.
  intros p b. induction b as [|x b IH]; intros f q; cbn [map apply_all fold_left].
  - destruct (str_eqb p q); [|reflexivity]. destruct (file f q); [rewrite app_nil_r|]; reflexivity.
  - change (fold_left apply (map (Append p) b) (apply f (Append p x))) with (apply_all (apply f (Append p x)) (map (Append p) b)).
    rewrite IH. cbn [apply file]. destruct (str_eqb p q); [|reflexivity]. destruct (file f q); [|reflexivity].
    rewrite <- app_assoc. reflexivity.
Qed.
Lemma appends_dir : forall p b f q, dir (apply_all f (map (Append p) b)) q = dir f q.
Proof.
  intros p b. induction b as [|x b IH]; intros f q; [reflexivity|].
  change (apply_all f (map (Append p) (x :: b))) with (apply_all (apply f (Append p x)) (map (Append p) b)). rewrite IH. reflexivity.
Qed.
Lemma writes_file : forall p b f q, file (apply_all f (writes p b)) q = if str_eqb p q then Some b else file f q.
Proof.
  intros p b f q. change (apply_all f (writes p b)) with (apply_all (apply f (Create p)) (map (Append p) b)). rewrite appends_file.
  cbn [apply file]. destruct (str_eqb p q); reflexivity.
Qed.
Lemma writes_dir : forall p b f q, dir (apply_all f (writes p b)) q = dir f q.
Proof.
  intros p b f q. change (apply_all f (writes p b)) with (apply_all (apply f (Create p)) (map (Append p) b)). rewrite appends_dir. reflexivity.
Qed.

Lemma map_split : forall {A B} (g : A -> B) l a b, map g l = a ++ b -> a = map g (firstn (length a) l).
Proof.
  intros A B g l a. revert l. induction a as [|x a IH]; intros l b H; [reflexivity|].
  destruct l as [|y l]; [discriminate|]. cbn [map app] in H. injection H as <- H. cbn [length firstn map]. f_equal. eapply IH. exact H.
Qed.

(** A beginning of a write. *)
Lemma writes_begun : forall p b before rest f q, writes p b = before ++ rest ->
  dir (apply_all f before) q = dir f q /\
  ((p = q /\ begun (file f q) b (file (apply_all f before) q)) \/ (p <> q /\ file (apply_all f before) q = file f q)).
Proof.
  intros p b [|x before] rest f q H.
  - split; [reflexivity|]. destruct (str_dec p q) as [E|E]; [left; split; [exact E|left; reflexivity]|right; split; [exact E|reflexivity]].
  - cbn [writes app] in H. injection H as <- H. apply map_split in H. rewrite H.
    change (Create p :: map (Append p) (firstn (length before) b)) with (writes p (firstn (length before) b)).
    rewrite writes_dir, writes_file. split; [reflexivity|]. destruct (str_eqb p q) eqn:E.
    + left. apply str_eqb_eq in E. split; [exact E|]. right. eexists. reflexivity.
    + right. apply str_eqb_neq in E. split; [exact E|reflexivity].
Qed.

Lemma write_file_ok : forall o p b f, writable o f p -> write_file o p b f = (writes p b, Ok tt).
Proof.
  intros o p b f (A & B & C). unfold write_file. rewrite B, C.
  assert (E : str_eqb (parent p) [] || dir f (parent p) = true)
    by (destruct A as [-> | A]; [reflexivity|rewrite A; apply orb_true_r]).
  rewrite E. reflexivity.
Qed.
Lemma write_file_not : forall o p b f, ~ writable o f p -> exists e, write_file o p b f = ([], Err e).
Proof.
  intros o p b f N. unfold write_file.
  destruct (str_eqb (parent p) [] || dir f (parent p)) eqn:A; cbn [andb]; [|eexists; reflexivity].
  destruct (dir f p) eqn:B; cbn [andb negb]; [eexists; reflexivity|].
  destruct (denied o p) eqn:C; cbn [andb negb]; [eexists; reflexivity|].
  exfalso. apply N. split; [|split; assumption]. apply orb_true_iff in A as [A|A]; [left; apply str_eqb_eq; exact A|right; exact A].
Qed.
Lemma writable_dec : forall o f p, writable o f p \/ ~ writable o f p.
Proof.
  intros o f p. unfold writable. destruct (str_eqb (parent p) []) eqn:A.
  - apply str_eqb_eq in A. destruct (dir f p); [right; intros (_ & H & _); discriminate|].
    destruct (denied o p); [right; intros (_ & _ & H); discriminate|]. left. auto.
  - apply str_eqb_neq in A. destruct (dir f (parent p)); [|right; intros ([H|H] & _); [contradiction|discriminate]].
    destruct (dir f p); [right; intros (_ & H & _); discriminate|].
    destruct (denied o p); [right; intros (_ & _ & H); discriminate|]. left. auto.
Qed.
Lemma writable_ext : forall o f g p, (forall q, dir f q = dir g q) -> writable o f p -> writable o g p.
Proof. intros o f g p H (A & B & C). unfold writable. rewrite <- !H. auto. Qed.

Lemma fetched_serves : forall o u b, fetched (net o u) = Ok b <-> serves o u b.
Proof.
  intros o u b. unfold serves, fetched. destruct (net o u) as [|s body].
  - split; [discriminate|]. intros (s & H & _). discriminate.
  - destruct (N.leb 200 s && N.ltb s 300) eqn:E.
    + apply andb_true_iff in E as [A B]. apply N.leb_le in A. apply N.ltb_lt in B. split.
      * destruct body as [c|]; [|discriminate]. intro H. injection H as ->. exists s. auto.
      * intros (s' & H & _). injection H as _ ->. reflexivity.
    + split; [discriminate|]. intros (s' & H & A & B). injection H as <- ->. apply andb_false_iff in E as [E|E].
      * apply N.leb_gt in E. lia.
      * apply N.ltb_ge in E. lia.
Qed.
Lemma fetched_other : forall r, (exists b, fetched r = Ok b) \/ exists e, fetched r = Err e.
Proof.
  intros [|s [b|]]; cbn [fetched]; [right; eexists; reflexivity|..]; destruct (_ && _); cbn [ok_or]; eauto.
Qed.

(** ** Joining *)
Lemma set_nth_seq : forall {A} (g : nat -> A) (x : A) n s i, 
  set_nth i x (map g (seq s n)) = map (fun k => if Nat.eqb k (s + i) then x else g k) (seq s n).
Proof.
  intros A g x n. induction n as [|n IH]; intros s i; [destruct i; reflexivity|]. cbn [seq map]. destruct i as [|i]; cbn [set_nth].
  - rewrite Nat.add_0_r, Nat.eqb_refl. f_equal. apply map_ext_in. intros k I. apply in_seq in I.
    destruct (Nat.eqb_spec k s); [lia|reflexivity].
  - destruct (Nat.eqb_spec s (s + S i)); [lia|]. f_equal. rewrite IH. rewrite <- plus_n_Sm. reflexivity.
Qed.
Lemma join_all_seq : forall {A} (g : nat -> A) n order,
  join_all n (map (fun i => (i, g i)) order) = map (fun i => if existsb (Nat.eqb i) order then Some (g i) else None) (seq 0 n).
Proof.
  intros A g n order. unfold join_all.
  assert (R : repeat (@None A) n = map (fun _ => None) (seq 0 n)).
  { generalize 0. induction n as [|n IH]; intro s; [reflexivity|]. cbn [repeat seq map]. f_equal. apply IH. }
  rewrite R. clear R.
  assert (H : forall (d : list nat) s0,
    (fold_left (fun slots c => set_nth (fst c) (Some (snd c)) slots) (map (fun i => (i, g i)) d) (map s0 (seq 0 n)))
    = map (fun i => if existsb (Nat.eqb i) d then Some (g i) else s0 i) (seq 0 n)).
  { induction d as [|x d IH]; intro s0; cbn [map fold_left]; [reflexivity|]. cbn [fst snd]. rewrite set_nth_seq, IH.
    apply map_ext. intro i. cbn [existsb plus]. destruct (Nat.eqb_spec i x).
    - subst x. destruct (existsb (Nat.eqb i) d); reflexivity.
    - reflexivity. }
  apply H.
Qed.

Theorem join_same : forall {A} (g : nat -> A) n order order', (forall i, In i order <-> In i order') ->
  join_all n (map (fun i => (i, g i)) order) = join_all n (map (fun i => (i, g i)) order').
Proof.
  intros A g n order order' H. rewrite !join_all_seq. apply map_ext. intro i.
  assert (E : existsb (Nat.eqb i) order = existsb (Nat.eqb i) order').
  { apply eq_true_iff_eq. rewrite !existsb_exists. split; intros (x & I & X); apply H in I; eauto. }
  rewrite E. reflexivity.
Qed.

Lemma combine_nth : forall {A B} (F : option A -> B) (l : list A) pre,
  combine l (map (fun i => F (nth_error (pre ++ l) i)) (seq (length pre) (length l))) = map (fun x => (x, F (Some x))) l.
Proof.
  intros A B F l. induction l as [|x l IH]; intro pre; [reflexivity|]. cbn [length seq map combine].
  rewrite nth_error_app2, Nat.sub_diag by lia. cbn [nth_error]. f_equal.
  specialize (IH (pre ++ [x])). rewrite app_length, Nat.add_1_r in IH. rewrite <- app_assoc in IH. exact IH.
Qed.

(** ** The tasks *)
Section Tasks.
  Variable shown : N -> bool.
  Variable o : outside.
  Notation cached := (fun e : str * schema => cache_path shown (fst e) (snd e)).

  Definition task_of (backend : str) (e : str * schema) : task :=
    mkTask (fst e) (cached e) (schema_flags (snd e)) (plugin_url backend (fst e) (snd e)).

  Lemma start_tasks_tasks : forall backend ps f t,
    fst (start_tasks shown backend ps f t) = map (task_of backend) (filter (missing shown f) ps).
  Proof.
    intros backend ps f. induction ps as [|[n s] ps IH]; intro t; cbn [start_tasks]; [reflexivity|].
    cbn [filter]. unfold missing at 1. cbn [fst snd]. destruct (present f (cache_path shown n s)); cbn [negb].
    - apply IH.
    - specialize (IH t). destruct (start_tasks shown backend ps f t) as [ts t']. cbn [fst map] in *. rewrite IH. reflexivity.
  Qed.
  Lemma start_tasks_other : forall backend ps f t n, ~ In n (map fst ps) ->
    hm_get str_eqb (snd (start_tasks shown backend ps f t)) n = hm_get str_eqb t n.
  Proof.
    intros backend ps f. induction ps as [|[n s] ps IH]; intros t x N; cbn [start_tasks]; [reflexivity|].
    cbn [map fst] in N. destruct (present f (cache_path shown n s)).
    - rewrite IH by (intro; apply N; right; assumption). rewrite hm_get_insert.
      destruct (str_eqb x n) eqn:E; [|reflexivity]. apply str_eqb_eq in E. exfalso. apply N. left. congruence.
    - specialize (IH t x). destruct (start_tasks shown backend ps f t) as [ts t']. cbn [snd] in *. apply IH. intro; apply N; right; assumption.
  Qed.
  Lemma start_tasks_table : forall backend ps f t n s, NoDup (map fst ps) -> In (n, s) ps ->
    hm_get str_eqb (snd (start_tasks shown backend ps f t)) n
    = if present f (cache_path shown n s) then Some (cache_path shown n s, schema_flags s) else hm_get str_eqb t n.
  Proof.
    intros backend ps f. induction ps as [|[n s] ps IH]; intros t x y D I; [destruct I|]. cbn [map fst] in D.
    inversion D as [|? ? N D']; subst. cbn [start_tasks]. destruct I as [I|I].
    - injection I as -> ->. destruct (present f (cache_path shown x y)).
      + rewrite start_tasks_other by exact N. rewrite hm_get_insert, str_eqb_refl. reflexivity.
      + pose proof (start_tasks_other backend ps f t x N) as H. destruct (start_tasks shown backend ps f t) as [ts t']. exact H.
    - assert (X : str_eqb x n = false).
      { apply str_eqb_neq. intros ->. apply N. apply in_map_iff. exists (n, y). auto. }
      destruct (present f (cache_path shown n s)).
      + rewrite (IH _ x y D' I), hm_get_insert, X. reflexivity.
      + specialize (IH t x y D' I). destruct (start_tasks shown backend ps f t) as [ts t']. exact IH.
  Qed.

  (** ** Storing *)
  Definition body (k : task) : bytes := match fetched (net o (task_url k)) with Ok b => b | _ => [] end.
  Definition told (k : task) : task * option (res bytes) := (k, Some (fetched (net o (task_url k)))).
  Definition enter (t : table) (k : task) : table := hm_insert str_eqb t (task_name k) (task_path k, task_flags k).
  Definition fine (f : fs) (k : task) : Prop := (exists b, fetched (net o (task_url k)) = Ok b) /\ writable o f (task_path k).
  Definition all_writes (ks : list task) : list op := flat_map (fun k => writes (task_path k) (body k)) ks.

  Lemma all_writes_dir : forall ks f q, dir (apply_all f (all_writes ks)) q = dir f q.
  Proof.
    induction ks as [|k ks IH]; intros f q; [reflexivity|]. cbn [all_writes flat_map]. rewrite apply_all_app, IH. apply writes_dir.
  Qed.

  Lemma store_app : forall ks f t rest, Forall (fine f) ks ->
    store o (map told ks ++ rest) t f =
    (let (os, r) := store o rest (fold_left enter ks t) (apply_all f (all_writes ks)) in (all_writes ks ++ os, r)).
  Proof.
    induction ks as [|k ks IH]; intros f t rest F.
    - cbn [map app fold_left all_writes flat_map apply_all fold_left]. destruct (store o rest t f). reflexivity.
    - inversion F as [|? ? [[b B] W] F']; subst. cbn [map app store]. unfold told at 1. rewrite B. unfold ibind at 1, done at 1.
      cbn [apply_all fold_left]. unfold ibind at 1. rewrite write_file_ok by exact W.
      rewrite IH; cycle 1.
      { eapply Forall_impl; [|exact F']. intros k' [X Y]. split; [exact X|]. eapply writable_ext; [|exact Y]. intro q. symmetry. apply writes_dir. }
      assert (E : writes (task_path k) b = writes (task_path k) (body k)) by (unfold body; rewrite B; reflexivity).
      rewrite E. cbn [fold_left]. unfold enter at 2. cbn [all_writes flat_map]. rewrite apply_all_app.
      fold (all_writes ks). destruct (store o rest _ _) as [os r]. cbn [app]. rewrite app_assoc. reflexivity.
  Qed.

  Lemma store_all : forall ks f t, Forall (fine f) ks -> store o (map told ks) t f = (all_writes ks, Ok (fold_left enter ks t)).
  Proof.
    intros ks f t F. rewrite <- (app_nil_r (map told ks)), store_app by exact F. cbn [store]. unfold done. rewrite app_nil_r. reflexivity.
  Qed.
  Lemma store_stop : forall a k b f t, Forall (fine f) a -> ~ fine f k ->
    exists e, store o (map told (a ++ k :: b)) t f = (all_writes a, Err e).
  Proof.
    intros a k b f t F N. rewrite map_app, store_app by exact F. cbn [map store]. unfold told at 1. unfold ibind at 1, done at 1.
    destruct (fetched_other (net o (task_url k))) as [[c C]|[e C]]; rewrite C.
    - cbn [apply_all fold_left]. unfold ibind at 1.
      assert (W : ~ writable o (apply_all f (all_writes a)) (task_path k)).
      { intro W. apply N. split; [eauto|]. eapply writable_ext; [|exact W]. intro q. apply all_writes_dir. }
      destruct (write_file_not _ _ c _ W) as [e E]. change (fold_left apply (all_writes a) f) with (apply_all f (all_writes a)).
      rewrite E. eexists. cbn [app]. rewrite app_nil_r. reflexivity.
    - eexists. rewrite app_nil_r. reflexivity.
  Qed.

  Lemma fine_dec : forall f k, fine f k \/ ~ fine f k.
  Proof.
    intros f k. unfold fine. destruct (fetched_other (net o (task_url k))) as [B|[e B]].
    - destruct (writable_dec o f (task_path k)); [left|right]; tauto.
    - right. intros [[b C] _]. congruence.
  Qed.
  Lemma fine_cases : forall f ks, Forall (fine f) ks \/ exists a k b, ks = a ++ k :: b /\ Forall (fine f) a /\ ~ fine f k.
  Proof.
    intros f ks. induction ks as [|k ks IH]; [left; constructor|].
    destruct (fine_dec f k) as [H|H]; [|right; exists [], k, ks; auto].
    destruct IH as [IH|(a & x & b & -> & A & X)]; [left; constructor; assumption|].
    right. exists (k :: a), x, b. repeat split; [constructor; assumption|exact X].
  Qed.

  (** ** The whole *)
  Definition requested (ks : list task) : list op := map (fun k => Request (task_url k)) ks.
  Lemma requested_fs : forall ks f, apply_all f (requested ks) = f.
  Proof. induction ks as [|k ks IH]; intro f; [reflexivity|]. exact (IH f). Qed.

  Theorem download_run : forall order c ps t f, c_plugins c = Some ps -> all_end order ps ->
    let ks := map (task_of (d_backend (c_document c))) (filter (missing shown f) ps) in
    let t' := snd (start_tasks shown (d_backend (c_document c)) ps f t) in
    download_plugins_using_config shown o order c t f = (let (os, r) := store o (map told ks) t' f in (requested ks ++ os, r)).
  Proof.
    intros order c ps t f P C ks t'. unfold download_plugins_using_config. rewrite P.
    pose proof (start_tasks_tasks (d_backend (c_document c)) ps f t) as E. fold ks in E. subst t'.
    destruct (start_tasks shown (d_backend (c_document c)) ps f t) as [ts t']. cbn [fst snd] in *. subst ts.
    rewrite join_all_seq. unfold ibind. cbn [app].
    change (map (fun k => Request (task_url k)) ks) with (requested ks). rewrite requested_fs.
    assert (R : combine ks (map (fun i => if existsb (Nat.eqb i) order
                  then Some (match nth_error ks i with Some k => fetched (net o (task_url k)) | None => Fuel end) else None) (seq 0 (length ks)))
                = map told ks).
    { rewrite (map_ext_in _ (fun i => Some (match nth_error ([] ++ ks) i with Some k => fetched (net o (task_url k)) | None => Fuel end))).
      - exact (combine_nth (fun x => Some (match x with Some k => fetched (net o (task_url k)) | None => Fuel end)) ks []).
      - intros i I. apply in_seq in I. cbn [app].
        assert (X : existsb (Nat.eqb i) order = true).
        { apply existsb_exists. exists i. split; [|apply Nat.eqb_refl]. apply C. unfold ks in I. rewrite map_length in I.
          assert (length (filter (missing shown f) ps) <= length ps); [|lia].
          clear. induction ps as [|x l IH]; [apply le_n|]. cbn [filter]. destruct (missing shown f x); cbn [length]; lia. }
        rewrite X. reflexivity. }
    rewrite R. reflexivity.
  Qed.
End Tasks.
