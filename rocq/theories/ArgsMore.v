(** Consequences for the command line, and [main]. *)
From Coq Require Import String List NArith Bool Lia Permutation.
From Verif Require Graphemes SpecProject Toml TomlNew.
From Verif Require Import Base Plugin Utf8 Json Serde Project Cli CliProofs2 Show Args SpecArgs ArgsProofs.
Import ListNotations.

(** * Order and repetition *)
Lemma asks_permuted : forall ss ss' d b f n j, Permutation ss ss' -> asks_compile ss d b f n j -> asks_compile ss' d b f n j.
Proof.
  intros ss ss' d b f n j P (A & B & C & D & E).
  assert (forall x, In x ss <-> In x ss') as H by (intro x; split; apply Permutation_in; [|apply Permutation_sym]; exact P).
  unfold asks_compile. split; [intro x; rewrite <- H; apply A|]. split; [apply H, B|]. split; [apply H, C|]. split.
  - destruct D as [(t & I & L)|[D ->]]; [left; exists t; rewrite <- H; auto|right; split; [|reflexivity]; intros t I; apply (D t), H, I].
  - rewrite <- H. exact E.
Qed.

Lemma forall2_pairs : forall {A B} (R : A -> B -> Prop) (l : list (A * B)),
  Forall (fun p => R (fst p) (snd p)) l -> Forall2 R (map fst l) (map snd l).
Proof. induction 1; cbn; constructor; assumption. Qed.

Theorem order_free : forall (l l' : list (setting * list str)) d b f n j, Permutation l l' ->
  Forall (fun p => setting_words (fst p) (snd p)) l -> NoDup (map (fun p => setting_kind (fst p)) l) ->
  asks_compile (map fst l) d b f n j ->
  parse_args (lit "compile" :: concat (map snd l')) = Run (Compile d b f n j).
Proof.
  intros l l' d b f n j P W N A. apply args_spec. rewrite <- (app_nil_r (concat (map snd l'))).
  apply spelled_compile with (ss := map fst l').
  - apply forall2_pairs. apply (Permutation_Forall P), W.
  - rewrite map_map. apply (Permutation_NoDup (l := map (fun p => setting_kind (fst p)) l)); [apply Permutation_map, P|exact N].
  - left. reflexivity.
  - apply (asks_permuted (map fst l)); [apply Permutation_map, P|exact A].
Qed.

(** Words of an option that are not accepted *)
Lemma read_refused : forall o v ws rest g, In o compile_options -> valued (o_long o) (o_short o) v ws -> o_valued o = true ->
  o_accepts o v = false \/ value_of (o_long o) g <> None ->
  read_args compile_options false (ws ++ rest) g = Complain.
Proof.
  intros o v ws rest g Io Wv Vo R.
  assert (forall k, (if o_accepts o v then give g (o_long o) v k else Complain) = Complain) as G.
  { intro k. destruct R as [R|R]; [rewrite R; reflexivity|]. destruct (o_accepts o v); [|reflexivity].
    unfold give. destruct (value_of (o_long o) g); [reflexivity|contradiction R; reflexivity]. }
  destruct Wv as [F| |c C F|c C N1 N2|c C]; cbn [app read_args].
  - pose proof (classify_long _ o None compile_distinct Io) as Q. cbn [app] in Q. rewrite app_nil_r in Q. rewrite Q, Vo.
    destruct (hyphened v); [reflexivity|]. apply G.
  - rewrite (classify_long _ o (Some v) compile_distinct Io), Vo. apply G.
  - pose proof (classify_short _ o c [] compile_distinct Io C) as Q. cbn [app] in Q. rewrite Q, Vo.
    destruct (hyphened v); [reflexivity|]. apply G.
  - assert (classify compile_options ([45%N; c] ++ v) = Option_ o (Some v)) as Q.
    { rewrite (classify_short _ o c v compile_distinct Io C). f_equal. exact (not_equals_head v N1 N2). }
    cbn [app] in Q. rewrite Q, Vo. apply G.
  - assert (classify compile_options ([45%N; c] ++ lit "=" ++ v) = Option_ o (Some v)) as Q
      by (rewrite (classify_short _ o c (lit "=" ++ v) compile_distinct Io C); reflexivity).
    cbn [app] in Q. rewrite Q, Vo. apply G.
Qed.

Lemma read_flag_again : forall o rest g, In o compile_options -> o_valued o = false -> value_of (o_long o) g <> None ->
  read_args compile_options false ((lit "--" ++ o_long o) :: rest) g = Complain.
Proof.
  intros o rest g Io Vo R. cbn [read_args].
  pose proof (classify_long _ o None compile_distinct Io) as Q. cbn [app] in Q. rewrite app_nil_r in Q. rewrite Q, Vo.
  unfold give. destruct (value_of (o_long o) g); [reflexivity|contradiction R; reflexivity].
Qed.

Lemma read_setting : forall s ws rest g, setting_words s ws ->
  read_args compile_options false (ws ++ rest) g = Complain \/
  read_args compile_options false (ws ++ rest) g = read_args compile_options false rest (g ++ [item_of s]).
Proof.
  intros s ws rest g W.
  assert (value_of (fst (item_of s)) g = None -> level_ok s ->
    read_args compile_options false (ws ++ rest) g = read_args compile_options false rest (g ++ [item_of s])) as Good.
  { intros V L. rewrite (surjective_pairing (item_of s)). apply read_item; [exact compile_distinct| |exact V].
    rewrite <- surjective_pairing. apply setting_item; assumption. }
  assert (forall o v, In o compile_options -> valued (o_long o) (o_short o) v ws -> o_valued o = true ->
    o_long o = fst (item_of s) -> (o_accepts o v = true -> level_ok s) ->
    read_args compile_options false (ws ++ rest) g = Complain \/
    read_args compile_options false (ws ++ rest) g = read_args compile_options false rest (g ++ [item_of s])) as K.
  { intros o v Io Wv Vo E L. destruct (o_accepts o v) eqn:A; [|left; apply (read_refused o v); auto].
    destruct (value_of (fst (item_of s)) g) eqn:V; [left; apply (read_refused o v); auto; right; rewrite E, V; discriminate|right; apply Good; auto]. }
  destruct s as [v|v|v|v|]; cbn in W.
  - apply (K (mkOpt (lit "plugins-dir-path") (Some 112%N) true any_value) v); [cbn; tauto|exact W|reflexivity|reflexivity|intros _; exact I].
  - apply (K (mkOpt (lit "backend") (Some 98%N) true any_value) v); [cbn; tauto|exact W|reflexivity|reflexivity|intros _; exact I].
  - apply (K (mkOpt (lit "filename") (Some 102%N) true any_value) v); [cbn; tauto|exact W|reflexivity|reflexivity|intros _; exact I].
  - apply (K (mkOpt (lit "output-level") None true (fun s => match read_level s with Some _ => true | None => false end)) v);
      [cbn; tauto|exact W|reflexivity|reflexivity|]. cbn. intro A. destruct (read_level v) as [n|] eqn:E; [|discriminate]. exists n. apply read_level_spec, E.
  - destruct (value_of (lit "json") g) eqn:V; [left|right; apply Good; [exact V|exact I]].
    subst ws. apply (read_flag_again (mkOpt (lit "json") None false any_value)); [cbn; tauto|reflexivity|]. cbn [o_long]. rewrite V. discriminate.
Qed.

Lemma read_settings : forall ss wss rest, Forall2 setting_words ss wss -> forall g,
  read_args compile_options false (concat wss ++ rest) g = Complain \/
  read_args compile_options false (concat wss ++ rest) g = read_args compile_options false rest (g ++ map item_of ss).
Proof.
  intros ss wss rest H. induction H as [|s ws ss wss W H IH]; intro g; [right; cbn; rewrite app_nil_r; reflexivity|].
  cbn [concat map]. rewrite <- app_assoc. destruct (read_setting s ws (concat wss ++ rest) g W) as [E|E]; rewrite E; [left; reflexivity|].
  destruct (IH (g ++ [item_of s])) as [E'|E']; rewrite E'; [left; reflexivity|right]. rewrite <- app_assoc. reflexivity.
Qed.

Theorem twice_complained : forall ss wss stop, Forall2 setting_words ss wss -> last_words stop -> ~ NoDup (map setting_kind ss) ->
  parse_args (lit "compile" :: concat wss ++ stop) = Usage.
Proof.
  intros ss wss stop F L D. unfold parse_args. rewrite str_eqb_refl.
  destruct (read_settings ss wss stop F []) as [E|E]; [rewrite E; reflexivity|].
  rewrite (read_stop _ stop _ L) in E. apply read_given in E; [|exact compile_distinct]. destruct E as (_ & _ & _ & _ & _ & N).
  contradiction D. apply kinds_names, N.
Qed.

(** Without a backend or a file there is no compilation. *)
Theorem required : forall ss wss stop, Forall2 setting_words ss wss -> last_words stop ->
  ((forall b, ~ In (Backend b) ss) \/ (forall f, ~ In (Filename f) ss)) ->
  parse_args (lit "compile" :: concat wss ++ stop) = Usage.
Proof.
  intros ss wss stop F L H. unfold parse_args. rewrite str_eqb_refl.
  destruct (read_settings ss wss stop F []) as [E|E]; [rewrite E; reflexivity|].
  rewrite (read_stop _ stop _ L) in E. rewrite E. cbn [finish app].
  assert (forall k, (forall v, ~ In (k, v) (map item_of ss)) -> value_of k (map item_of ss) = None) as V.
  { intros k Hk. apply value_of_none. intro I. apply in_map_iff in I. destruct I as ([k' v] & <- & I). exact (Hk v I). }
  unfold compile_of. destruct H as [H|H].
  - rewrite (V (lit "backend")); [reflexivity|]. intros v I. apply backend_in in I. exact (H v I).
  - rewrite (V (lit "filename")); [destruct (value_of (lit "backend") (map item_of ss)); reflexivity|]. intros v I. apply filename_in in I. exact (H v I).
Qed.

(** Every command can be given. *)
Lemma dec_level : forall n, (n <= 255)%N -> level_text (Framing.dec n) n.
Proof.
  intros n H. apply read_level_spec.
  assert (forall k, k <= 255 -> read_level (Framing.dec (N.of_nat k)) = Some (N.of_nat k)) as A.
  { assert (forallb (fun k => match read_level (Framing.dec (N.of_nat k)) with Some m => N.eqb m (N.of_nat k) | None => false end) (seq 0 256) = true) as C
      by (vm_compute; reflexivity).
    intros k L. rewrite forallb_forall in C. specialize (C k). rewrite in_seq in C. cbv beta in C.
    destruct (read_level (Framing.dec (N.of_nat k))) as [m|]; [|discriminate C; lia]. f_equal. apply N.eqb_eq, C. lia. }
  rewrite <- (N2Nat.id n). apply A. lia.
Qed.
Theorem every_command : forall c, match c with Compile _ _ _ n _ => (n <= 255)%N | _ => True end -> exists args, parse_args args = Run c.
Proof.
  intros c H. destruct c as [d b f n j| | |name|s|].
  - exists (lit "compile" :: concat (map snd ((match d with Some d => [(Directory d, [lit "--plugins-dir-path" ++ lit "=" ++ d])] | None => [] end)
       ++ [(Backend b, [lit "--backend" ++ lit "=" ++ b]); (Filename f, [lit "--filename" ++ lit "=" ++ f]); (Level (Framing.dec n), [lit "--output-level" ++ lit "=" ++ Framing.dec n])]
       ++ (if j then [(Json, [lit "--json"])] else [])))).
    eapply order_free; [apply Permutation_refl| | |].
    + apply Forall_app. split; [destruct d; repeat constructor; exact (long_joined (lit "plugins-dir-path") _ _)|].
      apply Forall_app. split; [|destruct j; repeat constructor].
      constructor; [exact (long_joined (lit "backend") _ _)|]. constructor; [exact (long_joined (lit "filename") _ _)|].
      constructor; [exact (long_joined (lit "output-level") _ _)|constructor].
    + destruct d, j; cbn; repeat constructor; cbn; intuition discriminate.
    + unfold asks_compile. split; [|split; [|split; [|split]]].
      * intro x. destruct d, j; cbn; intuition; try discriminate; try congruence;
          repeat match goal with H : Directory _ = Directory _ |- _ => inversion H; clear H end; try congruence; try (left; congruence).
      * destruct d, j; cbn; tauto.
      * destruct d, j; cbn; tauto.
      * left. exists (Framing.dec n). split; [destruct d, j; cbn; tauto|apply dec_level, H].
      * destruct d, j; cbn; intuition discriminate.
  - exists [lit "build"]. reflexivity.
  - exists [lit "language-server"]. reflexivity.
  - exists [lit "new"; lit "--name" ++ lit "=" ++ name]. apply args_spec.
    apply (spelled_new name [lit "--name" ++ lit "=" ++ name] []); [exact (long_joined (lit "name") _ _)|left; reflexivity].
  - exists [lit "add"; lit "--"; s]. reflexivity.
  - exists [lit "version"]. reflexivity.
Qed.

(** * [main] *)
Lemma lines_text : forall shown ids p, concat (map println (printed_lines shown ids p)) = printed_text shown ids p.
Proof.
  intros shown ids p. unfold println. destruct p as [[] ts|[] c|[] a|es|s]; cbn; rewrite ?app_nil_r; try reflexivity; f_equal; rewrite map_map; reflexivity.
Qed.
Lemma stdout_lines : forall ls, stdout (map Print ls) = concat (map println ls).
Proof. intro ls. unfold stdout. rewrite map_map. reflexivity. Qed.

Theorem main_compile : forall m args d b filename n j f, spelled args (Compile d b filename n j) ->
  exists p, main m args = Some p /\
  match snd (run_compile (m_seg m) (m_uuid m 0) (m_checks m) (m_world m) (m_wasm m) (m_ls m) (m_variable m (lit "BRACK_PLUGINS_PATH")) d filename n j f) with
  | Ok x => exists os, p f = (os, Some 0%N) /\ only_prints os /\ stdout os = printed_text (m_shown m) (m_ids m) x
  | Err _ => p f = ([], Some 1%N)
  | Panic _ => p f = ([], Some 101%N)
  | Fuel => p f = ([], None)
  end.
Proof.
  intros m args d b filename n j f S. apply args_spec in S. unfold main. rewrite S. cbn [run_command option_map].
  eexists. split; [reflexivity|]. unfold ibind.
  pose proof (CliProofs2.compile_writes_nothing (m_seg m) (m_uuid m 0) (m_checks m) (m_world m) (m_wasm m) (m_ls m) (m_variable m (lit "BRACK_PLUGINS_PATH")) d filename n j f) as T.
  destruct (run_compile _ _ _ _ _ _ _ _ _ _ _ f) as [os r]. cbn [fst snd] in *. subst os. destruct r as [x|e|e|]; try reflexivity.
  unfold print_all. cbn [app]. eexists. split; [reflexivity|]. split.
  - apply Forall_forall. intros o I. apply in_map_iff in I. destruct I as (s & <- & _). exists s. reflexivity.
  - rewrite stdout_lines. apply lines_text.
Qed.

(** The other outcomes *)
Theorem main_status : forall m args c p f, spelled args c -> run_command m c = Some p ->
  exists q, main m args = Some q /\ fst (q f) = fst (p f) /\
    (snd (q f) = Some 0%N <-> snd (p f) = Ok tt) /\
    (snd (q f) = Some 1%N <-> exists e, snd (p f) = Err e) /\
    (snd (q f) = Some 101%N <-> exists e, snd (p f) = Panic e).
Proof.
  intros m args c p f S R. apply args_spec in S. unfold main. rewrite S, R. cbn [option_map]. eexists. split; [reflexivity|]. cbv beta.
  destruct (p f) as [os [[]|e|e|]]; cbn; (split; [reflexivity|]); repeat split; intro H; try discriminate; try reflexivity;
    try (destruct H; discriminate); eexists; reflexivity.
Qed.

Theorem main_backend : forall m args args' d b b' filename n j,
  spelled args (Compile d b filename n j) -> spelled args' (Compile d b' filename n j) -> main m args = main m args'.
Proof. intros m args args' d b b' filename n j S S'. apply args_spec in S, S'. unfold main. rewrite S, S'. reflexivity. Qed.

Theorem main_version : forall m args f, spelled args Version -> exists p, main m args = Some p /\
  p f = ([Print (lit "Brack " ++ match m_variable m (lit "APP_VERSION") with Some v => v | None => lit "0.2.0" end)], Some 0%N).
Proof. intros m args f S. apply args_spec in S. unfold main. rewrite S. eexists. split; reflexivity. Qed.

(** `brack new`, then `brack build` in the new directory *)
Theorem main_new_build : forall m m2 a1 a2 name f q os g, Graphemes.seg_laws (m_seg m2) -> m_toml m2 = Toml.toml_crate ->
  spelled a1 (New name) -> spelled a2 Build -> Forall scalar name -> SpecProject.plain_name name ->
  (forall r, present f (utf8 name ++ [47%N] ++ r) = false) -> (forall p, denied (m_outside m2) p = false) ->
  main m a1 = Some q -> q f = (os, Some 0%N) -> SpecProject.seen_from name (apply_all f os) g ->
  m_docs m2 g = Some [lit "main.[]"] -> (forall h, file h (lit "out/main.") <> None -> m_outs m2 h = [lit "main."]) ->
  exists q2 os2, main m2 a2 = Some q2 /\ q2 g = (os2, Some 0%N) /\ file (apply_all g os2) (lit "out/main.") = Some [].
Proof.
  intros m m2 a1 a2 name f q os g L T S1 S2 Sc Pn Pr De M E See Do Ou.
  apply args_spec in S1, S2. unfold main in *. rewrite S1 in M. rewrite S2. cbn [run_command option_map] in *. inversion M; subst q. clear M. cbv beta in E.
  destruct (new_project (m_outside m) name f) as [os' r] eqn:N. inversion E as [[E1 E2]]. subst os'.
  destruct r as [[]|e|e|]; try discriminate. clear E E2.
  destruct (TomlNew.new_builds (m_seg m2) (m_uuid m2) (m_checks m2) (m_world m2) (m_shown m2) (m_outside m) (m_outside m2) (m_order m2) (m_wasm m2) (m_docs m2) (m_outs m2)
    name f os g L Sc Pn Pr De N See Do Ou) as [B1 B2].
  eexists. eexists. split; [reflexivity|]. cbv beta. rewrite T, B1. split; [reflexivity|exact B2].
Qed.
