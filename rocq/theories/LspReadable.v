(** Everything the server sends can be read by the client. *)
From Coq Require Import String List NArith ZArith Bool Lia ZifyBool Permutation.
From Verif Require Import Base Tokens Graphemes Tokenizer Parser AST TransformError Transform SpecCST Plugin Utf8 Framing SpecFraming FramingProofs FramingProofs2
  SemTok Json SpecJson JsonProofs Server SpecLsp JsonTotal LspProofs LspProofs2 LspProofs3 LspHistory.
Import ListNotations.

Lemma lit_scalar : forall s, forallb (fun c => c <? 0xD800)%N s = true -> Forall scalar s.
Proof.
  intros s H. rewrite forallb_forall in H. apply Forall_forall. intros c I. apply small_scalar. apply N.ltb_lt. exact (H c I).
Qed.
Ltac letters := apply lit_scalar; vm_compute; reflexivity.

Lemma read_json_print : forall j, readable j -> read_json (utf8 (print j)) = Ok j.
Proof.
  intros j (P & N & T). unfold read_json. rewrite from_utf8_utf8 by (apply print_scalar; exact T).
  rewrite from_str_print by exact P. assert (H : (nesting j <? 128) = true) by (apply Nat.ltb_lt; exact N). rewrite H. reflexivity.
Qed.

(** The condition in a form that computes. *)
Definition shallow (n : nat) (j : json) : Prop := plain j /\ nesting j <= n /\ texts j.

Lemma shallow_obj : forall n fs, Forall (fun kv => Forall scalar (lit (fst kv)) /\ shallow n (snd kv)) fs -> shallow (S n) (obj fs).
Proof.
  intros n fs F. unfold obj, shallow. cbn [plain nesting texts].
  induction F as [|[k v] fs [Hk (P & N & T)] F (IP & IN & IT)]; cbn [map fold_right fst snd] in *.
  - split; [exact I|]. split; [lia|exact I].
  - split; [split; assumption|]. split; [lia|]. split; [exact Hk|]. split; assumption.
Qed.
Lemma shallow_arr : forall n l, Forall (shallow n) l -> shallow (S n) (JArr l).
Proof.
  intros n l F. unfold shallow. cbn [plain nesting texts].
  induction F as [|v l (P & N & T) F (IP & IN & IT)]; cbn [fold_right] in *.
  - split; [exact I|]. split; [lia|exact I].
  - split; [split; assumption|]. split; [lia|]. split; assumption.
Qed.
Lemma shallow_str : forall n s, Forall scalar s -> shallow n (JStr s).
Proof. intros n s H. split; [exact I|]. split; [cbn; lia|exact H]. Qed.
Lemma shallow_int : forall n z, (-9223372036854775808 <= z <= 18446744073709551615)%Z -> shallow n (JInt z).
Proof. intros n z H. split; [exact H|]. split; [cbn; lia|exact I]. Qed.
Lemma shallow_bool : forall n b, shallow n (JBool b).
Proof. intros n b. split; [exact I|]. split; [cbn; lia|exact I]. Qed.
Lemma shallow_null : forall n, shallow n JNull.
Proof. intros n. split; [exact I|]. split; [cbn; lia|exact I]. Qed.
Lemma shallow_readable : forall j, shallow 20 j -> readable j.
Proof. intros j (P & N & T). split; [exact P|]. split; [lia|exact T]. Qed.

Ltac field := first [apply Forall_cons; [split; [letters|cbn [snd]]|] | apply Forall_nil].
Ltac fields := apply shallow_obj; repeat field.

Lemma log_readable : forall s, Forall scalar s -> readable (log_message s).
Proof.
  intros s H. apply shallow_readable. fields; try (apply shallow_str; letters).
  fields; [apply shallow_str; exact H|apply shallow_int; lia].
Qed.
Lemma error_readable : forall id c m, (-9223372036854775808 <= id <= 9223372036854775807)%Z ->
  (-9223372036854775808 <= c <= 9223372036854775807)%Z -> Forall scalar m -> readable (error_response (Some id) c m).
Proof.
  intros id c m Hi Hc Hm. apply shallow_readable. fields.
  - fields; [apply shallow_int; lia|apply shallow_str; exact Hm].
  - apply shallow_int; lia.
  - apply shallow_str; letters.
Qed.
Lemma invalid_readable : readable invalid_request_response.
Proof.
  apply shallow_readable. fields.
  - fields; [apply shallow_int; lia|apply shallow_str; letters].
  - apply shallow_null.
  - apply shallow_str; letters.
Qed.
Lemma result_readable : forall id r, (-9223372036854775808 <= id <= 9223372036854775807)%Z -> shallow 19 r -> readable (bls_result id r).
Proof.
  intros id r Hi Hr. apply shallow_readable. fields; [apply shallow_str; letters|apply shallow_int; lia|exact Hr].
Qed.
Lemma initialize_shallow : shallow 19 initialize_result.
Proof.
  fields.
  - fields.
    + apply shallow_int; lia.
    + fields; [apply shallow_bool|]. apply shallow_arr. repeat (apply Forall_cons || apply Forall_nil); apply shallow_str; letters.
    + fields; try apply shallow_bool. fields; apply shallow_arr; cbn [map legend]; repeat (apply Forall_cons || apply Forall_nil); apply shallow_str; letters.
  - fields; apply shallow_str; letters.
Qed.

(** The numbers of semantic tokens are of 32 bits. *)
Definition small_tok (t : semtok) : Prop :=
  (delta_line t < 4294967296)%N /\ (delta_start t < 4294967296)%N /\ (sem_length t < 4294967296)%N
  /\ (token_type t < 4294967296)%N /\ (token_modifiers_bitset t < 4294967296)%N.

Lemma tokens_shallow : forall sts, Forall small_tok sts -> shallow 19 (semantic_tokens_json sts).
Proof.
  intros sts F. fields. apply shallow_arr. induction F as [|t sts (A & B & C & D & E) F IH]; cbn [flat_map]; [constructor|].
  apply Forall_app. split; [|exact IH]. cbn [map]. repeat (apply Forall_cons || apply Forall_nil); apply shallow_int; lia.
Qed.

Lemma u32_small : forall n, (as_u32 n < 4294967296)%N.
Proof. intro n. unfold as_u32. apply N.mod_lt. lia. Qed.
Lemma sub_small : forall checks a b r, (a < 4294967296)%N -> (b < 4294967296)%N -> u32_sub checks a b = Ok r -> (r < 4294967296)%N.
Proof.
  intros checks a b r A B H. unfold u32_sub, sub_mod in H. destruct (b <=? a)%N eqn:E; [injection H as <-; lia|].
  destruct checks; [discriminate|]. injection H as <-. lia.
Qed.
Lemma type_small : forall k, (token_kind_to_type k < 4294967296)%N.
Proof. intros []; vm_compute; reflexivity. Qed.

Lemma separate_small : forall checks ts pl pc sts, (pl < 4294967296)%N -> (pc < 4294967296)%N ->
  separate_go checks pl pc ts = Ok sts -> Forall small_tok sts.
Proof.
  intros checks. induction ts as [|t ts IH]; intros pl pc sts Hl Hc H; cbn [separate_go] in H; [injection H as <-; constructor|].
  apply bind_ok in H as (dl & H1 & H). apply bind_ok in H as (ds & H2 & H). apply bind_ok in H as (len & H3 & H).
  apply bind_ok in H as (rest & H4 & H). injection H as <-.
  constructor.
  - unfold small_tok. cbn [delta_line delta_start sem_length token_type token_modifiers_bitset].
    split; [eapply sub_small; [| |exact H1]; [apply u32_small|exact Hl]|].
    split. { destruct (dl =? 0)%N; [eapply sub_small; [| |exact H2]; [apply u32_small|exact Hc]|injection H2 as <-; apply u32_small]. }
    split; [apply u32_small|]. split; [apply type_small|lia].
  - eapply IH; [| |exact H4]; apply u32_small.
Qed.

Lemma shallow_more : forall n m j, n <= m -> shallow n j -> shallow m j.
Proof. intros n m j H (P & N & T). split; [exact P|]. split; [lia|exact T]. Qed.

Lemma diagnostic_shallow : forall err, shallow 15 (diagnostic err).
Proof.
  assert (Pos : forall l c, shallow 13 (position_json l c)).
  { intros l c. fields; apply shallow_int; pose proof (u32_small (N.of_nat l)); pose proof (u32_small (N.of_nat c)); lia. }
  intros [k l]. fields.
  - apply shallow_str. destruct k; letters.
  - fields; apply Pos.
Qed.

(** ** Completion items *)
Lemma table_texts : forall f metas tbl seen tbl' seen', plugin_loop f metas tbl seen = Ok (tbl', seen') ->
  Forall (fun m => Forall scalar (command_name m)) metas ->
  Forall (fun en : (str * ptype) * metadata => Forall scalar (fst (fst en))) tbl ->
  Forall (fun en : (str * ptype) * metadata => Forall scalar (fst (fst en))) tbl'.
Proof.
  intros f. induction metas as [|m metas IH]; intros tbl seen tbl' seen' H F T; cbn [plugin_loop] in H; [injection H as <- <-; exact T|].
  repeat match goal with H : (if ?b then Err _ else _) = Ok _ |- _ => destruct b; [discriminate|] end.
  inversion F as [|? ? Fm Fs]; subst. eapply IH; [exact H|exact Fs|].
  clear H. induction T as [|[k v] tbl Hk T IHT]; cbn [hm_insert]; [repeat constructor; exact Fm|].
  destruct (sig_eqb _ k); constructor; assumption.
Qed.

Definition plugin_texts (p : plugin) : Prop :=
  Forall scalar (p_name p) /\ Forall (fun en => Forall scalar (fst (fst en))) (p_metadata p).

Section Readable.
  Variable seg : str -> list str.
  Hypothesis L : seg_laws seg.
  Variable e : env.
  Hypothesis ET : env_texts e.
  Hypothesis SO : some_order e.

  Lemma loaded_texts : forall pr loaded, load_plugins e pr = Ok loaded -> project_texts pr -> Forall plugin_texts loaded.
  Proof.
    induction pr as [|[n [path f]] pr IH]; intros loaded H P; cbn [load_plugins] in H; [injection H as <-; constructor|].
    apply bind_ok in H as (metas & H1 & H). apply bind_ok in H as (p & H2 & H). apply bind_ok in H as (rest & H3 & H). injection H as <-.
    inversion P as [|? ? Pn Ps]; subst. constructor; [|apply IH; assumption].
    unfold plugin_new in H2. apply bind_ok in H2 as ([tbl seen] & H4 & H2).
    repeat match goal with H : (if ?b then Err _ else _) = Ok _ |- _ => destruct b; [discriminate|] end. injection H2 as <-.
    split; [exact Pn|]. cbn [p_metadata]. eapply table_texts; [exact H4| |constructor].
    destruct ET as (_ & _ & _ & E4 & _). apply (E4 path). unfold ok_or in H1. destruct (load_wasm e path); [congruence|discriminate].
  Qed.

  Lemma table_in : forall ps acc r, plugins_loop ps acc = Ok r -> Forall plugin_texts ps ->
    Forall (fun en => plugin_texts (snd en)) (name_to_plugin acc) -> Forall (fun en => plugin_texts (snd en)) (name_to_plugin r).
  Proof.
    induction ps as [|p ps IH]; intros acc r H F A; cbn [plugins_loop] in H; [injection H as <-; exact A|].
    repeat match goal with H : (if ?b then Err _ else _) = Ok _ |- _ => destruct b; [discriminate|] end.
    inversion F as [|? ? Fp Fs]; subst. eapply IH; [exact H|exact Fs|]. cbn [name_to_plugin]. clear H.
    induction A as [|[k v] m Hv A IHA]; cbn [hm_insert]; [repeat constructor; apply Fp|].
    destruct (str_eqb (p_name p) k); constructor; assumption.
  Qed.

  Lemma item_shallow : forall name n t d j, Forall scalar name -> Forall scalar n -> Forall scalar d ->
    build_completion_item name n t d = Ok j -> shallow 15 j.
  Proof.
    intros name n t d j Hname Hn Hd H. unfold build_completion_item in H. apply bind_ok in H as (ins & H1 & H). injection H as <-.
    assert (Lb : Forall scalar (name ++ lit "." ++ n)).
    { apply Forall_app. split; [exact Hname|]. apply Forall_app. split; [letters|exact Hn]. }
    assert (In' : Forall scalar ins).
    { destruct t; try discriminate; injection H1 as <-; (apply Forall_app; split; [exact Lb|letters]). }
    fields; [apply shallow_str; exact Lb|apply shallow_str; exact Hd|apply shallow_str; exact In'|apply shallow_int; lia].
  Qed.

  Lemma items_shallow1 : forall start name tbl items, Forall scalar name ->
    Forall (fun en : (str * ptype) * metadata => Forall scalar (fst (fst en))) tbl ->
    items_of_plugin e start name tbl = Ok items -> Forall (shallow 15) items.
  Proof.
    intros start name tbl items Hn F. revert items. induction F as [|[[n t] m] tbl Hk F IH]; intros items H; cbn [items_of_plugin] in H;
      [injection H as <-; constructor|].
    match type of H with (if ?b then _ else _) = _ => destruct b end; [|apply IH; exact H].
    apply bind_ok in H as (j & H1 & H). apply bind_ok in H as (js & H2 & H). injection H as <-. constructor; [|apply IH; exact H2].
    eapply item_shallow; [exact Hn|exact Hk| |exact H1]. apply ET.
  Qed.

  Lemma items_shallow : forall start ps items, Forall (fun en => plugin_texts (snd en)) ps ->
    items_of_plugins e start ps = Ok items -> Forall (shallow 15) items.
  Proof.
    intros start ps items F. revert items. induction F as [|[n p] ps [Hp Ht] F IH]; intros items H; cbn [items_of_plugins] in H;
      [injection H as <-; constructor|].
    apply bind_ok in H as (a & H1 & H). apply bind_ok in H as (b & H2 & H). injection H as <-.
    apply Forall_app. split; [eapply items_shallow1; eassumption|apply IH; exact H2].
  Qed.

  Lemma completion_shallow : forall st ctx j, (forall pr, srv_project st = Some pr -> project_texts pr) ->
    handle_completion e st ctx = Ok (Some j) -> shallow 19 j.
  Proof.
    intros st ctx j P H. unfold handle_completion in H. destruct (srv_project st) as [pr|]; [|discriminate].
    apply bind_ok in H as (loaded & H1 & H). apply bind_ok in H as (ps & H2 & H). apply bind_ok in H as (tr & H3 & H).
    destruct tr as [start|]; [|discriminate]. apply bind_ok in H as (items & H4 & H). injection H as <-.
    apply shallow_arr. assert (F : Forall (shallow 15) items).
    { eapply items_shallow; [|exact H4]. eapply table_in; [exact H2| |constructor]. eapply loaded_texts; [exact H1|apply P; reflexivity]. }
    apply Forall_forall. intros x I. rewrite Forall_forall in F. apply (shallow_more 15); [lia|]. apply F.
    eapply Permutation_in; [apply SO|exact I].
  Qed.

  Variable uuid : nat -> str.
  Variable checks : bool.

  Lemma get_text : forall k j v, json_get k j = Some v -> texts j -> texts v.
  Proof.
    intros k [| | | | | |fs] v H T; try discriminate. cbn in H, T. revert v H. induction fs as [|[k' x] fs IH]; intros v H; cbn in *; [discriminate|].
    destruct T as (_ & Tx & T). destruct (field_get k fs) as [r|].
    - injection H as ->. apply IH; [exact T|reflexivity].
    - destruct (str_eqb k k'); [injection H as <-; exact Tx|discriminate].
  Qed.

  Lemma request_range : forall msg id m, request_of msg = Some (id, m) -> texts msg ->
    (-9223372036854775808 <= id <= 9223372036854775807)%Z /\ Forall scalar m.
  Proof.
    intros msg id m H T. unfold request_of in H. rewrite !lookup_get in H.
    destruct (json_get (lit "id") msg) as [[]|]; try discriminate.
    destruct (json_get (lit "method") msg) as [[]|] eqn:M; try discriminate.
    destruct ((- 2 ^ 63 <=? z) && (z <? 2 ^ 63))%Z eqn:E; [|discriminate]. injection H as <- <-.
    split; [lia|]. exact (get_text _ _ _ M T).
  Qed.

  Ltac one := apply Forall_cons; [|apply Forall_nil].

  Theorem dispatch_readable : forall st msg st' out r,
    (forall pr, srv_project st = Some pr -> project_texts pr) -> texts msg ->
    dispatch seg uuid checks e st msg = (st', (out, r)) ->
    Forall readable out /\ (forall pr, srv_project st' = Some pr -> project_texts pr).
  Proof.
    intros st msg st' out r P T D. split.
    - destruct (request_of msg) as [[id m]|] eqn:R.
      + destruct (request_range msg id m R T) as [Hid Hm].
        rewrite (dispatch_request seg uuid checks e st msg id m R) in D. unfold handle_request in D.
        destruct (str_eqb m (lit "initialize")).
        { destruct (initialize_params_res e (params_of msg)) as [(c & H)|(x & H)]; rewrite H in D; injection D as <- <- <-.
          - apply Forall_cons; [apply log_readable; letters|]. one. apply result_readable; [exact Hid|apply initialize_shallow].
          - one. apply log_readable. letters. }
        destruct (str_eqb m (lit "textDocument/semanticTokens/full")).
        { destruct (document_params_res e "textDocument/semanticTokens/full" (params_of msg)) as [(u & H)|(x & H)]; rewrite H in D;
            [|injection D as <- <- <-; constructor].
          unfold handle_semantic_tokens_full in D. destruct u as [| | |path]; cbn [to_path bind] in D;
            try (injection D as <- <- <-; one; apply error_readable; [exact Hid|lia|letters]; fail).
          destruct (tokenize_cases seg L e path) as [(text & ts & _ & _ & E)|(err & Rf & E)]; rewrite E in D.
          - destruct (separate checks ts) as [sts|x|x|] eqn:Sp; cbn [bind] in D; injection D as <- <- <-; try constructor.
            + apply result_readable; [exact Hid|]. apply tokens_shallow. eapply separate_small; [| |exact Sp]; lia.
            + constructor.
            + apply error_readable; [exact Hid|lia|letters].
            + constructor.
          - injection D as <- <- <-. one. apply (log_readable (lit "Failed to tokenize file: " ++ err)). apply Forall_app. split; [letters|]. eapply (proj1 ET). exact Rf. }
        destruct (str_eqb m (lit "textDocument/completion")).
        { destruct (document_params_res e "textDocument/completion" (params_of msg)) as [(u & H)|(x & H)]; rewrite H in D;
            [|injection D as <- <- <-; constructor].
          destruct (handle_completion e st (completion_context (params_of msg))) as [[j|]|x|x|] eqn:C; injection D as <- <- <-; try constructor.
          - apply result_readable; [exact Hid|]. eapply completion_shallow; eassumption.
          - constructor.
          - apply error_readable; [exact Hid|lia|letters].
          - constructor. }
        injection D as <- <- <-. one. apply error_readable; [exact Hid|lia|]. apply Forall_app. split; [exact Hm|letters].
      + destruct (notification_of msg) as [m|] eqn:N.
        2:{ destruct (dispatch_other seg uuid checks e st msg R N) as [H|H]; rewrite H in D; injection D as <- <- <-;
              [constructor|one; apply invalid_readable]. }
        rewrite (dispatch_notification seg uuid checks e st msg m N) in D. unfold handle_notification in D.
        destruct (str_eqb m (lit "initialized")); [injection D as <- <- <-; one; apply log_readable; letters|].
        destruct (str_eqb m (lit "textDocument/didOpen")).
        { destruct (document_params_res e "textDocument/didOpen" (params_of msg)) as [(u & H)|(x & H)]; rewrite H in D.
          - pose proof (handle_did_open_silent e st u) as S'. rewrite D in S'. cbn in S'. subst out. constructor.
          - injection D as <- <- <-. constructor. }
        destruct (str_eqb m (lit "textDocument/didChange")).
        { destruct (document_params_res e "textDocument/didChange" (params_of msg)) as [(u & H)|(x & H)]; rewrite H in D;
            injection D as <- <- <-; constructor. }
        destruct (str_eqb m (lit "textDocument/didSave")); [|injection D as <- <- <-; constructor].
        destruct (document_params_res e "textDocument/didSave" (params_of msg)) as [(u & H)|(x & H)]; rewrite H in D;
          [|injection D as <- <- <-; constructor].
        apply document_params_iff in H.
        destruct (did_save_cases seg L uuid e st u) as [(path & text & ts & c & a & es & -> & Rf & Tk & U & Pa & E & S1)|
          [(path & text & ts & r' & -> & Rf & Tk & U & S1 & A)|[(path & err & -> & Rf & S1)|[Hu (x & S1)]]]]; rewrite S1 in D.
        * unfold send_publish_diagnostics in D. destruct (negb _); injection D as <- <- <-; [constructor|]. one.
          apply shallow_readable. fields; try (apply shallow_str; letters). fields.
          -- apply shallow_arr. apply Forall_forall. intros x I. apply in_map_iff in I as (err & <- & _).
             eapply shallow_more; [|apply diagnostic_shallow]. lia.
          -- apply shallow_str. destruct H as ((s & _ & Pu) & _). eapply (proj1 (proj2 ET)). exact Pu.
        * injection D as <- <- <-. constructor.
        * injection D as <- <- <-. one. apply (log_readable (lit "Tokenize failed: " ++ err)). apply Forall_app. split; [letters|]. eapply (proj1 ET). exact Rf.
        * injection D as <- <- <-. constructor.
    - destruct (notification_of msg) as [m|] eqn:N.
      + destruct (str_eqb m (lit "textDocument/didOpen")) eqn:M.
        * apply str_eqb_eq in M. subst m. rewrite (dispatch_notification seg uuid checks e st msg _ N) in D. unfold handle_notification in D.
          change (str_eqb (lit "textDocument/didOpen") (lit "initialized")) with false in D.
          change (str_eqb (lit "textDocument/didOpen") (lit "textDocument/didOpen")) with true in D. cbv iota in D.
          destruct (document_params_res e "textDocument/didOpen" (params_of msg)) as [(u & H)|(x & H)]; rewrite H in D;
            [|injection D as <- _; exact P].
          unfold handle_did_open in D.
          destruct (let! path := to_path u in let! dir := ok_or (parent path) "Invalid file path" in ok_or (parent dir) "Invalid file path")
            as [root|x|x|]; try (injection D as <- _; exact P).
          destruct (open_project e root) as [[pr|]|] eqn:O; injection D as <- _; try exact P.
          cbn. intros pr' [= <-]. eapply ET. exact O.
        * rewrite (project_step seg uuid checks e st msg st' out r D); [exact P|]. rewrite N. intros [= ->]. vm_compute in M. discriminate.
      + rewrite (project_step seg uuid checks e st msg st' out r D); [exact P|]. congruence.
  Qed.
End Readable.

Section ReadableHistory.
  Variable seg : str -> list str.
  Hypothesis L : seg_laws seg.
  Variable uuid : nat -> nat -> str.
  Variable checks : bool.
  Variable envs : nat -> env.
  Hypothesis ET : forall n, env_texts (envs n).
  Hypothesis SO : forall n, some_order (envs n).

  Lemma all_readable : forall msgs p p' r, Forall texts msgs -> Forall readable (proc_sent p) ->
    (forall pr, srv_project (proc_server p) = Some pr -> project_texts pr) ->
    process_all seg uuid checks envs msgs p = (p', r) -> Forall readable (proc_sent p').
  Proof.
    induction msgs as [|m msgs IH]; intros p p' r F S1 P H; cbn [process_all] in H; [injection H as <- <-; exact S1|].
    inversion F as [|? ? Fm Fs]; subst.
    destruct (process_dispatch seg uuid checks envs p m) as [p1 r1] eqn:St.
    apply step_inv in St as (out & D & E & _).
    destruct (dispatch_readable seg L _ (ET _) (SO _) _ _ _ _ _ _ _ P Fm D) as [R1 P1].
    assert (S2 : Forall readable (proc_sent p1)) by (rewrite E; apply Forall_app; auto).
    destruct r1 as [[]|x|x|]; try (injection H as <- <-; exact S2). eapply IH; eassumption.
  Qed.

  Theorem sent_readable : forall msgs p r, Forall texts msgs ->
    process_all seg uuid checks envs msgs process_start = (p, r) -> Forall readable (proc_sent p).
  Proof.
    intros msgs p r F H. eapply all_readable; [exact F| | |exact H]; [constructor|]. cbn. discriminate.
  Qed.
End ReadableHistory.

(** The bytes written and read. *)
Lemma handle_values : forall St (step : St -> json -> St * res unit) js st, Forall readable js ->
  handle read_json step (map (fun j => utf8 (print j)) js) st
  = (fix go js st := match js with
     | [] => (st, Ok tt)
     | j :: js' => match step st j with (st', Ok _) => go js' st' | r => r end
     end) js st.
Proof.
  intros St step js st F. revert st. induction F as [|j js R F IH]; intro st; cbn [map handle]; [reflexivity|].
  rewrite (read_json_print j R). destruct (step st j) as [st' [u|x|x|]]; [apply IH|reflexivity|reflexivity|reflexivity].
Qed.

Lemma framed : forall checks St (step : St -> json -> St * res unit) js st, Forall readable js -> Forall fits js ->
  run checks read_json step (map (fun j => send_message (print j)) js) st
  = handle read_json step (map (fun j => utf8 (print j)) js) st.
Proof.
  intros checks St step js st R F.
  rewrite <- (map_map print send_message js). rewrite (written_is_read St json checks read_json step (map print js) st).
  - rewrite map_map. reflexivity.
  - apply Forall_forall. intros m I. apply in_map_iff in I as (j & <- & I). rewrite Forall_forall in R, F. split.
    + apply print_scalar. apply (R j I).
    + apply (F j I).
Qed.

Theorem server_run_is_history : forall seg uuid checks envs msgs, Forall readable msgs -> Forall fits msgs ->
  server_run seg uuid checks envs (map (fun j => send_message (print j)) msgs) = process_all seg uuid checks envs msgs process_start.
Proof.
  intros seg uuid checks envs msgs R F. unfold server_run. rewrite framed by assumption. rewrite handle_values by assumption.
  generalize process_start. induction msgs as [|m msgs IH]; intro p; [reflexivity|]. cbn [process_all].
  inversion R; inversion F; subst. destruct (process_dispatch seg uuid checks envs p m) as [p' [u|x|x|]]; auto.
Qed.
