(** The answers to requests, the pieces of LspProofs2.v and LspProofs3.v put together. *)
From Coq Require Import String List NArith ZArith Bool Lia Permutation.
From Verif Require Import Base Tokens Graphemes Tokenizer SpecCST SpecTransform Plugin Utf8 Framing SpecFraming SemTok SpecServer SemTokProofs Json Server SpecLsp
  FramingProofs FramingProofs2 LspProofs PathProofs LspProofs2 LspProofs3 LspHistory LspReadable.
Import ListNotations.

Section Together.
  Variable seg : str -> list str.
  Hypothesis L : seg_laws seg.
  Variable uuid : nat -> str.
  Variable checks : bool.
  Variable e : env.
  Variable st : server.

  Theorem answers_shape : forall msg id m st' out r, request_of msg = Some (id, m) ->
    dispatch seg uuid checks e st msg = (st', (out, r)) ->
    exists logs ans, out = logs ++ ans /\ Forall (fun j => is_log j = true /\ answer_of j = None) logs
      /\ (ans = [] \/ exists a, ans = [a] /\ answer_of a = Some id).
  Proof.
    intros msg id m st' out r R D. destruct (request_answers seg uuid checks e st msg id m st' out r R D) as [(logs & a & -> & Hl & Ha)|Hn].
    - exists logs, [a]. repeat split; eauto.
    - exists out, []. rewrite app_nil_r. repeat split; auto.
  Qed.

  Theorem ends_exactly : small_files e -> absolute_paths e -> forall msg st' out r,
    dispatch seg uuid checks e st msg = (st', (out, r)) -> (r = Ok tt <-> survives seg e msg) /\ r <> Fuel.
  Proof.
    intros SF AP msg st' out r D. destruct (request_of msg) as [[id m]|] eqn:R.
    - destruct (request_outcome seg L uuid checks e st SF msg id m st' out r R D) as (_ & H & O). split; [exact H|].
      destruct O as [->|(x & ->)]; discriminate.
    - destruct (notification_outcome seg L uuid checks e st AP msg st' out r R D) as (H & _ & F). auto.
  Qed.

  Theorem panics_exactly : small_files e -> absolute_paths e -> forall msg st' out r,
    dispatch seg uuid checks e st msg = (st', (out, r)) ->
    ((exists x, r = Panic x) <-> exists path text ts, notification_of msg = Some (lit "textDocument/didSave")
          /\ decodes e "textDocument/didSave" msg (FilePath path) /\ read_file e path = inl text
          /\ tokenize_str seg text = Ok ts /\ acceptable ts = true /\ outside [] (map tk ts) = true).
  Proof.
    intros SF AP msg st' out r D. destruct (request_of msg) as [[id m]|] eqn:R.
    - destruct (request_outcome seg L uuid checks e st SF msg id m st' out r R D) as (_ & H & O). split.
      + intros (x & X). destruct O as [->|(y & ->)]; discriminate.
      + intros (path & text & ts & N & _). unfold notification_of in N. rewrite R in N. discriminate.
    - apply (notification_outcome seg L uuid checks e st AP msg st' out r R D).
  Qed.

  Theorem tokens_answer : forall msg id path text ts,
    request_of msg = Some (id, lit "textDocument/semanticTokens/full") ->
    decodes e "textDocument/semanticTokens/full" msg (FilePath path) ->
    read_file e path = inl text -> (N.of_nat (length text) < 2 ^ 32)%N -> tokenize_str seg text = Ok ts ->
    exists a sts, dispatch seg uuid checks e st msg = (st, ([a], Ok tt)) /\ answer_of a = Some id
      /\ lookup_path ["result"; "data"]%string a = Some (JArr (flat_map (fun t => map (fun n => JInt (Z.of_N n))
           [delta_line t; delta_start t; sem_length t; token_type t; token_modifiers_bitset t]) sts))
      /\ map fst (decode 0 0 sts) = map span ts
      /\ map token_type sts = map (fun t => token_kind_to_type (tk t)) ts.
  Proof.
    intros msg id path text ts R D Rf B T. rewrite (dispatch_request seg uuid checks e st msg id _ R). unfold handle_request.
    change (str_eqb (lit "textDocument/semanticTokens/full") (lit "initialize")) with false.
    change (str_eqb (lit "textDocument/semanticTokens/full") (lit "textDocument/semanticTokens/full")) with true. cbv iota.
    apply document_params_iff in D. rewrite D. unfold handle_semantic_tokens_full. cbn [to_path bind]. unfold tokenize. rewrite Rf, T.
    destruct (SemTokProofs.semantic_tokens_decode seg L checks text ts T B) as (sts & S1 & S2 & S3). rewrite S1. cbn [bind].
    eexists _, sts. repeat split; try assumption.
  Qed.

  Theorem completion_answer : forall msg id u pr loaded ps t, some_order e ->
    request_of msg = Some (id, lit "textDocument/completion") -> decodes e "textDocument/completion" msg u ->
    srv_project st = Some pr -> NoDup (map fst pr) -> loads e pr loaded ps -> triggered msg t ->
    exists a items, dispatch seg uuid checks e st msg = (st, ([a], Ok tt)) /\ answer_of a = Some id
      /\ lookup "result" a = Some (JArr items)
      /\ Permutation (map label_and_text items) (map Some (offers t loaded)).
  Proof.
    intros msg id u pr loaded ps t SO R D P N Ld T. rewrite (dispatch_request seg uuid checks e st msg id _ R). unfold handle_request.
    change (str_eqb (lit "textDocument/completion") (lit "initialize")) with false.
    change (str_eqb (lit "textDocument/completion") (lit "textDocument/semanticTokens/full")) with false.
    change (str_eqb (lit "textDocument/completion") (lit "textDocument/completion")) with true. cbv iota.
    apply document_params_iff in D. rewrite D.
    assert (HC : has_context msg).
    { unfold triggered in T. rewrite path_params in T. cbn [lookup_path] in T. destruct (lookup "context" (params msg)) as [c|] eqn:C; [|discriminate].
      exists c. rewrite path_params. cbn [lookup_path]. rewrite C. split; [reflexivity|]. intros ->. discriminate. }
    destruct (completion_cases e st msg) as [[P' _]|(pr' & P' & [[Nl _]|(loaded' & ps' & Ld' & [[Nc _]|[(_ & Nt & _)|(_ & t' & items & T' & M & E)]])])].
    - congruence.
    - exfalso. assert (pr' = pr) by congruence. subst. eauto.
    - contradiction.
    - exfalso. eauto.
    - assert (pr' = pr) by congruence. subst pr'. destruct (loads_fun e pr loaded ps loaded' ps' Ld Ld') as [<- <-].
      assert (t' = t) by (unfold triggered in *; congruence). subst t'. rewrite E.
      eexists _, (hash_order e items). split; [reflexivity|]. split; [reflexivity|]. split; [reflexivity|].
      rewrite (Permutation_map label_and_text (SO items)), M.
      destruct Ld as [F Pn]. rewrite (plugins_table loaded _ ps Pn).
      + cbn [name_to_plugin app]. rewrite map_map. cbn [snd]. rewrite map_id. reflexivity.
      + cbn [name_to_plugin map app]. rewrite (loaded_names e pr loaded ps); [exact N|]. split; [exact F|exact Pn].
  Qed.

  Theorem no_macros : forall loaded, offers (lit "<") loaded = [].
  Proof.
    intro loaded. unfold offers. induction loaded as [|p ps IH]; [reflexivity|]. cbn [flat_map]. rewrite IH, app_nil_r.
    generalize (p_metadata p). intro l. induction l as [|[[n t] m] l IHl]; [reflexivity|]. cbn [flat_map fst snd]. rewrite IHl.
    destruct t; reflexivity.
  Qed.

  Theorem unknown_method : forall msg id m, request_of msg = Some (id, m) ->
    ~ In m [lit "initialize"; lit "textDocument/semanticTokens/full"; lit "textDocument/completion"] ->
    exists a, dispatch seg uuid checks e st msg = (st, ([a], Ok tt)) /\ answer_of a = Some id
      /\ error_code a = Some (-32601)%Z /\ is_result a = false.
  Proof.
    intros msg id m R N. rewrite (dispatch_request seg uuid checks e st msg id _ R). unfold handle_request.
    assert (E : forall k, In k [lit "initialize"; lit "textDocument/semanticTokens/full"; lit "textDocument/completion"] -> str_eqb m k = false).
    { intros k I. apply str_eqb_neq. intros ->. contradiction. }
    rewrite !E by (cbn [In]; auto). eexists. repeat split.
  Qed.

  Theorem initialize_answer : forall msg id, request_of msg = Some (id, lit "initialize") -> initialize_decodes e msg ->
    exists log a, dispatch seg uuid checks e st msg
      = (mkserver (publish_diagnostics (fst (dispatch seg uuid checks e st msg))) (srv_project st), ([log; a], Ok tt))
      /\ logged log = Some (lit "Brack Language Server is initializing...") /\ answer_of a = Some id
      /\ Forall (fun kv => lookup_path ("result"%string :: fst kv) a = Some (snd kv)) announced.
  Proof.
    intros msg id R I. rewrite (dispatch_request seg uuid checks e st msg id _ R). unfold handle_request.
    change (str_eqb (lit "initialize") (lit "initialize")) with true. cbv iota.
    apply initialize_params_iff in I as (c & I). rewrite I. eexists _, _. split; [reflexivity|]. repeat split.
    repeat (apply Forall_cons; [reflexivity|]). apply Forall_nil.
  Qed.

  (** Saving is the only way to run the parser; everything else it does is nothing. *)
  Theorem save_unreadable : forall msg path err, notification_of msg = Some (lit "textDocument/didSave") ->
    decodes e "textDocument/didSave" msg (FilePath path) -> read_file e path = inr err ->
    exists log, dispatch seg uuid checks e st msg = (st, ([log], Ok tt)) /\ logged log = Some (lit "Tokenize failed: " ++ err).
  Proof.
    intros msg path err N D R. rewrite (save_dispatch seg uuid checks e st msg _ N D). unfold handle_did_save. cbn [to_path].
    unfold tokenize. rewrite R. eexists. split; reflexivity.
  Qed.
End Together.

(** Everything the server has sent is read back by a client with the same reading loop. *)
Theorem client_reads : forall seg, seg_laws seg -> forall uuid checks envs msgs p r,
  (forall n, env_texts (envs n)) -> (forall n, some_order (envs n)) -> Forall texts msgs ->
  process_all seg uuid checks envs msgs process_start = (p, r) -> Forall fits (proc_sent p) ->
  forall checks', run checks' read_json (fun seen j => (seen ++ [j], Ok tt)) (map (fun j => send_message (print j)) (proc_sent p)) []
  = (proc_sent p, Ok tt).
Proof.
  intros seg L uuid checks envs msgs p r ET SO F H Ft checks'.
  pose proof (sent_readable seg L uuid checks envs ET SO msgs p r F H) as R.
  rewrite framed by assumption. rewrite handle_values by assumption.
  enough (G : forall seen, (fix go (js : list json) (st : list json) {struct js} : list json * res unit := match js with
     | [] => (st, Ok tt)
     | j :: js' => let (st', r) := (st ++ [j], Ok tt) in match r with Ok _ => go js' st' | _ => (st', r) end
     end) (proc_sent p) seen = (seen ++ proc_sent p, Ok tt)) by exact (G []).
  induction (proc_sent p) as [|j js IH]; intro seen; [rewrite app_nil_r; reflexivity|].
  inversion R; inversion Ft; subst. rewrite IH by assumption. rewrite <- app_assoc. reflexivity.
Qed.
