(** Histories of the language server. *)
From Coq Require Import String List NArith ZArith Bool Lia Permutation.
From Verif Require Import Base Tokens Graphemes Tokenizer SpecCST Plugin Utf8 Framing SpecFraming SemTok Json Server SpecLsp LspProofs LspProofs2 LspProofs3.
Import ListNotations.

Lemma filter_map_app : forall A B (f : A -> option B) a b, filter_map f (a ++ b) = filter_map f a ++ filter_map f b.
Proof. intros A B f a b. unfold filter_map. apply flat_map_app. Qed.
Lemma filter_map_none : forall A B (f : A -> option B) l, Forall (fun x => f x = None) l -> filter_map f l = [].
Proof.
  intros A B f l F. induction F as [|x l H F IH]; [reflexivity|]. unfold filter_map in *. cbn. rewrite H. exact IH.
Qed.
Lemma sub_app : forall A (a b c d : list A), subsequence a b -> subsequence c d -> subsequence (a ++ c) (b ++ d).
Proof. intros A a b c d S1 S2. induction S1; cbn; [assumption|constructor; assumption|constructor; assumption]. Qed.
Lemma sub_none : forall A (b : list A), subsequence [] b.
Proof. induction b; constructor; assumption. Qed.

Section History.
  Variable seg : str -> list str.
  Hypothesis L : seg_laws seg.
  Variable uuid : nat -> nat -> str.
  Variable checks : bool.
  Variable envs : nat -> env.

  Notation step := (process_dispatch seg uuid checks envs).
  Notation all := (process_all seg uuid checks envs).

  (** The last message handled, if there is one. *)
  Lemma step_inv : forall p msg p' r, step p msg = (p', r) -> exists out,
    dispatch seg (uuid (proc_count p)) checks (envs (proc_count p)) (proc_server p) msg = (proc_server p', (out, r))
    /\ proc_sent p' = proc_sent p ++ out /\ proc_count p' = S (proc_count p).
  Proof.
    intros p msg p' r H. unfold process_dispatch in H.
    destruct (dispatch _ _ _ _ _ _) as [st [out r']] eqn:D. injection H as <- <-. exists out. auto.
  Qed.

  Lemma step_answers : forall p msg p' r, step p msg = (p', r) ->
    exists more, filter_map answer_of (proc_sent p') = filter_map answer_of (proc_sent p) ++ more
      /\ subsequence more (map fst (filter_map request_of [msg])).
  Proof.
    intros p msg p' r H. apply step_inv in H as (out & D & -> & _). rewrite filter_map_app. eexists. split; [reflexivity|].
    destruct (request_of msg) as [[id m]|] eqn:R.
    - assert (E : map fst (filter_map request_of [msg]) = [id]) by (unfold filter_map; cbn; rewrite R; reflexivity). rewrite E.
      destruct (request_answers _ _ _ _ _ _ _ _ _ _ _ R D) as [(logs & a & -> & Hl & Ha)|Hn].
      + rewrite filter_map_app, (filter_map_none _ _ answer_of logs).
        * unfold filter_map. cbn. rewrite Ha. cbn. constructor. constructor.
        * eapply Forall_impl; [|exact Hl]. intros x [_ X]. exact X.
      + rewrite (filter_map_none _ _ answer_of out); [apply sub_none|]. eapply Forall_impl; [|exact Hn]. intros x [_ X]. exact X.
    - rewrite (filter_map_none _ _ answer_of out); [apply sub_none|]. eapply no_request_no_answer; eassumption.
  Qed.

  Lemma answers_in_order : forall msgs p p' r, all msgs p = (p', r) ->
    exists more, filter_map answer_of (proc_sent p') = filter_map answer_of (proc_sent p) ++ more
      /\ subsequence more (map fst (filter_map request_of msgs)).
  Proof.
    induction msgs as [|msg msgs IH]; intros p p' r H; cbn [process_all] in H.
    - injection H as <- <-. exists []. rewrite app_nil_r. split; [reflexivity|constructor].
    - destruct (step p msg) as [p1 r1] eqn:S1. destruct (step_answers p msg p1 r1 S1) as (m1 & E1 & Q1).
      change (msg :: msgs) with ([msg] ++ msgs). rewrite filter_map_app, map_app.
      destruct r1 as [u|x|x|].
      + destruct (IH p1 p' r H) as (m2 & E2 & Q2). exists (m1 ++ m2). rewrite E2, E1, app_assoc. split; [reflexivity|].
        apply sub_app; assumption.
      + injection H as <- <-. exists m1. split; [exact E1|]. rewrite <- (app_nil_r m1). apply sub_app; [exact Q1|apply sub_none].
      + injection H as <- <-. exists m1. split; [exact E1|]. rewrite <- (app_nil_r m1). apply sub_app; [exact Q1|apply sub_none].
      + injection H as <- <-. exists m1. split; [exact E1|]. rewrite <- (app_nil_r m1). apply sub_app; [exact Q1|apply sub_none].
  Qed.

  Theorem answers_subsequence : forall msgs p r, all msgs process_start = (p, r) ->
    subsequence (filter_map answer_of (proc_sent p)) (map fst (filter_map request_of msgs)).
  Proof. intros msgs p r H. destruct (answers_in_order msgs process_start p r H) as (more & -> & S1). exact S1. Qed.

  (** The capability is that of the last initialize request. *)
  Definition last_initialize (msgs : list json) : Prop :=
    exists before i after, msgs = before ++ i :: after /\ is_initialize i = true /\ announces_diagnostics i
      /\ Forall (fun m => is_initialize m = false) after.

  Lemma last_initialize_snoc : forall msgs m,
    last_initialize (msgs ++ [m]) <-> if is_initialize m then announces_diagnostics m else last_initialize msgs.
  Proof.
    intros msgs m. destruct (is_initialize m) eqn:I.
    - split.
      + intros (b & i & a & E & Hi & Ha & F). destruct a as [|x a] using rev_ind.
        * apply app_inj_tail in E as [_ ->]. exact Ha.
        * clear IHa. rewrite app_comm_cons, app_assoc in E. apply app_inj_tail in E as [_ ->].
          apply Forall_app in F as [_ F]. inversion F. congruence.
      + intro A. exists msgs, m, []. auto.
    - split.
      + intros (b & i & a & E & Hi & Ha & F). destruct a as [|x a] using rev_ind.
        * apply app_inj_tail in E as [_ ->]. congruence.
        * clear IHa. rewrite app_comm_cons, app_assoc in E. apply app_inj_tail in E as [-> ->].
          apply Forall_app in F as [F _]. exists b, i, a. auto.
      + intros (b & i & a & -> & Hi & Ha & F). exists b, i, (a ++ [m]). rewrite <- app_assoc. repeat split; auto.
        apply Forall_app. auto.
  Qed.

  Lemma all_app : forall a b p, all (a ++ b) p = match all a p with (p', Ok _) => all b p' | r => r end.
  Proof.
    induction a as [|m a IH]; intros b p; cbn [app process_all]; [reflexivity|].
    destruct (step p m) as [p1 [u|x|x|]]; [apply IH|reflexivity|reflexivity|reflexivity].
  Qed.

  Lemma flag_history : forall msgs p, all msgs process_start = (p, Ok tt) ->
    (publish_diagnostics (proc_server p) = true <-> last_initialize msgs).
  Proof.
    induction msgs as [|m msgs IH] using rev_ind; intros p H.
    - cbn in H. injection H as <-. cbn. split; [discriminate|]. intros (b & i & a & E & _). destruct b; discriminate.
    - rewrite all_app in H. destruct (all msgs process_start) as [p1 r1] eqn:A. destruct r1 as [[]|x|x|]; try discriminate.
      cbn [process_all] in H. destruct (step p1 m) as [p2 r2] eqn:S1. destruct r2 as [[]|x|x|]; try discriminate.
      injection H as <-. apply step_inv in S1 as (out & D & _ & _).
      pose proof (flag_step _ _ _ _ _ _ _ _ _ D eq_refl) as F. rewrite last_initialize_snoc.
      destruct (is_initialize m); [exact F|]. rewrite F. apply IH. reflexivity.
  Qed.

  Lemma sent_from : forall msgs p r d, all msgs process_start = (p, r) -> In d (proc_sent p) ->
    exists before m after p1 out p2 r2, msgs = before ++ m :: after /\ all before process_start = (p1, Ok tt)
      /\ dispatch seg (uuid (proc_count p1)) checks (envs (proc_count p1)) (proc_server p1) m = (proc_server p2, (out, r2))
      /\ step p1 m = (p2, r2) /\ In d out.
  Proof.
    induction msgs as [|m msgs IH] using rev_ind; intros p r d H I.
    - cbn in H. injection H as <- <-. destruct I.
    - rewrite all_app in H. destruct (all msgs process_start) as [p1 r1] eqn:A.
      assert (Old : In d (proc_sent p1) -> exists before m0 after p1 out p2 r2, msgs ++ [m] = before ++ m0 :: after /\ all before process_start = (p1, Ok tt)
        /\ dispatch seg (uuid (proc_count p1)) checks (envs (proc_count p1)) (proc_server p1) m0 = (proc_server p2, (out, r2))
        /\ step p1 m0 = (p2, r2) /\ In d out).
      { intro J. destruct (IH p1 r1 d eq_refl J) as (b & m0 & a & q1 & out & q2 & r2 & -> & X). exists b, m0, (a ++ [m]), q1, out, q2, r2.
        rewrite <- app_assoc. split; [reflexivity|exact X]. }
      destruct r1 as [[]|x|x|]; try (injection H as <- <-; exact (Old I)).
      cbn [process_all] in H. destruct (step p1 m) as [p2 r2] eqn:S1.
      assert (p = p2) by (destruct r2 as [[]|x|x|]; injection H as <- <-; reflexivity). subst p.
      pose proof (step_inv _ _ _ _ S1) as (out & D & E & _). rewrite E in I. apply in_app_or in I as [I|I]; [exact (Old I)|].
      exists msgs, m, [], p1, out, p2, r2. auto.
  Qed.

  Theorem diagnostics_history : forall msgs p r d, all msgs process_start = (p, r) ->
    In d (proc_sent p) -> is_diagnostics d = true ->
    exists before i between save after, msgs = before ++ i :: between ++ save :: after
      /\ is_initialize i = true /\ announces_diagnostics i
      /\ Forall (fun m => is_initialize m = false) between
      /\ notification_of save = Some (lit "textDocument/didSave").
  Proof.
    intros msgs p r d H I Di. destruct (sent_from msgs p r d H I) as (b & m & a & p1 & out & p2 & r2 & -> & A & D & _ & J).
    destruct (diagnostics_only _ L _ _ _ _ _ _ _ _ d D J Di) as [F N].
    apply (flag_history b p1 A) in F as (before & i & between & -> & Hi & Ha & Hb).
    exists before, i, between, m, a. rewrite <- app_assoc. auto.
  Qed.

  (** Every run of the server on bytes is such a history. *)
  Lemma run_is_history : forall reads buffer p p' r,
    run_loop checks read_json step buffer reads p = (p', r) ->
    exists msgs r', all msgs p = (p', r') /\ (r' = Ok tt \/ r' = r).
  Proof.
    induction reads as [|chunk reads IH]; intros buffer p p' r H.
    - cbn in H. injection H as <- <-. exists [], (Ok tt). auto.
    - cbn [run_loop] in H. destruct chunk as [|c chunk]; [injection H as <- <-; exists [], (Ok tt); auto|].
      destruct (next_message checks (buffer ++ c :: chunk)) as [[|body total]|x|x|];
        try (injection H as <- <-; exists [], (Ok tt); auto; fail); [exact (IH _ _ _ _ H)|].
      destruct (read_json body) as [msg|x|x|]; try (injection H as <- <-; exists [], (Ok tt); auto; fail).
      destruct (step p msg) as [p1 r1] eqn:S1. destruct r1 as [[]|x|x|].
      + destruct (IH _ _ _ _ H) as (msgs & r' & A & O). exists (msg :: msgs), r'. split; [|exact O].
        cbn [process_all]. rewrite S1. exact A.
      + injection H as <- <-. exists [msg], (Err x). split; [cbn [process_all]; rewrite S1; reflexivity|auto].
      + injection H as <- <-. exists [msg], (Panic x). split; [cbn [process_all]; rewrite S1; reflexivity|auto].
      + injection H as <- <-. exists [msg], Fuel. split; [cbn [process_all]; rewrite S1; reflexivity|auto].
  Qed.
End History.
