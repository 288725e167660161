(** Messages that are neither requests nor one of the notifications with a handler, and saving after
    a client has announced that it shows diagnostics. *)
From Coq Require Import String List NArith ZArith Bool Lia.
From Verif Require Import Base Tokens Graphemes Tokenizer Parser AST TransformError Transform SpecTok SpecTransform Plugin Utf8
  Framing SemTok SpecServer Json SpecJson Server SpecLsp LspProofs LspProofs3 LspHistory.
Import ListNotations.
Local Open Scope string_scope.
Local Open Scope list_scope.

Section Others.
  Variables (seg : str -> list str) (uuid : nat -> str) (checks : bool) (e : env) (st : server).

  (** What the client answers is ignored. *)
  Theorem response_ignored : forall msg id, lookup "id" msg = Some (JInt id) -> (-2 ^ 63 <= id < 2 ^ 63)%Z ->
    (forall m, lookup "method" msg <> Some (JStr m)) -> dispatch seg uuid checks e st msg = (st, ([], Ok tt)).
  Proof.
    intros msg id I B M. rewrite lookup_get in I. unfold dispatch. rewrite I. unfold as_i64.
    replace ((-9223372036854775808 <=? id) && (id <=? 9223372036854775807))%Z with true by
      (symmetry; apply andb_true_iff; split; apply Z.leb_le; lia).
    destruct (json_get (lit "method") msg) as [j|] eqn:G; [|reflexivity]. destruct j; try reflexivity.
    exfalso. apply (M s). rewrite lookup_get. exact G.
  Qed.

  (** Without a number and a method a message is invalid. *)
  Theorem invalid_request : forall msg, (forall id, lookup "id" msg = Some (JInt id) -> ~ (-2 ^ 63 <= id < 2 ^ 63)%Z) ->
    (forall m, lookup "method" msg <> Some (JStr m)) ->
    exists a, dispatch seg uuid checks e st msg = (st, ([a], Ok tt)) /\ error_code a = Some (-32600)%Z
      /\ lookup "id" a = Some JNull.
  Proof.
    intros msg I M. exists invalid_request_response. split; [|split; reflexivity]. unfold dispatch.
    assert (A : match json_get (lit "id") msg with Some i => as_i64 i | None => None end = None).
    { destruct (json_get (lit "id") msg) as [j|] eqn:G; [|reflexivity]. destruct j; try reflexivity.
      rewrite <- lookup_get in G. specialize (I _ G). unfold as_i64.
      destruct ((-9223372036854775808 <=? z) && (z <=? 9223372036854775807))%Z eqn:B; [|reflexivity].
      apply andb_true_iff in B as [B1 B2]. apply Z.leb_le in B1, B2. exfalso. apply I. lia. }
    rewrite A. destruct (json_get (lit "method") msg) as [j|] eqn:G; [|reflexivity]. destruct j; try reflexivity.
    exfalso. apply (M s). rewrite lookup_get. exact G.
  Qed.

  (** Notifications of other methods are ignored; [initialized] is logged. *)
  Theorem other_notification : forall msg m, notification_of msg = Some m ->
    ~ In m [lit "initialized"; lit "textDocument/didOpen"; lit "textDocument/didChange"; lit "textDocument/didSave"] ->
    dispatch seg uuid checks e st msg = (st, ([], Ok tt)).
  Proof.
    intros msg m N I. rewrite (dispatch_notification seg uuid checks e st msg m N). unfold handle_notification.
    assert (X : forall n, In n [lit "initialized"; lit "textDocument/didOpen"; lit "textDocument/didChange"; lit "textDocument/didSave"]
      -> str_eqb m n = false).
    { intros n J. destruct (str_eqb m n) eqn:Q; [|reflexivity]. apply str_eqb_eq in Q as ->. contradiction. }
    rewrite (X (lit "initialized")), (X (lit "textDocument/didOpen")), (X (lit "textDocument/didChange")), (X (lit "textDocument/didSave"))
      by (cbn [In]; tauto). reflexivity.
  Qed.

  Theorem initialized_logged : forall msg, notification_of msg = Some (lit "initialized") ->
    exists log, dispatch seg uuid checks e st msg = (st, ([log], Ok tt)) /\ logged log = Some (lit "Brack Language Server has been initialized!").
  Proof.
    intros msg N. rewrite (dispatch_notification seg uuid checks e st msg _ N). eexists. split; reflexivity.
  Qed.

  Theorem change_ignored : forall msg u, notification_of msg = Some (lit "textDocument/didChange") ->
    decodes e "textDocument/didChange" msg u -> dispatch seg uuid checks e st msg = (st, ([], Ok tt)).
  Proof.
    intros msg u N D. rewrite (dispatch_notification seg uuid checks e st msg _ N). unfold handle_notification.
    apply document_params_iff in D.
    change (str_eqb (lit "textDocument/didChange") (lit "initialized")) with false.
    change (str_eqb (lit "textDocument/didChange") (lit "textDocument/didOpen")) with false.
    change (str_eqb (lit "textDocument/didChange") (lit "textDocument/didChange")) with true.
    cbv iota. rewrite D. reflexivity.
  Qed.
End Others.
