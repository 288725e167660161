(** Every depth is reached, by a text of opening brackets only; and how deep a rejected text gets. *)
From Coq Require Import String List NArith ZArith Arith Bool Lia.
From Verif Require Import Base Tokens Graphemes Tokenizer TokenizerRun TokenizerProofs CST SpecTok SpecCST OverflowProofs Parser ParserProofs ParserProofs2 SpecNesting ParserDepth.
Import ListNotations.

Definition open_toks (ls : list loc) (e : loc) : list token := map (mktok TkSquareOpen) ls ++ [mktok TkEOF e].

Lemma open_dispatch : forall seg, seg_laws seg -> forall m fuel st toks, m < fuel -> g_pg st = [] ->
  exists ls e, length ls = m /\ dispatch seg fuel (conc st toks (repeat 91%N m)) = Ok (toks ++ open_toks ls e).
Proof.
  intros seg L. induction m as [|m IH]; intros fuel st toks HF HP; (destruct fuel as [|fuel]; [lia|]); cbn [dispatch].
  - exists [], (span (g_line st) (g_sc st) 0). split; [reflexivity|].
    apply (step_nul seg _ [] st toks _ (seg_open seg L 0) (or_introl HP) eq_refl).
  - assert (Hs : seg (repeat 91%N (S m)) = [91%N] :: repeat [91%N] m) by apply (seg_open seg L).
    rewrite (step_conc seg L _ [91%N] (repeat [91%N] m) st toks (repeat 91%N (S m)) Hs (or_introl HP) eq_refl).
    assert (A : st_arm [91%N] (hd2 (repeat [91%N] m)) st = ASquareO).
    { unfold st_arm. destruct m; cbn [repeat hd2]; destruct (g_look st), (g_nested st); reflexivity. }
    rewrite A. cbn [apply_arm].
    assert (EC : concat (repeat [91%N] m) = repeat 91%N m) by (clear; induction m; cbn; congruence).
    rewrite EC.
    match goal with |- context [dispatch seg fuel (conc ?st2 (toks ++ [mktok _ ?l]) _)] =>
      destruct (IH fuel st2 (toks ++ [mktok TkSquareOpen l])) as (ls & e & E1 & E2); [lia|reflexivity|];
      exists (l :: ls), e; split; [cbn; congruence|]; cbn [arm_kind] in *; rewrite E2, <- app_assoc; reflexivity end.
Qed.

Lemma end_loop : forall f cs l e, 3 <= f ->
  expr_loop f (CInner CExpr cs l) [mktok TkEOF e] = Ok (CInner CExpr cs l, [mktok TkEOF e]).
Proof. intros [|[|[|f]]] cs l e H; try lia. reflexivity. Qed.

Lemma end_b_loop : forall f r e, 4 <= f -> b_loop f r [mktok TkEOF e] = Ok (r, [mktok TkEOF e]).
Proof.
  intros [|f] r e H; [lia|]. cbn [b_loop]. unfold new_expr. rewrite end_loop by lia. reflexivity.
Qed.

Lemma nest : forall ls e f, 4 * length ls + 6 <= f -> exists cs l,
  expr_loop f new_expr (open_toks ls e) = Ok (CInner CExpr cs l, [mktok TkEOF e]) /\
  list_max (map levels cs) = length ls /\ (cs = [] <-> ls = []).
Proof.
  induction ls as [|x ls IH]; intros e f H.
  - exists [], mock_location. split; [|split; [reflexivity|tauto]]. apply end_loop. cbn in H. lia.
  - cbn [length] in H. do 4 (destruct f as [|f]; [lia|]).
    destruct (IH e f ltac:(lia)) as (cs & l & E & Lv & Em).
    change (open_toks (x :: ls) e) with (mktok TkSquareOpen x :: open_toks ls e).
    assert (B : exists cs' l', b_parse (S (S f)) KSquare (mktok TkSquareOpen x :: open_toks ls e) =
        Ok (CInner CSquare cs' l', [mktok TkEOF e]) /\ list_max (map levels cs') = length ls).
    { cbn [b_parse b_open_parse bind b_node]. unfold new_square.
      cbn [cst_add cst_add_opt bind b_loop]. rewrite E. cbn [bind].
      destruct cs as [|c cs].
      - rewrite (proj1 Em eq_refl) in *. cbn [expr_finish cst_children bind open_toks map app newline_parse].
        eexists _, _. split; reflexivity.
      - cbn [expr_finish cst_children bind cst_set_location cst_add cst_add_opt]. rewrite end_b_loop by (cbn in *; lia).
        eexists _, _. split; [reflexivity|]. cbn [app map list_max fold_right levels].
        cbn [map list_max fold_right] in Lv. cbn. unfold list_max in *. cbn in *. lia. }
    destruct B as (cs' & l' & B & Lv').
    cbn [expr_loop escaped_parse module_parse ident_parse bracket_parse].
    change (b_parse (S (S f)) KAngle (mktok TkSquareOpen x :: open_toks ls e)) with (@Err (cst * list token) (lit "Expected bracket open token")).
    change (b_parse (S (S f)) KCurly (mktok TkSquareOpen x :: open_toks ls e)) with (@Err (cst * list token) (lit "Expected bracket open token")).
    rewrite B. unfold new_expr. cbn [cst_add cst_add_opt bind app].
    eexists _, _. split; [apply (end_loop (S (S (S f)))); lia|].
    split; [|split; discriminate]. cbn [map list_max fold_right]. cbn. rewrite Lv'. lia.
Qed.

Theorem depth_reached : forall seg, seg_laws seg -> forall n, exists ts c,
  tokenize_str seg (repeat 91%N n) = Ok ts /\ parse ts = Ok c /\ levels c = n.
Proof.
  intros seg L n.
  destruct (open_dispatch seg L n (S (length (repeat 91%N n))) g_init []) as (ls & e & En & E);
    [rewrite repeat_length; lia|reflexivity|].
  exists (open_toks ls e). destruct (nest ls e (fuel_for (open_toks ls e))) as (cs & l & E1 & E2 & E3).
  { unfold fuel_for, open_toks. rewrite app_length, map_length. cbn. lia. }
  assert (P : exists c, parse (open_toks ls e) = Ok c /\ levels c = n).
  { destruct ls as [|x ls].
    - eexists. split; [reflexivity|exact En].
    - destruct cs as [|c cs]; [discriminate (proj1 E3 eq_refl)|].
      set (ts := open_toks (x :: ls) e) in *.
      assert (S : exists y, stmt_parse ts = Ok (y, [mktok TkEOF e]) /\ levels y = length (x :: ls)).
      { unfold stmt_parse, expr_or_close_parse, expr_parse. rewrite E1. cbn [bind expr_finish cst_children].
        eexists. split; [reflexivity|]. rewrite <- E2. cbn. lia. }
      destruct S as (y & Sy & Ly). unfold parse. cbn [document_loop]. rewrite Sy. cbn [bind newline_parse]. rewrite Sy.
      eexists. split; [reflexivity|]. rewrite <- En, <- Ly. cbn. lia. }
  destruct P as (c & P1 & P2). exists c. split; [exact E|split; assumption].
Qed.

(** ** Texts that are rejected *)
Lemma newlines_opens : forall ts cs rest, newlines_loop ts = (cs, rest) -> opens rest <= opens ts.
Proof.
  induction ts as [|[k l] ts IH]; intros cs rest H; [injection H as _ <-; lia|].
  destruct k; cbn [newlines_loop] in H; try (injection H as _ <-; lia).
  destruct (newlines_loop ts) as [cs' r']. injection H as _ <-. exact (IH _ _ eq_refl).
Qed.

Lemma stmt_opens : forall ts c rest, stmt_parse ts = Ok (c, rest) -> levels c + opens rest <= opens ts.
Proof.
  intros ts c rest H. apply stmt_parse_good in H as (A & B & _). rewrite B, opens_app.
  pose proof (stmt_covered c A) as K. unfold covered in K. lia.
Qed.

Lemma document_opens : forall n cs l ts c rest, document_loop n (CInner CDocument cs l) ts = Ok (c, rest) ->
  levels c + opens rest <= Nat.max (list_max (map levels cs) + opens rest) (opens ts) /\ opens rest <= opens ts.
Proof.
  induction n as [|n IH]; intros cs l ts c rest H; [discriminate|]. cbn [document_loop] in H.
  assert (forall x, x = ts -> Ok (CInner CDocument cs l, x) = Ok (c, rest) ->
    levels c + opens rest <= Nat.max (list_max (map levels cs) + opens rest) (opens ts) /\ opens rest <= opens ts) as Here.
  { intros x -> Q. injection Q as <- <-. rewrite levels_inner. cbn [is_bracket]. lia. }
  pose proof (stmt_opens ts) as So.
  destruct (stmt_parse ts) as [[c1 ts1]|?|?|]; try discriminate; [|exact (Here _ eq_refl H)].
  specialize (So _ _ eq_refl).
  destruct (newline_parse ts1) as [[c2 ts2]|?|?|] eqn:N; try discriminate; [|exact (Here _ eq_refl H)].
  apply newline_good in N as (ln & -> & ->). change (opens (mktok TkNewLine ln :: ts2)) with (opens ts2) in So.
  destruct (newlines_loop ts2) as [cs3 ts3] eqn:W. pose proof (newlines_opens _ _ _ W) as Wo. apply newlines_loop_good in W as (W & _). apply newlines_flat in W.
  destruct (add_all_eq (c1 :: new_newline ln :: cs3) CDocument cs l) as [l1 A]. rewrite A in H. cbn [bind] in H.
  apply IH in H. change (c1 :: new_newline ln :: cs3) with ([c1] ++ [new_newline ln] ++ cs3) in H.
  rewrite !levels_app, !levels_one, W in H. cbn [levels new_newline] in H. lia.
Qed.

(** A rejected text is refused with the same words as soon as there is room enough. *)
Theorem rejected_depth : forall ts e, has_eof ts -> parse ts = Err e ->
  exists k, k <= opens ts /\ forall d, parse_d d ts = if d <=? k then Fuel else Err e.
Proof.
  intros ts e E H. unfold parse in H.
  destruct (document_loop (S (length ts)) new_document ts) as [[dc ts1]|?|?|] eqn:D; try discriminate.
  2:{ exfalso. unfold new_document in D. revert D. generalize (S (length ts)), (@nil cst), mock_location. clear.
    intro n. revert ts. induction n as [|n IH]; intros ts cs l D; [discriminate|]. cbn [document_loop] in D.
    destruct (stmt_parse ts) as [[? ts1]|?|?|]; try discriminate. destruct (newline_parse ts1) as [[? ts2]|?|?|]; try discriminate.
    destruct (newlines_loop ts2) as [cs3 ts3]. destruct (add_all_eq (c :: c0 :: cs3) CDocument cs l) as [l1 A]. rewrite A in D. exact (IH _ _ _ D). }
  cbn [bind] in H. pose proof (document_grows _ _ _ _ _ _ D) as (dn & dl & Ed). cbn [app] in Ed.
  pose proof (document_opens _ _ _ _ _ _ D) as [Do Dr].
  change (list_max (map levels [])) with 0 in Do.
  pose proof (stmt_opens ts1) as So.
  destruct (stmt_parse ts1) as [[x ts2]|e1|?|] eqn:P; try discriminate.
  - specialize (So _ _ eq_refl). exists (Nat.max (levels dc) (levels x)). split; [lia|]. intros [|d]; [reflexivity|].
    destruct (document_limited _ d [] mock_location ts dc ts1 x ts2 E (Nat.le_0_l _) D (or_introl P)) as (E1 & Yes & No).
    change (CInner CDocument [] mock_location) with new_document in Yes, No.
    pose proof (stmt_limited d ts1 E1) as X. rewrite P in X. unfold parse_d.
    destruct (Nat.leb_spec (S d) (Nat.max (levels dc) (levels x))) as [Q|Q].
    + destruct No as [->|[-> B]]; [lia|reflexivity|]. cbn [bind]. rewrite X, (limited_no d x) by exact B. reflexivity.
    + rewrite Yes by lia. cbn [bind]. rewrite X, (limited_yes d x) by lia. exact H.
  - clear So. set (x := new_newline (cst_location dc)). exists (levels dc). split; [lia|]. intros [|d]; [reflexivity|].
    destruct (document_limited _ d [] mock_location ts dc ts1 x ts1 E (Nat.le_0_l _) D) as (E1 & Yes & No); [right; split; [eauto|reflexivity]|].
    change (CInner CDocument [] mock_location) with new_document in Yes, No. change (levels x) with 0 in Yes, No.
    pose proof (stmt_limited d ts1 E1) as X. rewrite P in X. unfold parse_d.
    destruct (Nat.leb_spec (S d) (levels dc)) as [Q|Q].
    + destruct No as [->|[_ B]]; [lia|reflexivity|lia].
    + rewrite Yes by lia. cbn [bind]. rewrite X. exact H.
Qed.

Theorem text_rejected_depth : forall seg, seg_laws seg -> forall s ts e, tokenize_str seg s = Ok ts -> parse ts = Err e ->
  exists k, k <= opens ts /\ forall d, parse_d d ts = if d <=? k then Fuel else Err e.
Proof.
  intros seg L s ts e T. apply rejected_depth.
  destruct (cut_eof_last _ _ _ _ (tokenize_cut seg L s ts T)) as (body & l & -> & _).
  unfold has_eof. rewrite map_app, in_app_iff. right. left. reflexivity.
Qed.
