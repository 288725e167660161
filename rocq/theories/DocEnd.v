(** Where a document ends. *)
From Coq Require Import String List Arith Bool Lia.
From Verif Require Import Base Tokens CST SpecTok SpecCST Parser ParserProofs ParserTotal ParserAccepts ParserProofs2 ParserLocations.
Import ListNotations.

Section Tiled.
  Variable w : str -> nat.

  Lemma stmt_fold_end : forall s rest l c, g_stmt s -> stmt_folded s -> spans_ok s rest ->
    tiled w l c (leaf_toks s ++ rest) ->
    l <= pline (lend (cst_location s)) /\
    forall t r, rest = t :: r -> pline (lend (cst_location s)) <= pline (lend (tl t)).
  Proof.
    intros s rest l c (x & cs & l0 & -> & GX & G) F S T. unfold stmt_folded in F. subst l0.
    destruct S as [_ S]. change (spans_list (x :: cs) rest) in S.
    change (leaf_toks (CInner CStmt (x :: cs) (fold_loc (x :: cs)))) with (flat_map leaf_toks (x :: cs)) in T.
    assert (E : lend (fold_loc (x :: cs)) = lend (cst_location (last cs x))).
    { unfold fold_loc. cbn [map fold_left].
      eapply stmt_tail_end; [exact G| |exact GX|exact S|exact T]. apply merge_mock_end. }
    cbn [cst_location]. rewrite E. clear E.
    revert x l c GX S T. induction G as [|n y cs HN HY G IH]; intros x l c GX S T.
    - cbn [last]. destruct S as [S _]. cbn [flat_map] in T. rewrite app_nil_r in T.
      exact (eoc_end w x rest l c GX S T).
    - destruct S as [_ [_ S]]. rewrite !last_cons.
      change (flat_map leaf_toks (x :: n :: y :: cs)) with (leaf_toks x ++ leaf_toks n ++ flat_map leaf_toks (y :: cs)) in T.
      rewrite <- !app_assoc in T. apply tiled_app in T as (l1 & c1 & T & L1).
      apply tiled_app in T as (l2 & c2 & T & L2).
      destruct (IH y l2 c2 HY S T) as [A B]. split; [lia|exact B].
  Qed.

  Definition part (c : cst) : Prop := is_newline c \/ g_stmt c /\ stmt_folded c.

  (** After some children the end is not below the line reached. *)
  Lemma parts_line : forall b, Forall part b -> forall acc l c t rest,
    pline (lend acc) <= l -> spans_list b (t :: rest) -> tiled w l c (flat_map leaf_toks b ++ t :: rest) ->
    exists l' c', tiled w l' c' (t :: rest) /\
      pline (lend (fold_left merge_location (map cst_location b) acc)) <= l'.
  Proof.
    induction 1 as [|x b HX _ IH]; intros acc l c t rest A S T; [exists l, c; auto|].
    cbn [map fold_left]. destruct S as [S1 S2]. cbn [flat_map] in T. rewrite <- app_assoc in T.
    destruct HX as [[ln ->]|[GX FX]].
    - cbn in T. destruct T as [-> T]. eapply IH; [|exact S2|exact T].
      cbn [cst_location]. rewrite merge_end_line; cbn; lia.
    - destruct (stmt_fold_end x _ l c GX FX S1 T) as [B C].
      apply tiled_app in T as (l1 & c1 & T & L).
      eapply (IH _ l1 c1); [|exact S2|exact T].
      rewrite merge_end_line by lia.
      remember (flat_map leaf_toks b ++ t :: rest) as q eqn:Eq. destruct q as [|u q]; [destruct (flat_map leaf_toks b); discriminate|].
      specialize (C _ _ eq_refl). apply tiled_head in T. lia.
  Qed.

  Lemma spans_list_app : forall a b after, spans_list (a ++ b) after ->
    spans_list a (flat_map leaf_toks b ++ after) /\ spans_list b after.
  Proof.
    induction a as [|x a IH]; intros b after S; [split; [exact I|exact S]|].
    destruct S as [S1 S2]. apply IH in S2 as [A B]. split; [|exact B]. split; [|exact A].
    rewrite flat_map_app, <- app_assoc in S1. exact S1.
  Qed.

  (** A statement is the first child or comes after a newline. *)
  Lemma paragraphs_last : forall ps, g_paragraphs ps -> ps = [] \/ exists a n, ps = a ++ [n] /\ is_newline n.
  Proof.
    induction 1 as [|s n1 n2 ns cs H1 H2 H3 H4 _ IH]; [auto|right].
    destruct IH as [->|(a & n & -> & H)].
    - rewrite app_nil_r. destruct (exists_last (l := n2 :: ns)) as (q & n & E); [discriminate|].
      exists (s :: n1 :: q), n. rewrite E. split; [reflexivity|].
      assert (F : Forall is_newline (q ++ [n])) by (rewrite <- E; constructor; auto).
      apply Forall_app in F as [_ F]. inversion F. auto.
    - exists (s :: n1 :: n2 :: ns ++ a), n. split; [|exact H]. cbn. rewrite <- app_assoc. reflexivity.
  Qed.

  Lemma merge_end_same : forall a b, pline (lend a) <= pline (lend b) ->
    lend (merge_location a b) =
    if (pline (lend a) =? pline (lend b)) && (pchar (lend b) <? pline (lend b)) then lend a else lend b.
  Proof.
    intros a b H. unfold merge_location. cbn [lend].
    destruct (Nat.compare_spec (pline (lend a)) (pline (lend b))) as [E|L|L]; [| |lia].
    - rewrite E, Nat.eqb_refl. cbn [andb].
      destruct (Nat.compare_spec (pline (lend b)) (pchar (lend b))) as [E2|L2|L2];
        destruct (Nat.ltb_spec (pchar (lend b)) (pline (lend b))); auto; lia.
    - rewrite (proj2 (Nat.eqb_neq _ _)) by lia. reflexivity.
  Qed.

  Definition last_end (before : list cst) (le : loc) : pos :=
    match before with
    | [] => lend le
    | x :: r =>
      let p := lend (cst_location (last r x)) in
      if (pline p =? pline (lend le)) && (pchar (lend le) <? pline (lend le)) then p else lend le
    end.

  Lemma last_end_app : forall a x le, last_end (a ++ [x]) le =
    if (pline (lend (cst_location x)) =? pline (lend le)) && (pchar (lend le) <? pline (lend le))
    then lend (cst_location x) else lend le.
  Proof.
    intros [|y a] x le; [reflexivity|]. cbn [app last_end]. rewrite last_last. reflexivity.
  Qed.

  Theorem document_end : forall ts cs l, parse ts = Ok (CInner CDocument cs l) -> tiled w 0 0 ts ->
    exists before le, cs = before ++ [CLeaf LEOF None le] /\
    lend l =
    match before with
    | [] => lend le
    | x :: r =>
      let p := lend (cst_location (last r x)) in
      if (pline p =? pline (lend le)) && (pchar (lend le) <? pline (lend le)) then p else lend le
    end.
  Proof.
    intros ts cs l H T. destruct (parse_sound _ _ H) as (G & rest & ET & S).
    destruct (parse_fold _ _ H) as (cs0 & E & F).
    injection E as <- ->. destruct S as [_ S]. change (spans_list cs rest) in S.
    destruct G as (ps & la & ns & le & l' & E & GP & GL & GN). injection E as -> <-.
    exists (ps ++ la ++ ns), le. split; [rewrite <- !app_assoc; reflexivity|].
    change (leaf_toks (CInner CDocument (ps ++ la ++ ns ++ [CLeaf LEOF None le]) (fold_loc (ps ++ la ++ ns ++ [CLeaf LEOF None le]))))
      with (flat_map leaf_toks (ps ++ la ++ ns ++ [CLeaf LEOF None le])) in ET. subst ts.
    assert (P : forall x, In x (ps ++ la ++ ns) -> part x).
    { intros x HI. rewrite Forall_forall in F.
      assert (HF : stmt_folded x) by (apply F; rewrite !in_app_iff in *; tauto).
      rewrite !in_app_iff in HI. destruct HI as [HI|[HI|HI]].
      - pose proof (paragraphs_forall _ GP) as A. rewrite Forall_forall in A. destruct (A x HI); [left|right]; auto.
      - destruct GL as [->|(s & -> & GS)]; [destruct HI|]. destruct HI as [<-|[]]. right; auto.
      - rewrite Forall_forall in GN. left; auto. }
    apply Forall_forall in P. clear F.
    unfold fold_loc.
    replace (ps ++ la ++ ns ++ [CLeaf LEOF None le]) with ((ps ++ la ++ ns) ++ [CLeaf LEOF None le]) in *
      by (rewrite <- !app_assoc; reflexivity).
    rewrite map_app, fold_left_app. cbn [map fold_left cst_location].
    rewrite flat_map_app, <- app_assoc in T. apply spans_list_app in S as [S _].
    change (flat_map leaf_toks [CLeaf LEOF None le] ++ rest) with (mktok TkEOF le :: rest) in S, T.
    remember (ps ++ la ++ ns) as before eqn:EB.
    assert (C : before = [] \/ (exists a n, before = a ++ [n] /\ is_newline n) \/
                exists a s, before = a ++ [s] /\ g_stmt s /\ stmt_folded s /\ (a = [] \/ exists a' n, a = a' ++ [n] /\ is_newline n)).
    { destruct ns as [|n0 ns].
      - rewrite app_nil_r in EB. destruct GL as [->|(s & -> & GS)].
        + rewrite app_nil_r in EB. subst before. destruct (paragraphs_last _ GP); auto.
        + right; right. exists ps, s. split; [exact EB|]. split; [exact GS|].
          split; [|apply paragraphs_last; exact GP].
          rewrite EB, Forall_app in P. destruct P as [_ P]. apply Forall_inv in P. destruct P as [[ln En]|[_ X]]; [|exact X].
          destruct GS as (? & ? & ? & Es & _). congruence.
      - right; left. destruct (exists_last (l := n0 :: ns)) as (q & n & E); [discriminate|].
        rewrite E in EB, GN. exists (ps ++ la ++ q), n. split; [rewrite EB, <- !app_assoc; reflexivity|].
        apply Forall_app in GN as [_ GN]. inversion GN. auto. }
    clear EB. destruct C as [->|[(a & n & -> & [ln ->])|(a & s & -> & GS & FS & C)]].
    - apply merge_mock_end.
    - (* the EOF is on a line of its own *)
      apply Forall_app in P as [P _].
      assert (LA : last_end (a ++ [CLeaf LNewline None ln]) le = if (pline (lend ln) =? pline (lend le)) && (pchar (lend le) <? pline (lend le)) then lend ln else lend le).
      { apply last_end_app. }
      change (lend (merge_location (fold_left merge_location (map cst_location (a ++ [CLeaf LNewline None ln])) mock_location) le) = last_end (a ++ [CLeaf LNewline None ln]) le).
      rewrite LA. clear LA.
      rewrite map_app, fold_left_app. cbn [map fold_left cst_location].
      apply spans_list_app in S as [S _]. rewrite flat_map_app, <- app_assoc in T.
      change (flat_map leaf_toks [CLeaf LNewline None ln] ++ mktok TkEOF le :: rest) with (mktok TkNewLine ln :: mktok TkEOF le :: rest) in S, T.
      destruct (parts_line a P mock_location 0 0 _ _ (le_n 0) S T) as (l1 & c1 & T1 & B).
      cbn in T1. destruct T1 as [-> [-> _]]. cbn [lend pline pchar].
      rewrite (proj2 (Nat.eqb_neq l1 (Datatypes.S l1))) by lia. cbn [andb].
      apply merge_end_later. rewrite merge_end_line; cbn; lia.
    - assert (LA : last_end (a ++ [s]) le = if (pline (lend (cst_location s)) =? pline (lend le)) && (pchar (lend le) <? pline (lend le)) then lend (cst_location s) else lend le).
      { apply last_end_app. }
      change (lend (merge_location (fold_left merge_location (map cst_location (a ++ [s])) mock_location) le) = last_end (a ++ [s]) le).
      rewrite LA. clear LA.
      rewrite map_app, fold_left_app. cbn [map fold_left].
      apply spans_list_app in S as [SA SS]. destruct SS as [SS _].
      cbn [flat_map app] in SS. rewrite flat_map_app, <- app_assoc in T. cbn [flat_map] in T, SA. rewrite app_nil_r in T, SA.
      apply Forall_app in P as [P _].
      set (acc := fold_left merge_location (map cst_location a) mock_location).
      assert (X : lend (merge_location acc (cst_location s)) = lend (cst_location s) /\
                  pline (lend (cst_location s)) <= pline (lend le)).
      { destruct C as [->|(a' & n & -> & [ln ->])].
        - split; [apply merge_mock_end|].
          exact (proj2 (stmt_fold_end s _ 0 0 GS FS SS T) _ _ eq_refl).
        - apply Forall_app in P as [P _]. unfold acc. rewrite map_app, fold_left_app. cbn [map fold_left cst_location].
          apply spans_list_app in SA as [SA _]. rewrite flat_map_app, <- app_assoc in T.
          change (flat_map leaf_toks [CLeaf LNewline None ln] ++ leaf_toks s ++ mktok TkEOF le :: rest) with
            (mktok TkNewLine ln :: leaf_toks s ++ mktok TkEOF le :: rest) in SA, T.
          destruct (parts_line a' P mock_location 0 0 _ _ (le_n 0) SA T) as (l1 & c1 & T1 & B).
          cbn [tiled tk] in T1. destruct T1 as [E1 T1]. cbn [tl] in E1. subst ln.
          destruct (stmt_fold_end s _ _ _ GS FS SS T1) as [B1 B2]. split; [|exact (B2 _ _ eq_refl)].
          apply merge_end_later. rewrite merge_end_line; cbn; lia. }
      destruct X as [X1 X2]. rewrite merge_end_same by (rewrite X1; exact X2). rewrite X1. reflexivity.
  Qed.
End Tiled.
