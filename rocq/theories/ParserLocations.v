(** Locations of statement and document nodes. *)
From Coq Require Import String List NArith Arith Bool Lia.
From Verif Require Import Base Tokens CST SpecTok SpecCST Parser ParserProofs ParserTotal ParserAccepts ParserProofs2.
Import ListNotations.

(** ** merge_location *)
Lemma unclosed_end_next : forall cl l after, unclosed_end cl l after ->
  exists t r, after = t :: r /\ lend l = lend (tl t).
Proof. intros cl l after (t & r & E & L & _). eauto. Qed.

Lemma merge_start : forall a b,
  let m := merge_location a b in
  pos_le (lstart m) (lstart a) /\ pos_le (lstart m) (lstart b) /\
  (lstart m = lstart a \/ lstart m = lstart b).
Proof.
  intros a b. unfold merge_location, pos_le. cbn [lstart].
  destruct (Nat.compare_spec (pline (lstart a)) (pline (lstart b)));
    [destruct (Nat.compare_spec (pchar (lstart a)) (pchar (lstart b)))|..];
    repeat split; auto; try lia.
Qed.

Definition end_is_hull (a b : loc) : Prop :=
  let m := merge_location a b in
  pos_le (lend a) (lend m) /\ pos_le (lend b) (lend m) /\ (lend m = lend a \/ lend m = lend b).

Lemma merge_end : forall a b,
  end_is_hull a b <->
  (pline (lend a) <> pline (lend b) \/
   if pchar (lend b) <? pline (lend b) then pchar (lend b) <= pchar (lend a)
   else pchar (lend a) <= pchar (lend b)).
Proof.
  intros a b. unfold end_is_hull, merge_location, pos_le. cbn [lend].
  destruct (Nat.compare_spec (pline (lend a)) (pline (lend b))) as [E|L|L].
  - destruct (Nat.compare_spec (pline (lend a)) (pchar (lend b))) as [E2|L2|L2].
    + replace (pchar (lend b) <? pline (lend b)) with false by (symmetry; apply Nat.ltb_ge; lia).
      split; [intros (H1 & _); right; lia|]. intros [H|H]; [lia|]. repeat split; auto; lia.
    + replace (pchar (lend b) <? pline (lend b)) with false by (symmetry; apply Nat.ltb_ge; lia).
      split; [intros (H1 & _); right; lia|]. intros [H|H]; [lia|]. repeat split; auto; lia.
    + replace (pchar (lend b) <? pline (lend b)) with true by (symmetry; apply Nat.ltb_lt; lia).
      split; [intros (_ & H1 & _); right; lia|]. intros [H|H]; [lia|]. repeat split; auto; lia.
  - split; [left; lia|]. intros _. repeat split; auto; lia.
  - split; [left; lia|]. intros _. repeat split; auto; lia.
Qed.

Lemma merge_end_refuted : exists a b, ~ end_is_hull a b.
Proof.
  exists (mkloc (mkpos 5 0) (mkpos 5 1)), (mkloc (mkpos 5 1) (mkpos 5 2)).
  rewrite merge_end. cbn. intros [H|H]; lia.
Qed.

(** ** Statement and document nodes carry the merge of their children's locations *)
Definition fold_loc (cs : list cst) : loc :=
  fold_left merge_location (map cst_location cs) mock_location.

Lemma fold_loc_snoc : forall cs x, fold_loc (cs ++ [x]) = merge_location (fold_loc cs) (cst_location x).
Proof. intros cs x. unfold fold_loc. rewrite map_app, fold_left_app. reflexivity. Qed.

Lemma add_fold : forall k cs x, cst_add (CInner k cs (fold_loc cs)) x = Ok (CInner k (cs ++ [x]) (fold_loc (cs ++ [x]))).
Proof. intros k cs x. rewrite fold_loc_snoc. reflexivity. Qed.

Lemma add_all_fold : forall xs k cs, add_all (CInner k cs (fold_loc cs)) xs = Ok (CInner k (cs ++ xs) (fold_loc (cs ++ xs))).
Proof.
  induction xs as [|x xs IH]; intros k cs.
  - rewrite app_nil_r. reflexivity.
  - cbn [add_all]. rewrite add_fold. cbn [bind]. rewrite IH, <- app_assoc. reflexivity.
Qed.

Lemma stmt_loop_fold : forall n cs ts c rest, stmt_loop n (CInner CStmt cs (fold_loc cs)) ts = Ok (c, rest) ->
  exists cs', c = CInner CStmt cs' (fold_loc cs').
Proof.
  induction n as [|n IH]; intros cs ts c rest H; [discriminate|]. cbn [stmt_loop] in H.
  destruct (newline_parse ts) as [[c1 ts1]|?|?|]; try discriminate; [|injection H as <- <-; eauto].
  destruct (expr_or_close_parse ts1) as [[c2 ts2]|?|?|]; try discriminate; [|injection H as <- <-; eauto].
  rewrite add_fold in H. cbn [bind] in H. rewrite add_fold in H. cbn [bind] in H. eapply IH; exact H.
Qed.

Lemma stmt_parse_fold : forall ts c rest, stmt_parse ts = Ok (c, rest) ->
  exists cs, c = CInner CStmt cs (fold_loc cs).
Proof.
  intros ts c rest H. unfold stmt_parse in H. apply bind_ok in H as ([x ts1] & E & H).
  change new_stmt with (CInner CStmt [] (fold_loc [])) in H. rewrite add_fold in H. cbn [bind] in H.
  eapply stmt_loop_fold; exact H.
Qed.

Definition stmt_folded (c : cst) : Prop :=
  match c with
  | CInner CStmt cs l => l = fold_loc cs
  | _ => True
  end.

Lemma nl_folded : forall ns, Forall is_newline ns -> Forall stmt_folded ns.
Proof. intros ns H. eapply Forall_impl; [|exact H]. intros c [l ->]. exact I. Qed.

Lemma document_loop_fold : forall n cs ts c rest, Forall stmt_folded cs ->
  document_loop n (CInner CDocument cs (fold_loc cs)) ts = Ok (c, rest) ->
  exists cs', c = CInner CDocument cs' (fold_loc cs') /\ Forall stmt_folded cs'.
Proof.
  induction n as [|n IH]; intros cs ts c rest F H; [discriminate|]. cbn [document_loop] in H.
  destruct (stmt_parse ts) as [[c1 ts1]|?|?|] eqn:ES; try discriminate; [|injection H as <- <-; eauto].
  destruct (newline_parse ts1) as [[c2 ts2]|?|?|] eqn:EN; try discriminate; [|injection H as <- <-; eauto].
  destruct (newlines_loop ts2) as [cs3 ts3] eqn:EL. rewrite add_all_fold in H. cbn [bind] in H.
  eapply IH; [|exact H]. apply Forall_app. split; [exact F|].
  apply newline_good in EN as (ln & -> & ->). apply stmt_parse_fold in ES as (cs1 & ->).
  constructor; [reflexivity|]. constructor; [exact I|]. apply nl_folded.
  exact (proj1 (newlines_loop_good _ _ _ EL)).
Qed.

Lemma parse_fold : forall ts c, parse ts = Ok c ->
  exists cs, c = CInner CDocument cs (fold_loc cs) /\ Forall stmt_folded cs.
Proof.
  intros ts c H. unfold parse in H. apply bind_ok in H as ([d ts1] & ED & H).
  change new_document with (CInner CDocument [] (fold_loc [])) in ED.
  apply document_loop_fold in ED as (ps & -> & FP); [|constructor].
  apply bind_ok in H as ([d2 ts2] & E2 & H).
  assert (X : exists cs2, d2 = CInner CDocument cs2 (fold_loc cs2) /\ Forall stmt_folded cs2).
  { destruct (stmt_parse ts1) as [[c1 r1]|?|?|] eqn:ES; try discriminate.
    - rewrite add_fold in E2. cbn [bind] in E2. injection E2 as <- <-.
      eexists; split; [reflexivity|]. apply Forall_app. split; [exact FP|].
      apply stmt_parse_fold in ES as (cs1 & ->). repeat constructor.
    - injection E2 as <- <-. eauto. }
  destruct X as (cs2 & -> & F2).
  destruct (newlines_loop ts2) as [ns ts3] eqn:EN. rewrite add_all_fold in H. cbn [bind] in H.
  apply bind_ok in H as ([ce r4] & EE & H). rewrite add_fold in H. injection H as <-.
  eexists; split; [reflexivity|]. destruct ts3 as [|[[] le] ts3]; try discriminate. injection EE as <- <-.
  rewrite !Forall_app. split; [split; [exact F2|]|repeat constructor].
  apply nl_folded. exact (proj1 (newlines_loop_good _ _ _ EN)).
Qed.

(** *** Starts *)
Definition origin : pos := mkpos 0 0.

Lemma merge_origin : forall a b, lstart a = origin -> lstart (merge_location a b) = origin.
Proof.
  intros [sa ea] [[l c] eb] H. cbn in H. subst sa. unfold merge_location, origin. cbn.
  destruct l; [|reflexivity]. destruct c; reflexivity.
Qed.

Lemma fold_loc_start : forall cs, lstart (fold_loc cs) = origin.
Proof.
  induction cs as [|x cs IH] using rev_ind; [reflexivity|]. rewrite fold_loc_snoc. apply merge_origin. exact IH.
Qed.

Lemma g_no_stmt : forall c, g_item c \/ g_expr c ->
  forall k cs l, node_of (CInner k cs l) c -> k <> CStmt /\ k <> CDocument.
Proof.
  induction c as [k v l|k cs l IH] using cst_ind'; intros G k' cs' l' N.
  - inversion N.
  - assert (HK : k <> CStmt /\ k <> CDocument).
    { destruct G as [G|G]; [|inversion G; subst; split; discriminate].
      inversion G as [| | | |k0 o c lo body close l0 H1]; subst; try (split; discriminate).
      destruct k; try discriminate; split; discriminate. }
    inversion N as [|? x ? ? ? HI HN]; subst; [exact HK|].
    rewrite Forall_forall in IH.
    assert (LF : forall y, (exists ky vy ly, y = CLeaf ky vy ly) -> x = y -> False).
    { intros y (ky & vy & ly & ->) ->. inversion HN. }
    assert (GX : g_item x \/ g_expr x).
    { destruct G as [G|G].
      - inversion G as [l0|s k0 l0 l1 H1| | |k0 o c lo body close l0 H1 H2 H3]; subst.
        + destruct HI.
        + destruct HI as [HI|[]]. exfalso. eapply LF; [|symmetry; exact HI]. eauto.
        + destruct HI as [HI|HI]; [exfalso; eapply LF; [|symmetry; exact HI]; eauto|].
          apply in_app_or in HI as [HI|HI].
          * rewrite Forall_forall in H2. destruct (H2 x HI) as [H|[lx Hx]]; [right; exact H|].
            exfalso. eapply LF; [|exact Hx]. eauto.
          * destruct H3 as [->|[lc ->]]; [destruct HI|]. destruct HI as [HI|[]].
            exfalso. eapply LF; [|symmetry; exact HI]. eauto.
      - inversion G as [items l0 H1 H2]; subst. rewrite Forall_forall in H2. left. apply H2; exact HI. }
    exact (IH x HI GX _ _ _ HN).
Qed.

Lemma eoc_no_stmt : forall c, g_expr_or_close c ->
  forall k cs l, node_of (CInner k cs l) c -> k <> CStmt /\ k <> CDocument.
Proof.
  intros c [H|(k0 & l0 & -> & _)] k cs l N; [|inversion N]. eapply g_no_stmt; eauto.
Qed.

Lemma stmt_tail_forall : forall cs, g_stmt_tail cs -> Forall (fun c => is_newline c \/ g_expr_or_close c) cs.
Proof. intros cs H. induction H; constructor; auto. Qed.

Lemma paragraphs_forall : forall cs, g_paragraphs cs -> Forall (fun c => is_newline c \/ g_stmt c) cs.
Proof.
  intros cs H. induction H as [|s n1 n2 ns cs H1 H2 H3 H4 _ IH]; [constructor|].
  constructor; [auto|]. constructor; [auto|]. constructor; [auto|]. apply Forall_app. split; [|exact IH].
  eapply Forall_impl; [|exact H4]. auto.
Qed.

Lemma document_forall : forall k cs l, g_document (CInner k cs l) ->
  k = CDocument /\
  Forall (fun c => is_newline c \/ g_stmt c \/ exists le, c = CLeaf LEOF None le) cs.
Proof.
  intros k cs l (ps & last & ns & le & l' & E & H1 & H2 & H3). injection E as -> -> ->. split; [reflexivity|].
  rewrite !Forall_app. split; [|split; [|split]].
  - eapply Forall_impl; [|apply paragraphs_forall; exact H1]. intros c [H|H]; auto.
  - destruct H2 as [->|(s & -> & H2)]; [constructor|]. constructor; auto.
  - eapply Forall_impl; [|exact H3]. auto.
  - constructor; [|constructor]. right; right; eauto.
Qed.

(** Every Stmt or Document node is the document itself or one of its children. *)
Lemma stmt_nodes : forall c, g_document c -> forall k cs l, node_of (CInner k cs l) c ->
  k = CStmt \/ k = CDocument ->
  CInner k cs l = c \/ exists cs0 l0, c = CInner CDocument cs0 l0 /\ In (CInner k cs l) cs0 /\ g_stmt (CInner k cs l).
Proof.
  intros c G k cs l N K. inversion N as [|? x k0 cs0 l0 HI HN]; subst; [left; reflexivity|]. right.
  apply document_forall in G as [-> F]. exists cs0, l0. split; [reflexivity|].
  rewrite Forall_forall in F. destruct (F x HI) as [[lx ->]|[G|[lx ->]]]; [inversion HN| |inversion HN].
  destruct G as (x0 & cs1 & l1 & E & G1 & G2).
  subst x. remember (CInner CStmt (x0 :: cs1) l1) as st eqn:Est.
  remember (CInner k cs l) as nd eqn:End.
  destruct HN as [c0|c0 y k2 cs2 l2 HI2 HN2].
  - split; [exact HI|]. exists x0, cs1, l1. auto.
  - exfalso. injection Est as -> -> ->. subst c0.
    assert (GY : is_newline y \/ g_expr_or_close y).
    { destruct HI2 as [<-|HI2]; [auto|]. apply stmt_tail_forall in G2. rewrite Forall_forall in G2. auto. }
    destruct GY as [[ly ->]|GY]; [inversion HN2|].
    destruct (eoc_no_stmt _ GY _ _ _ HN2) as [A B]. destruct K; contradiction.
Qed.

Theorem stmt_starts : forall ts c, parse ts = Ok c ->
  forall k cs l, node_of (CInner k cs l) c -> k = CStmt \/ k = CDocument -> lstart l = origin.
Proof.
  intros ts c H k cs l N K. destruct (parse_sound _ _ H) as (G & _).
  destruct (parse_fold _ _ H) as (cs0 & -> & F).
  destruct (stmt_nodes _ G _ _ _ N K) as [E|(cs1 & l1 & E & HI & (x0 & cs2 & l2 & E2 & _))].
  - injection E as -> -> ->. apply fold_loc_start.
  - injection E as <- <-. rewrite Forall_forall in F. injection E2 as -> -> ->.
    specialize (F _ HI). unfold stmt_folded in F. rewrite F. apply fold_loc_start.
Qed.

(** *** Ends *)
Section Tiled.
  Variable w : str -> nat.

  Lemma tiled_app : forall a b l c, tiled w l c (a ++ b) -> exists l' c', tiled w l' c' b /\ l <= l'.
  Proof.
    induction a as [|t a IH]; intros b l c H; [exists l, c; auto|].
    cbn in H. destruct H as [_ H].
    destruct (tk t); apply IH in H as (l' & c' & H & L); exists l', c'; split; auto; lia.
  Qed.

  Lemma tiled_head : forall t ts l c, tiled w l c (t :: ts) -> pline (lstart (tl t)) = l /\ pline (lend (tl t)) = l.
  Proof. intros t ts l c [-> _]. auto. Qed.

  Lemma item_end : forall z rest l c, g_item z -> spans_ok z rest -> tiled w l c (leaf_toks z ++ rest) ->
    l <= pline (lend (cst_location z)) /\
    forall t r, rest = t :: r -> pline (lend (cst_location z)) <= pline (lend (tl t)).
  Proof.
    intros z rest l c G S T.
    assert (NXT : forall a t r, leaf_toks z = a -> rest = t :: r -> l <= pline (lend (tl t))).
    { intros a t r E1 E2. rewrite E2 in T. apply tiled_app in T as (l' & c' & T & L).
      apply tiled_head in T. lia. }
    destruct G as [l0|s k l0 l' H|k s l0 H|k l0 H|k o cl lo body close l0 H1 H2 H3]; cbn [cst_location].
    1,2,3,4: (cbn [leaf_toks] in T; pose proof (tiled_head _ _ _ _ T) as X; cbn [tl] in X; split; [lia|];
      intros t r E; specialize (NXT _ t r eq_refl E); lia).
    cbn [spans_ok] in S. destruct S as [S _].
    assert (LT : leaf_toks (CInner k (CLeaf o None lo :: body ++ close) l0) =
                 flat_map leaf_toks (CLeaf o None lo :: body ++ close)) by (destruct k; try discriminate; reflexivity).
    assert (S' : exists a z, nth_error (CLeaf o None lo :: body ++ close) 0 = Some a /\
      nth_error (CLeaf o None lo :: body ++ close) (length (CLeaf o None lo :: body ++ close) - 1) = Some z /\
      ((exists kz vz lz, z = CLeaf kz vz lz /\ lend l0 = lend lz) \/
       exists t r, rest = t :: r /\ lend l0 = lend (tl t))).
    { destruct k; try discriminate; cbn [span_ok] in S;
        destruct S as (o' & c' & a & z & E1 & E2 & E3 & _ & S); exists a, z; (split; [exact E2|]; split; [exact E3|]);
        (destruct z as [kk cc ll|kz vz lz]; [right; exact (unclosed_end_next _ _ _ S)|]);
        (destruct (match kz with LAngleClose => _ | _ => _ end); [left; eauto 6|right; exact (unclosed_end_next _ _ _ S)]). }
    destruct S' as (a & z & _ & EZ & [(kz & vz & lz & -> & EL)|(t & r & -> & EL)]).
    - (* closing leaf: the last token *)
      rewrite EL. rewrite LT in T.
      set (cs := CLeaf o None lo :: body ++ close) in *.
      assert (EC : exists cs', cs = cs' ++ [CLeaf kz vz lz]).
      { destruct (exists_last (l := cs)) as (cs' & x & E); [discriminate|]. exists cs'. rewrite E in EZ |- *.
        rewrite app_length in EZ. cbn [length] in EZ. rewrite Nat.add_sub in EZ.
        rewrite nth_error_app2 in EZ by lia. rewrite Nat.sub_diag in EZ. cbn in EZ. congruence. }
      destruct EC as [cs' EC]. rewrite EC, flat_map_app, <- app_assoc in T.
      apply tiled_app in T as (l' & c' & T & L). cbn in T. destruct T as [T1 T2].
      rewrite T1. cbn [lend pline]. split; [lia|]. intros t r E. subst rest.
      destruct (leaf_kind kz vz); apply tiled_head in T2; lia.
    - rewrite EL. split; [apply (NXT _ t r eq_refl eq_refl)|]. intros t' r' E. injection E as <- <-. lia.
  Qed.

  Lemma eoc_end : forall z rest l c, g_expr_or_close z -> spans_ok z rest -> tiled w l c (leaf_toks z ++ rest) ->
    l <= pline (lend (cst_location z)) /\
    forall t r, rest = t :: r -> pline (lend (cst_location z)) <= pline (lend (tl t)).
  Proof.
    intros z rest l c [G|(k & lk & -> & HK)] S T.
    - destruct G as [items l0 NE F]. cbn [spans_ok] in S. destruct S as [(a & z & _ & EZ & ->) S].
      cbn [cst_location lend]. destruct (exists_last NE) as (cs' & x & E).
      rewrite E in EZ. rewrite app_length in EZ. cbn [length] in EZ. rewrite Nat.add_sub in EZ.
      rewrite nth_error_app2 in EZ by lia. rewrite Nat.sub_diag in EZ. cbn in EZ. injection EZ as ->.
      subst items. cbn [leaf_toks] in T. rewrite flat_map_app, <- app_assoc in T.
      apply tiled_app in T as (l' & c' & T & L). cbn [flat_map] in T. rewrite app_nil_r in T.
      apply Forall_app in F as [_ F]. apply Forall_inv in F.
      assert (SZ : spans_ok z rest).
      { change (spans_list (cs' ++ [z]) rest) in S. clear -S. induction cs' as [|y cs' IH].
        - destruct S as [S _]. exact S.
        - destruct S as [_ S]. apply IH. exact S. }
      destruct (item_end z rest l' c' F SZ T) as [A B]. split; [lia|exact B].
    - cbn in T. destruct T as [-> T]. cbn [cst_location lend pline]. split; [lia|]. intros t r ->.
      destruct HK as [<-|[<-|[<-|[]]]]; cbn in T; apply tiled_head in T; lia.
  Qed.

  Lemma merge_end_later : forall a b, pline (lend a) < pline (lend b) -> lend (merge_location a b) = lend b.
  Proof. intros a b H. unfold merge_location. cbn. apply Nat.compare_lt_iff in H. rewrite H. reflexivity. Qed.

  Lemma merge_end_line : forall a b, pline (lend a) <= pline (lend b) -> pline (lend (merge_location a b)) = pline (lend b).
  Proof.
    intros a b H. unfold merge_location. cbn.
    destruct (Nat.compare_spec (pline (lend a)) (pline (lend b))) as [E|L|L]; [|reflexivity|lia].
    destruct (Nat.compare _ _); auto.
  Qed.

  Lemma last_cons : forall (x d : cst) l, last (x :: l) d = last l x.
  Proof. intros x d l. revert x d. induction l as [|y l IH]; intros x d; [reflexivity|]. change (last (x :: y :: l) d) with (last (y :: l) d). rewrite !IH. reflexivity. Qed.

  (** Reading on from the child [x]: the accumulated end is the end of the last child. *)
  Lemma stmt_tail_end : forall cs, g_stmt_tail cs -> forall x acc l c rest,
    lend acc = lend (cst_location x) -> g_expr_or_close x -> spans_list (x :: cs) rest ->
    tiled w l c (flat_map leaf_toks (x :: cs) ++ rest) ->
    lend (fold_left merge_location (map cst_location cs) acc) = lend (cst_location (last cs x)).
  Proof.
    intros cs G. induction G as [|n y cs HN HY G IH]; intros x acc l c rest HA HX S T; [exact HA|].
    destruct HN as [ln ->]. cbn [map fold_left].
    destruct S as [S1 [_ S2]].
    cbn [flat_map] in T. rewrite <- app_assoc in T.
    change ((leaf_toks (CLeaf LNewline None ln) ++ leaf_toks y ++ flat_map leaf_toks cs) ++ rest) with
      (mktok TkNewLine ln :: (leaf_toks y ++ flat_map leaf_toks cs) ++ rest) in T.
    change (flat_map leaf_toks (CLeaf LNewline None ln :: y :: cs) ++ rest) with
      (mktok TkNewLine ln :: flat_map leaf_toks (y :: cs) ++ rest) in S1.
    destruct (eoc_end x _ l c HX S1 T) as [_ B]. specialize (B _ _ eq_refl). cbn [tl] in B.
    apply tiled_app in T as (l' & c' & T & L). cbn [tiled tk] in T. destruct T as [T1 T2].
    change (tiled w (S l') 0 (flat_map leaf_toks (y :: cs) ++ rest)) in T2.
    assert (HY' : S l' <= pline (lend (cst_location y))).
    { cbn [flat_map] in T2. rewrite <- app_assoc in T2. destruct S2 as [S2 _].
      exact (proj1 (eoc_end y _ _ _ HY S2 T2)). }
    rewrite (IH y _ (S l') 0 rest); [| |exact HY|exact S2|exact T2].
    - rewrite !last_cons. reflexivity.
    - apply merge_end_later. rewrite merge_end_line; [|rewrite HA; exact B].
      cbn [cst_location]. cbn [tl] in T1. rewrite T1. cbn. lia.
  Qed.

  Lemma merge_mock_end : forall b, lend (merge_location mock_location b) = lend b.
  Proof.
    intros [s [l c]]. unfold merge_location. cbn. destruct l; [|reflexivity]. destruct c; reflexivity.
  Qed.

  Theorem stmt_ends : forall ts c, parse ts = Ok c -> tiled w 0 0 ts ->
    forall cs l, node_of (CInner CStmt cs l) c ->
    exists z, nth_error cs (length cs - 1) = Some z /\ lend l = lend (cst_location z).
  Proof.
    intros ts c H T cs l N. destruct (parse_sound _ _ H) as (G & rest & ET & S).
    destruct (parse_fold _ _ H) as (cs0 & -> & F).
    destruct (stmt_nodes _ G _ _ _ N ltac:(auto)) as [E|(cs1 & l1 & E & HI & (x0 & cs2 & l2 & E2 & G1 & G2))]; [discriminate|].
    injection E as <- <-. injection E2 as -> ->. rewrite Forall_forall in F.
    specialize (F _ HI). unfold stmt_folded in F. subst l2.
    exists (last (x0 :: cs2) x0). split.
    { replace (length (x0 :: cs2) - 1) with (length cs2) by (cbn; lia). apply nth_error_last. }
    apply in_split in HI as (p & q & ->).
    cbn [leaf_toks] in ET. rewrite flat_map_app in ET. cbn [flat_map] in ET. subst ts.
    rewrite <- !app_assoc in T. apply tiled_app in T as (l' & c' & T & _).
    change (leaf_toks (CInner CStmt (x0 :: cs2) (fold_loc (x0 :: cs2)))) with (flat_map leaf_toks (x0 :: cs2)) in T.
    destruct S as [_ S].
    change (spans_list (p ++ CInner CStmt (x0 :: cs2) (fold_loc (x0 :: cs2)) :: q) rest) in S.
    assert (S' : spans_list (x0 :: cs2) (flat_map leaf_toks q ++ rest)).
    { clear -S. induction p as [|y p IH]; [|destruct S as [_ S]; apply IH; exact S].
      destruct S as [[_ S] _]. exact S. }
    unfold fold_loc. cbn [map fold_left]. rewrite last_cons.
    eapply stmt_tail_end; [exact G2| |exact G1|exact S'|exact T]. apply merge_mock_end.
  Qed.
End Tiled.

(** ** The grammar of the nodes of a tree *)
Definition gnode (c : cst) : Prop :=
  g_document c \/ g_stmt c \/ g_expr c \/ g_item c \/ exists k v l, c = CLeaf k v l.

Lemma leaf_gnode : forall k v l, gnode (CLeaf k v l).
Proof. intros; do 4 right; eauto. Qed.

Lemma gnode_child : forall k cs l, gnode (CInner k cs l) -> forall x, In x cs ->
  gnode x /\ (k = CBackSlash -> exists kx vx lx, x = CLeaf kx vx lx).
Proof.
  intros k cs l G x HI. destruct G as [G|[G|[G|[G|(k' & v' & l' & E)]]]].
  - apply document_forall in G as [-> F]. rewrite Forall_forall in F. split; [|discriminate].
    destruct (F x HI) as [[lx ->]|[H|[lx ->]]]; try apply leaf_gnode. right; left; exact H.
  - destruct G as (x0 & cs0 & l0 & E & G1 & G2). injection E as -> -> ->. split; [|discriminate].
    assert (H : is_newline x \/ g_expr_or_close x).
    { destruct HI as [<-|HI]; [auto|]. apply stmt_tail_forall in G2. rewrite Forall_forall in G2. auto. }
    destruct H as [[lx ->]|[H|(kx & lx & -> & _)]]; try apply leaf_gnode. right; right; left; exact H.
  - inversion G as [items l0 H1 H2]; subst. split; [|discriminate]. rewrite Forall_forall in H2.
    do 3 right; left; auto.
  - inversion G as [l0|s k0 l0 l1 H1| | |k0 o c lo body close l0 H1 H2 H3]; subst.
    + destruct HI.
    + destruct HI as [<-|[]]. split; [apply leaf_gnode|eauto].
    + split; [|intros ->; discriminate].
      destruct HI as [<-|HI]; [apply leaf_gnode|]. apply in_app_or in HI as [HI|HI].
      * rewrite Forall_forall in H2. destruct (H2 x HI) as [H|[lx ->]]; [right; right; left; exact H|apply leaf_gnode].
      * destruct H3 as [->|[lc ->]]; [destruct HI|]. destruct HI as [<-|[]]. apply leaf_gnode.
  - discriminate.
Qed.

Lemma gnode_expr : forall cs l, gnode (CInner CExpr cs l) -> g_expr (CInner CExpr cs l).
Proof.
  intros cs l [(? & ? & ? & ? & ? & E & _)|[(? & ? & ? & E & _)|[G|[G|(? & ? & ? & E)]]]]; try discriminate;
    [exact G|]. inversion G as [| | | |k0 o c lo body close l0 H1]; subst. discriminate.
Qed.

(** ** Expressions cover their tokens, unless they end in an escape *)
Section Cover.
  Variable w : str -> nat.

  Lemma pos_le_trans : forall a b c, pos_le a b -> pos_le b c -> pos_le a c.
  Proof. unfold pos_le. intros; lia. Qed.

  Lemma tiled_from : forall ts l c, tiled w l c ts ->
    Forall (fun t => pos_le (mkpos l c) (lstart (tl t)) /\ pos_le (mkpos l c) (lend (tl t))) ts.
  Proof.
    induction ts as [|t ts IH]; intros l c H; [constructor|]. cbn in H. destruct H as [E H].
    constructor; [rewrite E; unfold pos_le; cbn; lia|].
    assert (X : exists l' c', tiled w l' c' ts /\ pos_le (mkpos l c) (mkpos l' c')).
    { destruct (tk t); eexists _, _; (split; [exact H|]); unfold pos_le; cbn; lia. }
    destruct X as (l' & c' & T & P). eapply Forall_impl; [|apply IH; exact T].
    intros u [A B]. split; eapply pos_le_trans; eauto.
  Qed.

  Lemma tiled_sorted : forall a t b l c, tiled w l c (a ++ t :: b) ->
    Forall (fun u => pos_le (lend (tl u)) (lend (tl t))) a.
  Proof.
    induction a as [|u a IH]; intros t b l c H; [constructor|]. cbn in H. destruct H as [E H].
    assert (X : exists l' c', tiled w l' c' (a ++ t :: b) /\ pos_le (lend (tl u)) (mkpos l' c')).
    { rewrite E. destruct (tk u); eexists _, _; (split; [exact H|]); unfold pos_le; cbn; lia. }
    destruct X as (l' & c' & T & P). constructor; [|eapply IH; exact T].
    apply tiled_from in T. rewrite Forall_app in T. destruct T as [_ T]. apply Forall_inv in T.
    eapply pos_le_trans; [exact P|apply T].
  Qed.

  Lemma spans_list_in : forall cs rest x, spans_list cs rest -> In x cs ->
    exists a b, cs = a ++ x :: b /\ spans_ok x (flat_map leaf_toks b ++ rest).
  Proof.
    induction cs as [|y cs IH]; intros rest x S HI; [destruct HI|]. destruct S as [S1 S2].
    destruct HI as [->|HI]; [exists [], cs; auto|].
    destruct (IH rest x S2 HI) as (a & b & -> & S). exists (y :: a), b. auto.
  Qed.

  (** Facts about a node in its context carry over to the nodes below it. *)
  Lemma node_context : forall n c, node_of n c -> gnode c -> forall rest l0 c0,
    spans_ok c rest -> tiled w l0 c0 (leaf_toks c ++ rest) ->
    gnode n /\ ((exists k v l, n = CLeaf k v l) \/
    exists rest' l1 c1, spans_ok n rest' /\ tiled w l1 c1 (leaf_toks n ++ rest')).
  Proof.
    intros n c N. induction N as [c|n x k cs l HI HN IH]; intros G rest l0 c0 S T; [split; [exact G|right; exists rest, l0, c0; auto]|].
    destruct (gnode_child _ _ _ G x HI) as [GX BX].
    destruct S as [_ S]. destruct (spans_list_in cs rest x S HI) as (a & b & -> & SX).
    destruct k.
    7: { destruct (BX eq_refl) as (kx & vx & lx & ->). inversion HN; subst. split; [exact GX|left; eauto]. }
    all: cbn [leaf_toks] in T; rewrite flat_map_app in T; cbn [flat_map] in T;
         rewrite <- !app_assoc in T; apply (tiled_app w) in T as (l1 & c1 & T & _);
         eapply IH; [exact GX|exact SX|exact T].
  Qed.

  Lemma app_last : forall (A : Type) (l : list A) z, nth_error l (length l - 1) = Some z ->
    exists a, l = a ++ [z].
  Proof.
    intros A l z H. destruct l as [|x l]; [discriminate|].
    destruct (@exists_last _ (x :: l) ltac:(discriminate)) as (a & y & E). exists a. rewrite E in H |- *.
    rewrite app_length in H. cbn [length] in H. rewrite Nat.add_sub in H.
    rewrite nth_error_app2 in H by lia. rewrite Nat.sub_diag in H. cbn in H. congruence.
  Qed.

  Lemma item_covers : forall z rest l c, g_item z -> (forall x cs l, z <> CInner CBackSlash (x :: cs) l) ->
    spans_ok z rest -> tiled w l c (leaf_toks z ++ rest) ->
    Forall (fun u => pos_le (lend (tl u)) (lend (cst_location z))) (leaf_toks z).
  Proof.
    intros z rest l c G NB S T.
    destruct G as [l0|s k l0 l' H|k s l0 H|k l0 H|k o cl lo body close l0 H1 H2 H3]; cbn [cst_location].
    2: (exfalso; eapply NB; reflexivity).
    1,2,3: (constructor; [unfold pos_le; cbn; lia|constructor]).
    cbn [spans_ok] in S. destruct S as [S _].
    assert (LT : leaf_toks (CInner k (CLeaf o None lo :: body ++ close) l0) =
                 flat_map leaf_toks (CLeaf o None lo :: body ++ close)) by (destruct k; try discriminate; reflexivity).
    rewrite LT in T |- *. set (cs := CLeaf o None lo :: body ++ close) in *. clearbody cs.
    assert (S' : exists z, nth_error cs (length cs - 1) = Some z /\
      ((exists kz vz lz, z = CLeaf kz vz lz /\ lend l0 = lend lz) \/
       exists t r, rest = t :: r /\ lend l0 = lend (tl t))).
    { destruct k; try discriminate; cbn [span_ok] in S;
        destruct S as (o' & c' & a & z & E1 & E2 & E3 & _ & S); exists z; (split; [exact E3|]);
        (destruct z as [kk cc ll|kz vz lz]; [right; exact (unclosed_end_next _ _ _ S)|]);
        (destruct (match kz with LAngleClose => _ | _ => _ end); [left; eauto 6|right; exact (unclosed_end_next _ _ _ S)]). }
    destruct S' as (z & EZ & [(kz & vz & lz & -> & EL)|(t & r & -> & EL)]); rewrite EL.
    - apply app_last in EZ as [a ->]. rewrite flat_map_app in T |- *. rewrite <- app_assoc in T.
      apply Forall_app. split.
      + exact (tiled_sorted _ (mktok (leaf_kind kz vz) lz) _ _ _ T).
      + constructor; [unfold pos_le; cbn; lia|constructor].
    - exact (tiled_sorted _ _ _ _ _ T).
  Qed.

  Theorem expr_covers : forall ts c, parse ts = Ok c -> tiled w 0 0 ts ->
    forall cs l, node_of (CInner CExpr cs l) c ->
    (forall z, nth_error cs (length cs - 1) = Some z -> forall x cz lz, z <> CInner CBackSlash (x :: cz) lz) ->
    Forall (fun u => pos_le (lend (tl u)) (lend l)) (leaf_toks (CInner CExpr cs l)).
  Proof.
    intros ts c H T cs l N NB. destruct (parse_sound _ _ H) as (G & rest & ET & S). subst ts.
    destruct (node_context _ _ N (or_introl G) _ _ _ S T) as [GN [(k & v & l' & E)|(rest' & l1 & c1 & S' & T')]];
      [discriminate|].
    apply gnode_expr in GN. inversion GN as [items l0 NE F]; subst.
    cbn [spans_ok] in S'. destruct S' as [(a & z & _ & EZ & ->) S']. cbn [lend].
    specialize (NB z EZ). apply app_last in EZ as [p ->].
    change (leaf_toks (CInner CExpr (p ++ [z]) (mkloc (lstart (cst_location a)) (lend (cst_location z)))))
      with (flat_map leaf_toks (p ++ [z])) in T' |- *.
    change (spans_list (p ++ [z]) rest') in S'.
    assert (SZ : spans_ok z rest').
    { clear -S'. induction p as [|y p IH]; [destruct S' as [S' _]; exact S'|destruct S' as [_ S']; apply IH; exact S']. }
    rewrite flat_map_app in T' |- *. cbn [flat_map] in T' |- *. rewrite app_nil_r in T' |- *.
    rewrite <- app_assoc in T'. pose proof T' as T2. apply (tiled_app w) in T2 as (l2 & c2 & T2 & _).
    apply Forall_app in F as [_ F]. apply Forall_inv in F.
    pose proof (item_covers z rest' l2 c2 F NB SZ T2) as CZ.
    apply Forall_app. split; [|exact CZ].
    destruct (leaf_toks z) as [|t tz] eqn:EZ; [exfalso; exact (g_item_toks z F EZ)|].
    apply Forall_inv in CZ. cbn [app] in T'. apply tiled_sorted in T'.
    eapply Forall_impl; [|exact T']. intros u P. eapply pos_le_trans; [exact P|exact CZ].
  Qed.

  Theorem expr_covers_not : (forall v, v <> [] -> 0 < w v) -> forall ts c, parse ts = Ok c -> tiled w 0 0 ts ->
    forall cs l x cz lz, node_of (CInner CExpr cs l) c -> nth_error cs (length cs - 1) = Some (CInner CBackSlash (x :: cz) lz) ->
    ~ Forall (fun u => pos_le (lend (tl u)) (lend l)) (leaf_toks (CInner CExpr cs l)).
  Proof.
    intros W ts c H T cs l x cz lz N EZ CV. destruct (parse_sound _ _ H) as (G & rest & ET & S). subst ts.
    destruct (node_context _ _ N (or_introl G) _ _ _ S T) as [GN [(k & v & l' & E)|(rest' & l1 & c1 & S' & T')]];
      [discriminate|].
    apply gnode_expr in GN. inversion GN as [items l0 NE F]; subst.
    cbn [spans_ok] in S'. destruct S' as [(a & z & _ & EZ' & ->) _]. rewrite EZ in EZ'. injection EZ' as <-. cbn [lend cst_location] in CV.
    apply app_last in EZ as [p ->].
    apply Forall_app in F as [_ F]. apply Forall_inv in F.
    inversion F as [|s k l' lx IN| | |k o cl lo body close l0 H1]; subst; [|discriminate].
    cbn [leaf_toks] in T', CV.
    rewrite flat_map_app in T', CV. rewrite <- app_assoc in T'.
    apply (tiled_app w) in T' as (l2 & c2 & T2 & _). apply Forall_app in CV as [_ CV].
    cbn [flat_map leaf_toks app] in T2, CV. cbn [tiled tk tl] in T2. destruct T2 as [E1 [E2 _]].
    inversion CV as [|? ? _ CV2]; subst. apply Forall_inv in CV2. cbn in CV2.
    assert (P : 0 < w (tok_src (unescape s))).
    { apply W. cbn in IN. repeat (destruct IN as [IN|IN]; [injection IN as <- <-; discriminate|]). destruct IN. }
    unfold pos_le in CV2. cbn in CV2. lia.
  Qed.
End Cover.
