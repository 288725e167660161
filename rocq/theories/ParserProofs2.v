(** Consequences: the EOF token, balanced documents, merged locations. *)
From Coq Require Import String List NArith Arith Bool Lia.
From Verif Require Import Base Tokens CST SpecTok SpecCST Parser ParserProofs ParserTotal ParserAccepts.
Import ListNotations.

(** ** The only EOF leaf is the last one *)
Section cst_ind.
  Variable P : cst -> Prop.
  Hypothesis Hleaf : forall k v l, P (CLeaf k v l).
  Hypothesis Hinner : forall k cs l, Forall P cs -> P (CInner k cs l).
  Fixpoint cst_ind' (c : cst) : P c :=
    match c with
    | CLeaf k v l => Hleaf k v l
    | CInner k cs l => Hinner k cs l
        ((fix go (cs : list cst) : Forall P cs :=
            match cs with [] => Forall_nil _ | x :: cs' => Forall_cons _ (cst_ind' x) (go cs') end) cs)
    end.
End cst_ind.

Definition no_eof (c : cst) : Prop := Forall (fun t => tk t <> TkEOF) (leaf_toks c).

Lemma Forall_flat_map : forall A B (P : B -> Prop) (f : A -> list B) l,
  Forall (fun x => Forall P (f x)) l -> Forall P (flat_map f l).
Proof.
  intros A B P f l H. induction H as [|x l H1 _ IH]; [constructor|]. cbn. apply Forall_app; auto.
Qed.

Lemma g_no_eof : forall c, (g_item c -> no_eof c) /\ (g_expr c -> no_eof c).
Proof.
  induction c as [k v l|k cs l IH] using cst_ind'.
  - split; intro H; [|inversion H]. inversion H as [| |k' s l' H1|k' l' H1|]; subst;
      destruct H1 as [<-|[<-|[<-|[]]]]; repeat constructor; discriminate.
  - split; intro H.
    + inversion H as [l0|s k0 l0 l' H1| | |k0 o c lo body close l0 H1 H2 H3]; subst.
      * repeat constructor; discriminate.
      * constructor; [discriminate|]. constructor; [|constructor]. cbn.
        repeat (destruct H1 as [H1|H1]; [injection H1 as <- <-; discriminate|]). destruct H1.
      * assert (N : Forall no_eof (CLeaf o None lo :: body ++ close)).
        { constructor; [destruct k; try discriminate; injection H1 as <- <-; repeat constructor; discriminate|].
          apply Forall_app. split.
          - rewrite Forall_forall in H2, IH |- *. intros x Hx.
            destruct (H2 x Hx) as [G|[lx ->]]; [|repeat constructor; discriminate].
            apply IH; [right; apply in_or_app; left; exact Hx|exact G].
          - destruct H3 as [->|[lc ->]]; [constructor|].
            destruct k; try discriminate; injection H1 as <- <-; repeat constructor; discriminate. }
        unfold no_eof. destruct k; try discriminate; cbn [leaf_toks]; apply Forall_flat_map; exact N.
    + inversion H as [items l0 H1 H2]; subst. apply Forall_flat_map.
      rewrite Forall_forall in H2, IH |- *. intros x Hx. exact (proj1 (IH x Hx) (H2 x Hx)).
Qed.

Lemma nl_no_eof : forall c, is_newline c -> no_eof c.
Proof. intros c [l ->]. repeat constructor; discriminate. Qed.

Lemma eoc_no_eof : forall c, g_expr_or_close c -> no_eof c.
Proof.
  intros c [H|(k & l & -> & H)]; [apply g_no_eof; exact H|].
  destruct H as [<-|[<-|[<-|[]]]]; repeat constructor; discriminate.
Qed.

Lemma stmt_tail_no_eof : forall cs, g_stmt_tail cs -> Forall no_eof cs.
Proof.
  intros cs H. induction H as [|n x cs H1 H2 _ IH]; [constructor|].
  constructor; [apply nl_no_eof; exact H1|]. constructor; [apply eoc_no_eof; exact H2|exact IH].
Qed.

Lemma stmt_no_eof : forall c, g_stmt c -> no_eof c.
Proof.
  intros c (x & cs & l & -> & H1 & H2). apply Forall_flat_map. constructor; [apply eoc_no_eof; exact H1|].
  apply stmt_tail_no_eof; exact H2.
Qed.

Lemma nls_no_eof : forall ns, Forall is_newline ns -> Forall no_eof ns.
Proof. intros ns H. eapply Forall_impl; [apply nl_no_eof|exact H]. Qed.

Lemma paragraphs_no_eof : forall cs, g_paragraphs cs -> Forall no_eof cs.
Proof.
  intros cs H. induction H as [|s n1 n2 ns cs H1 H2 H3 H4 _ IH]; [constructor|].
  constructor; [apply stmt_no_eof; exact H1|]. constructor; [apply nl_no_eof; exact H2|].
  constructor; [apply nl_no_eof; exact H3|]. apply Forall_app. split; [apply nls_no_eof; exact H4|exact IH].
Qed.

Lemma document_eof : forall c, g_document c ->
  exists body e, leaf_toks c = body ++ [mktok TkEOF e] /\ Forall (fun t => tk t <> TkEOF) body.
Proof.
  intros c (ps & last & ns & le & l & -> & H1 & H2 & H3).
  exists (flat_map leaf_toks (ps ++ last ++ ns)), le. split.
  - cbn [leaf_toks]. rewrite !flat_map_app, <- !app_assoc. reflexivity.
  - apply Forall_flat_map. rewrite !Forall_app. split; [apply paragraphs_no_eof; exact H1|].
    split; [|apply nls_no_eof; exact H3].
    destruct H2 as [->|(s & -> & H2)]; [constructor|]. constructor; [apply stmt_no_eof; exact H2|constructor].
Qed.

Theorem parse_lossless : forall ts c, parse ts = Ok c ->
  exists body e rest, ts = body ++ mktok TkEOF e :: rest /\
    Forall (fun t => tk t <> TkEOF) body /\ leaf_toks c = body ++ [mktok TkEOF e].
Proof.
  intros ts c H. destruct (parse_sound _ _ H) as (G & rest & E & _).
  destruct (document_eof _ G) as (body & e & E1 & E2). exists body, e, rest. split; [|auto].
  rewrite E, E1, <- app_assoc. reflexivity.
Qed.

(** With a single, final EOF token the leaves are the token list. *)
Theorem parse_lossless_exact : forall body e c,
  parse (body ++ [mktok TkEOF e]) = Ok c -> Forall (fun t => tk t <> TkEOF) body ->
  leaf_toks c = body ++ [mktok TkEOF e].
Proof.
  intros body e c H F. destruct (parse_lossless _ _ H) as (b2 & e2 & rest & E & F2 & ->).
  enough (X : b2 = body /\ e2 = e) by (destruct X as [-> ->]; reflexivity).
  clear H. revert b2 E F2. induction body as [|t body IH]; intros [|t2 b2] E F2; cbn in E.
  - injection E as E _. auto.
  - injection E as E _. subst t2. inversion F2 as [|? ? X _]; subst. exfalso; apply X; reflexivity.
  - injection E as -> _. inversion F as [|? ? X _]; subst. exfalso; apply X; reflexivity.
  - injection E as -> E. inversion F; inversion F2; subst. destruct (IH ltac:(assumption) b2 E ltac:(assumption)) as [-> ->]. auto.
Qed.

(** ** Balanced documents *)
Definition flowing (open : list tkind) (p : place) : Prop :=
  open <> [] \/ p = AtLineStart \/ p = AfterExpr.

Lemma flowing_content : forall open p, flowing open p -> content_ok open p = true.
Proof. intros [|o open] p [H|[->| ->]]; try reflexivity. congruence. Qed.

Lemma flowing_after : forall open, flowing open AfterExpr.
Proof. intro; right; right; reflexivity. Qed.

Lemma balanced_accepts : forall ks, balanced ks -> forall open p rest, flowing open p ->
  exists p', flowing open p' /\ accepts open p (ks ++ rest) = accepts open p' rest.
Proof.
  intros ks H. induction H as [|k ks HK HB IH|s k ks HK HB IH|k ks HK N1 N2 HB IH|o c inner ks HM HI IHI HB IH];
    intros open p rest F.
  - exists p. auto.
  - destruct k; try discriminate; cbn [app accepts]; rewrite ?(flowing_content _ _ F); cbn [andb];
      try (apply IH; apply flowing_after).
    assert (X : flowing open AtLineStart) by (right; left; reflexivity).
    destruct (IH open AtLineStart rest X) as (p' & F' & E). exists p'. split; [exact F'|].
    rewrite <- E. destruct open as [|o open]; [|reflexivity]. destruct F as [F|[->| ->]]; [congruence|reflexivity..].
  - cbn [app accepts]. rewrite (flowing_content _ _ F), escape_iff. cbn [andb].
    destruct (escapable k) eqn:E; [apply IH; apply flowing_after|].
    exfalso. cbn in HK. repeat (destruct HK as [HK|HK]; [injection HK as <- <-; discriminate|]). exact HK.
  - cbn [app accepts]. rewrite (flowing_content _ _ F), escape_iff. cbn [andb].
    destruct (escapable k) eqn:E; [destruct k; try discriminate; congruence|].
    change (k :: ks ++ rest) with ((k :: ks) ++ rest). apply IH. apply flowing_after.
  - assert (X : accepts open p ((o :: inner ++ c :: ks) ++ rest) =
                accepts (o :: open) AfterExpr (inner ++ c :: ks ++ rest)).
    { change ((o :: inner ++ c :: ks) ++ rest) with (o :: (inner ++ c :: ks) ++ rest).
      rewrite <- app_assoc. destruct HM; cbn [accepts]; rewrite (flowing_content _ _ F); reflexivity. }
    destruct (IHI (o :: open) AfterExpr (c :: ks ++ rest) (flowing_after _)) as (p1 & _ & E1).
    destruct (IH open AfterExpr rest (flowing_after _)) as (p2 & F2 & E2).
    exists p2. split; [exact F2|]. rewrite X, E1, <- E2. destruct HM; reflexivity.
Qed.

Theorem balanced_parses : forall body e, balanced (map tk body) ->
  (forall l r, body <> mktok TkNewLine l :: r) ->
  exists c, parse (body ++ [mktok TkEOF e]) = Ok c.
Proof.
  intros body e H N. apply parse_accepts. unfold acceptable. rewrite map_app.
  assert (E : accepts [] AtDocStart (map tk body ++ map tk [mktok TkEOF e]) =
              accepts [] AtLineStart (map tk body ++ map tk [mktok TkEOF e])).
  { destruct body as [|[k l] body]; [reflexivity|]. destruct k; try reflexivity.
    exfalso; eapply N; reflexivity. }
  rewrite E. destruct (balanced_accepts _ H [] AtLineStart (map tk [mktok TkEOF e])) as (p' & _ & E');
    [right; left; reflexivity|]. rewrite E'. reflexivity.
Qed.

(** Unclosed brackets are accepted too: open brackets may be left open at the end of the file. *)
Lemma open_parses : forall ks open p, balanced ks -> flowing open p ->
  accepts open p (ks ++ [TkEOF]) = true.
Proof.
  intros ks open p H F. destruct (balanced_accepts _ H open p [TkEOF] F) as (p' & _ & ->). reflexivity.
Qed.

Lemma only_newlines_reject : forall ks k rest,
  Forall (fun k => k = TkNewLine) ks -> k <> TkNewLine -> k <> TkEOF ->
  accepts [] OnlyNewlines (ks ++ k :: rest) = false.
Proof.
  intros ks k rest F N1 N2. induction F as [|x ks -> _ IH].
  - cbn. destruct k; try congruence; reflexivity.
  - exact IH.
Qed.

Theorem leading_newline_rejected : forall l nls t rest,
  Forall (fun t => tk t = TkNewLine) nls -> tk t <> TkNewLine -> tk t <> TkEOF ->
  forall c, parse (mktok TkNewLine l :: nls ++ t :: rest) <> Ok c.
Proof.
  intros l nls t rest F N1 N2 c H.
  assert (A : acceptable (mktok TkNewLine l :: nls ++ t :: rest) = true) by (apply parse_accepts; eauto).
  unfold acceptable in A. cbn [map tk accepts] in A. rewrite map_app in A. cbn [map] in A.
  rewrite only_newlines_reject in A; [discriminate| |assumption|assumption].
  clear -F. induction F; cbn; constructor; auto.
Qed.

Lemma balanced_prefix_after : forall ks, balanced ks -> forall open p rest, flowing open p ->
  ks <> [] -> Forall (fun k => k <> TkNewLine) ks ->
  accepts open p (ks ++ rest) = accepts open AfterExpr rest.
Proof.
  intros ks H. induction H as [|k ks HK HB IH|s k ks HK HB IH|k ks HK N1 N2 HB IH|o c inner ks HM HI IHI HB IH];
    intros open p rest F NE NN.
  - congruence.
  - inversion NN as [|? ? NN1 NN2]; subst.
    assert (X : accepts open p (k :: ks ++ rest) = accepts open AfterExpr (ks ++ rest)).
    { destruct k; try discriminate; try congruence; cbn [accepts]; rewrite (flowing_content _ _ F); reflexivity. }
    cbn [app]. rewrite X. destruct ks; [reflexivity|]. apply IH; auto using flowing_after. discriminate.
  - cbn [app accepts]. rewrite (flowing_content _ _ F), escape_iff. cbn [andb].
    assert (E : exists s', escapable k = Some s').
    { cbn in HK. repeat (destruct HK as [HK|HK]; [injection HK as <- <-; eexists; reflexivity|]). destruct HK. }
    destruct E as [s' ->]. inversion NN as [|? ? _ NN']; subst. inversion NN' as [|? ? _ NN2]; subst.
    destruct ks; [reflexivity|]. apply IH; auto using flowing_after. discriminate.
  - cbn [app accepts]. rewrite (flowing_content _ _ F), escape_iff. cbn [andb].
    destruct (escapable k) eqn:E; [destruct k; try discriminate; congruence|].
    inversion NN; subst. change (k :: ks ++ rest) with ((k :: ks) ++ rest).
    apply IH; auto using flowing_after. discriminate.
  - change ((o :: inner ++ c :: ks) ++ rest) with (o :: (inner ++ c :: ks) ++ rest).
    rewrite <- app_assoc. cbn [app].
    assert (X : accepts open p (o :: inner ++ c :: ks ++ rest) =
                accepts (o :: open) AfterExpr (inner ++ c :: ks ++ rest)).
    { destruct HM; cbn [accepts]; rewrite (flowing_content _ _ F); reflexivity. }
    rewrite X. destruct (balanced_accepts _ HI (o :: open) AfterExpr (c :: ks ++ rest) (flowing_after _)) as (p1 & _ & ->).
    inversion NN as [|? ? _ NN1]; subst. apply Forall_app in NN1 as [_ NN1]. inversion NN1 as [|? ? _ NN2]; subst.
    assert (Y : accepts (o :: open) p1 (c :: ks ++ rest) = accepts open AfterExpr (ks ++ rest)) by (destruct HM; reflexivity).
    rewrite Y. destruct ks; [reflexivity|]. apply IH; auto using flowing_after. discriminate.
Qed.

(** A closing bracket after something on the same line that closes nothing is an error. *)
Theorem stray_close_rejected : forall pre line t rest,
  balanced (map tk pre) -> (forall l r, pre ++ line <> mktok TkNewLine l :: r) ->
  balanced (map tk line) -> line <> [] -> Forall (fun t => tk t <> TkNewLine) line ->
  In (tk t) [TkAngleClose; TkCurlyClose; TkSquareClose] ->
  forall c, parse (pre ++ line ++ t :: rest) <> Ok c.
Proof.
  intros pre line t rest HP NF HL NE NN HT c H.
  assert (A : acceptable (pre ++ line ++ t :: rest) = true) by (apply parse_accepts; eauto).
  unfold acceptable in A. rewrite !map_app in A. cbn [map] in A.
  assert (E : accepts [] AtDocStart (map tk pre ++ map tk line ++ tk t :: map tk rest) =
              accepts [] AtLineStart (map tk pre ++ map tk line ++ tk t :: map tk rest)).
  { rewrite app_assoc, <- map_app. destruct (pre ++ line) as [|[k l] body] eqn:EB.
    - apply app_eq_nil in EB as [_ EB]. contradiction.
    - destruct k; try reflexivity. exfalso; eapply NF; reflexivity. }
  rewrite E in A.
  destruct (balanced_accepts _ HP [] AtLineStart (map tk line ++ tk t :: map tk rest)) as (p & F & E1);
    [right; left; reflexivity|]. rewrite E1 in A.
  rewrite (balanced_prefix_after _ HL [] p) in A; [|exact F|intro X; apply map_eq_nil in X; contradiction|].
  - destruct HT as [HT|[HT|[HT|[]]]]; rewrite <- HT in A; discriminate.
  - clear -NN. induction NN; cbn; constructor; auto.
Qed.
