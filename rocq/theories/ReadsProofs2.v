(** No argument starts where its first item starts. *)
From Coq Require Import String List NArith Arith Bool Lia.
From Verif Require Import Base Tokens Graphemes Tokenizer CST AST SpecTok SpecCST TransformError SpecTransform SpecReads Parser Transform
  TokenizerProofs ParserProofs ParserProofs2 ParserLocations TransformProofs TransformErrors TransformKinds TransformMeans TransformGrammar
  TransformIds TransformReads ReadsProofs.
Import ListNotations.

Definition command_node (a : ast) : bool :=
  match a with AInner (NAngle | NCurly | NSquare) _ _ _ => true | _ => false end.

Lemma node_trans : forall a b c, node_of a b -> node_of b c -> node_of a c.
Proof. intros a b c A B. induction B; [exact A|]. eapply N_child; eauto. Qed.

Lemma inside_nodes : forall k cs l x, In x (inside cs) -> node_of x (CInner k cs l).
Proof.
  intros k cs l x I. unfold inside in I. apply filter_In in I as [I _]. apply in_flat_map in I as (y & Y & I).
  eapply N_child; [exact Y|]. destruct y as [[]|]; cbn in I; try (destruct I as [<-|[]]; apply N_self).
  eapply N_child; [exact I|apply N_self].
Qed.

(** The commands of the AST are those of the CST. *)
Definition from (c : cst) (b : ast) : Prop := command_node b = true -> exists n, node_of n c /\ g_item n /\ reads n b.

Lemma from_list : forall d xs ys,
  Forall2 (fun x a => reads x a /\ (reading_tree x -> Forall (from x) (ast_nodes a))) xs ys ->
  Forall (fun x => reading_tree x /\ node_of x d) xs -> Forall (from d) (flat_map ast_nodes ys).
Proof.
  intros d xs ys F. induction F as [|x a xs ys [_ H] _ IH]; intro G; [constructor|].
  apply Forall_cons_iff in G as [[G1 G2] G3]. cbn. apply Forall_app. split; [|auto].
  eapply Forall_impl; [|exact (H G1)]. intros b B C. destruct (B C) as (n & N1 & N2 & N3). exists n.
  split; [eapply node_trans; eassumption|auto].
Qed.

Theorem reads_commands : forall c a, reads c a -> reading_tree c -> Forall (from c) (ast_nodes a).
Proof.
  apply (reads_ind' (fun c a => reading_tree c -> Forall (from c) (ast_nodes a))).
  - intros k k' s i l N G. repeat constructor. intro D. discriminate.
  - intros. repeat constructor. intro D. discriminate.
  - intros. repeat constructor. intro D. discriminate.
  - intros k o c k' cs l i hs aas CK H A G. destruct (command_back _ _ _ _ CK) as [NB AK].
    assert (GI : g_item (CInner k cs l)).
    { destruct G as [G|[G|[G|G]]]; [exact G| | |].
      - inversion G; subst. discriminate.
      - destruct G as (x & cs' & l' & E & _). injection E as -> _ _. discriminate.
      - destruct G as (? & ? & ? & ? & ? & E & _). injection E as -> _ _. discriminate. }
    pose proof (inside_items _ _ _ GI NB) as IN. rewrite Forall_forall in IN. cbn [ast_nodes].
    assert (RR : reads (CInner k cs l) (AInner k' i (hs ++ aas) l)).
    { eapply Re_command; [exact CK| |].
      - clear - H. induction H as [|? ? ? ? [R _] _ IH]; constructor; assumption.
      - clear - A. induction A as [|g a gs aas (i' & as' & -> & F) _ IH]; constructor; [|exact IH].
        exists i', as'. split; [reflexivity|]. clear - F. induction F as [|? ? ? ? [R _] _ IH]; constructor; assumption. }
    constructor.
    + intros _. exists (CInner k cs l). split; [apply N_self|auto].
    + rewrite flat_map_app. apply Forall_app. split.
      * eapply from_list; [exact H|]. rewrite Forall_forall. intros x X. apply filter_In in X as [X _].
        apply in_firstn in X. split; [left; auto|apply inside_nodes; exact X].
      * assert (GG : forall g x, In g (given (skipn 3 (inside cs))) -> In x g -> reading_tree x /\ node_of x (CInner k cs l)).
        { intros g x X Y. assert (I : In x (inside cs)) by (eapply in_skipn, given_in; eassumption).
          split; [left; auto|apply inside_nodes; exact I]. }
        clear - A GG. induction A as [|g a gs aas (i' & as' & -> & F) _ IH]; [constructor|].
        cbn [flat_map ast_nodes app]. constructor; [intro D; discriminate|]. apply Forall_app. split.
        -- eapply from_list; [exact F|]. rewrite Forall_forall. intros x X. eapply GG; [left; reflexivity|exact X].
        -- apply IH. intros g0 x X Y. eapply GG; [right; exact X|exact Y].
  - intros xs ys i l F G. cbn [ast_nodes]. constructor; [intro D; discriminate|]. eapply from_list; [exact F|].
    assert (GE : g_expr (CInner CExpr xs l)).
    { destruct G as [G|[G|[G|G]]]; [exfalso; exact (g_not_expr _ G _ _ eq_refl)|exact G| |].
      - destruct G as (x & cs' & l' & E & _). discriminate.
      - destruct G as (? & ? & ? & ? & ? & E & _). discriminate. }
    inversion GE as [items l0 NE HF]; subst. rewrite Forall_forall in *. intros x X.
    split; [left; auto|eapply N_child; [exact X|apply N_self]].
  - intros xs ys i l F G. cbn [ast_nodes]. constructor; [intro D; discriminate|]. eapply from_list; [exact F|].
    assert (GE : g_stmt (CInner CStmt xs l)).
    { destruct G as [G|[G|[G|G]]]; [inversion G; discriminate|inversion G|exact G|].
      destruct G as (? & ? & ? & ? & ? & E & _). discriminate. }
    rewrite Forall_forall. intros x X. apply filter_In in X as [X XI]. split; [|eapply N_child; [exact X|apply N_self]].
    destruct GE as (x0 & cs & l' & E & GX & GT). injection E as -> ->. destruct X as [->|X].
    + destruct GX as [GX|(k & l0 & -> & _)]; [right; left; exact GX|discriminate].
    + pose proof (stmt_inner cs GT) as S. rewrite Forall_forall in S. right; left. apply S, filter_In. auto.
  - intros xs ys i l F G. cbn [ast_nodes]. constructor; [intro D; discriminate|]. eapply from_list; [exact F|].
    assert (GE : g_document (CInner CDocument xs l)).
    { destruct G as [G|[G|[G|G]]]; [inversion G; discriminate|inversion G| |exact G].
      destruct G as (? & ? & ? & E & _). discriminate. }
    rewrite Forall_forall. intros x X. pose proof (doc_inner xs l GE) as S. rewrite Forall_forall in S.
    split; [do 2 right; left; auto|]. apply filter_In in X as [X _]. eapply N_child; [exact X|apply N_self].
Qed.

(** An item starts at one of its tokens. *)
Lemma item_start : forall x rest, g_item x -> ~ mark x -> spans_ok x rest ->
  exists t, In t (leaf_toks x) /\ lstart (item_loc x) = lstart (tl t).
Proof.
  intros x rest G NM S. destruct G as [l0|s k l0 l' H|k s l0 H|k l0 H|k o cl lo body close l0 H1 H2 H3].
  - exists (mktok TkBackSlash l0). split; [left; reflexivity|reflexivity].
  - exists (mktok (unescape s) l'). split; [right; left; reflexivity|reflexivity].
  - eexists. split; [left; reflexivity|reflexivity].
  - eexists. split; [left; reflexivity|reflexivity].
  - cbn [spans_ok] in S. destruct S as [S _]. exists (mktok (leaf_kind o None) lo). split.
    + destruct k; try discriminate; left; reflexivity.
    + destruct k; try discriminate; cbn [span_ok] in S; destruct S as (o' & c' & a & z & _ & E & _ & L & _);
        injection E as <-; exact L.
Qed.

Lemma node_toks : forall x c, node_of x c -> (forall cs l, c <> CInner CBackSlash cs l) -> gnode c ->
  (exists k v l, x = CLeaf k v l) \/ incl (leaf_toks x) (leaf_toks c).
Proof.
  intros x c N. induction N as [c|x y k cs l HI HN IH]; intros NB G; [right; apply incl_refl|].
  destruct (gnode_child _ _ _ G y HI) as [GY BY].
  assert (D : (forall cs l, y <> CInner CBackSlash cs l) \/ exists cs l, y = CInner CBackSlash cs l).
  { destruct y as [[]|]; try (left; discriminate). right; eauto. }
  assert (L : incl (leaf_toks y) (leaf_toks (CInner k cs l))).
  { intros t T. destruct k; try (apply in_flat_map; eauto; fail). exfalso. exact (NB _ _ eq_refl). }
  destruct D as [D|(cs' & l' & ->)].
  - destruct (IH D GY) as [E|E]; [left; exact E|right]. intros t T. apply L, E, T.
  - inversion HN as [|? x0 ? ? ? HI' HN']; subst; [right; exact L|left].
    destruct (gnode_child _ _ _ GY x0 HI') as [_ B]. destruct (B eq_refl) as (kk & vv & ll & ->).
    inversion HN'; subst. eauto.
Qed.

Lemma reads_command_form : forall n k i cs l, reads n (AInner k i cs l) -> In k [NAngle; NCurly; NSquare] ->
  exists ck o c ccs hs aas, n = CInner ck ccs l /\ command_kind ck = Some (o, c, k) /\ cs = hs ++ aas /\
    Forall2 reads (filter stands (firstn 3 (inside ccs))) hs /\
    Forall2 (fun g a => exists i' as', a = AInner NExpr i' as' (group_loc g) /\ Forall2 reads g as')
      (given (skipn 3 (inside ccs))) aas.
Proof.
  intros n k i cs l R K. inversion R as [| | |k0 o c k' cs0 l0 i0 hs aas CK H A| | |]; subst;
    try (destruct K as [K|[K|[K|[]]]]; discriminate).
  exists k0, o, c, cs0, hs, aas. repeat split; auto.
Qed.

Lemma leaf_or : forall x, (exists k v l, x = CLeaf k v l) \/ exists k cs l, x = CInner k cs l.
Proof. intros [k cs l|k v l]; eauto 6. Qed.

Theorem arguments_start : forall seg, seg_laws seg -> forall uuid s ts c a es,
  tokenize_str seg s = Ok ts -> parse ts = Ok c -> transform uuid c = Ok (a, es) ->
  forall k i cs l, In (AInner k i cs l) (ast_nodes a) -> In k [NAngle; NCurly; NSquare] ->
  forall i' xs l', In (AInner NExpr i' xs l') cs ->
  lstart l' = mkpos 0 0 /\ exists x r, xs = x :: r /\ lstart (ast_location x) <> mkpos 0 0.
Proof.
  intros seg L uuid s ts c a es ET EP EX k i cs l HN HK i' xs l' HC.
  pose proof (tokenize_tiled seg L s ts ET) as T. set (w := fun v : str => length (seg v)) in *.
  destruct (parse_sound ts c EP) as [G (rest & E & SP)]. rewrite E in T.
  pose proof (transform_reads uuid c a es G EX) as R.
  assert (RT : reading_tree c) by (do 3 right; exact G).
  pose proof (reads_commands c a R RT) as RC. rewrite Forall_forall in RC.
  pose proof (reads_ranges c a R RT) as RR. rewrite Forall_forall in RR.
  assert (CN : command_node (AInner k i cs l) = true) by (destruct HK as [<-|[<-|[<-|[]]]]; reflexivity).
  assert (AR : xs <> [] /\ lstart l' = mkpos 0 0 /\ l' = fold_left merge_location (map ast_location xs) mock_location).
  { specialize (RR _ HN). destruct HK as [<-|[<-|[<-|[]]]]; exact (RR i' xs l' HC). }
  destruct AR as [NE [L0 _]]. split; [exact L0|]. destruct xs as [|x r]; [contradiction|]. exists x, r. split; [reflexivity|].
  destruct (RC _ HN CN) as (n & N1 & N2 & N3).
  destruct (reads_command_form n k i cs l N3 HK) as (ck & o & cc & ccs & hs & aas & -> & CK & -> & FH & FA).
  destruct (command_back _ _ _ _ CK) as [NB AK].
  pose proof (inside_items _ _ _ N2 NB) as IN. rewrite Forall_forall in IN.
  assert (HA : In (AInner NExpr i' (x :: r) l') aas).
  { apply in_app_or in HC as [HC|HC]; [exfalso|exact HC].
    assert (HG : Forall g_item (filter stands (firstn 3 (inside ccs)))).
    { rewrite Forall_forall. intros y Y. apply filter_In in Y as [Y _]. apply in_firstn in Y. auto. }
    clear - FH HC HG. induction FH as [|y b ys hs R _ IH]; [destruct HC|]. apply Forall_cons_iff in HG as [G1 G2].
    destruct HC as [->|HC]; [exact (reads_item_kind _ _ R G1 _ _ _ eq_refl)|auto]. }
  assert (X : exists y, In y (inside ccs) /\ reads y x).
  { assert (GI : forall g y, In g (given (skipn 3 (inside ccs))) -> In y g -> In y (inside ccs)).
    { intros g y A B. eapply in_skipn, given_in; eassumption. }
    clear - FA HA GI. induction FA as [|g b gs aas (j & as' & -> & F) _ IH]; [destruct HA|].
    destruct HA as [HA|HA].
    - injection HA as -> -> <-. inversion F as [|y ? g' ? RY _]; subst. exists y. split; [|exact RY].
      eapply GI; [left; reflexivity|left; reflexivity].
    - apply IH; [exact HA|]. intros g0 y A B. eapply GI; [right; exact A|exact B]. }
  destruct X as (y & YI & RY).
  assert (GC : gnode c) by (left; exact G).
  destruct (node_context w _ _ N1 GC rest 0 0 SP T) as [GN [(? & ? & ? & D)|(rest' & l1 & c1 & SN & TN)]]; [discriminate|].
  pose proof (inside_nodes ck ccs l y YI) as NY.
  assert (SY : exists r1, spans_ok y r1).
  { destruct (node_context w _ _ NY GN rest' l1 c1 SN TN) as [_ [(? & ? & ? & ->)|(r1 & _ & _ & S1 & _)]]; [exists []; exact I|eauto]. }
  destruct SY as [r1 SY].
  destruct (item_start y r1 (IN y YI) (reads_no_mark y x RY) SY) as (t & TI & TL).
  rewrite (reads_loc y x RY), TL.
  inversion N2 as [| | | |k0 o' c' lo body close l0 HB HF HC']; subst; try contradiction.
  assert (TB : In t (flat_map leaf_toks body)).
  { rewrite (inside_bracket ck o' c' lo body close HB HF HC') in YI. unfold core in YI. apply filter_In in YI as [YI _].
    apply in_flat_map in YI as (e & EI & YI). apply in_flat_map. exists e. split; [exact EI|].
    destruct e as [[]|]; cbn in YI; try (destruct YI as [<-|[]]; exact TI).
    cbn [leaf_toks]. apply in_flat_map. eauto. }
  assert (LT : leaf_toks (CInner ck (CLeaf o' None lo :: body ++ close) l) =
               mktok (leaf_kind o' None) lo :: flat_map leaf_toks (body ++ close)) by (destruct ck; try discriminate; reflexivity).
  rewrite LT in TN. cbn [app tiled] in TN. destruct TN as [_ TN].
  assert (WO : w (tok_src (leaf_kind o' None)) > 0 /\ leaf_kind o' None <> TkNewLine).
  { assert (W : forall v, v <> [] -> w v > 0).
    { intros v V. unfold w. pose proof (seg_concat seg L v) as CC. destruct (seg v); [cbn in CC; congruence|cbn; lia]. }
    destruct ck; try discriminate; injection HB as <- <-; split; try discriminate; apply W; discriminate. }
  destruct WO as [WO NL].
  assert (TN' : tiled w l1 (c1 + w (tok_src (leaf_kind o' None))) (flat_map leaf_toks (body ++ close) ++ rest'))
    by (cbn [tk] in TN; destruct (leaf_kind o' None); try contradiction; exact TN).
  apply tiled_from in TN'. rewrite Forall_forall in TN'.
  assert (TI' : In t (flat_map leaf_toks (body ++ close) ++ rest')).
  { apply in_or_app. left. rewrite flat_map_app. apply in_or_app. left. exact TB. }
  destruct (TN' t TI') as [P _]. intro Z. rewrite Z in P. unfold pos_le in P. cbn in P. lia.
Qed.
