(** Every tree [transform] makes is the reading of its document. *)
From Coq Require Import String List NArith Arith Bool Lia.
From Verif Require Import Base Tokens CST AST SpecCST TransformError SpecTransform SpecReads Transform
  ParserProofs ParserProofs2 ParserLocations TransformProofs TransformErrors TransformKinds TransformMeans TransformGrammar.
Import ListNotations.

Definition mk (g : list cst) : cst := CInner CExpr g (fold_loc g).
Definition notdot (c : cst) : bool := negb (good_dot c).
Definition tame_item (c : cst) : Prop := sitem c = true /\ visible c = true.

Lemma between_app : forall cs g, exists g' gs, between_commas g cs = (g ++ g') :: gs.
Proof.
  induction cs as [|c cs IH]; intro g; cbn.
  - exists [], []. rewrite app_nil_r. reflexivity.
  - destruct (is_comma c); [exists [], (between_commas [] cs); rewrite app_nil_r; reflexivity|].
    destruct (IH (g ++ [c])) as (g' & gs & ->). exists (c :: g'), gs. rewrite <- app_assoc. reflexivity.
Qed.

Lemma emit_mk : forall es, emit es (fold_loc es) = map mk (filter some_item [es]).
Proof. intros [|x es]; reflexivity. Qed.

Lemma remove_mk : forall gs, remove_elements_not_included_ast (map mk gs) = map mk gs.
Proof. induction gs as [|g gs IH]; [reflexivity|]. cbn. rewrite IH. reflexivity. Qed.

Lemma args_out : forall rest prev es pc close,
  Forall tame_item rest -> (close = [] \/ exists c, close = [c] /\ is_closer c = true) ->
  remove_elements_not_included_ast (fst (args_pure prev (rest ++ close) es (fold_loc es) pc)) =
  map mk (filter some_item (between_commas es (filter notdot rest))).
Proof.
  induction rest as [|c rest IH]; intros prev es pc close HF HC.
  - cbn [app filter between_commas]. destruct HC as [->|(c & -> & HC)].
    + cbn [args_pure fst]. rewrite emit_mk. apply remove_mk.
    + destruct c as [|k v l]; [discriminate|].
      assert (E : fst (args_pure prev [CLeaf k v l] es (fold_loc es) pc) = emit es (fold_loc es) ++ [CLeaf k v l])
        by (destruct k; try discriminate; reflexivity). rewrite E, remove_app, emit_mk, remove_mk.
      destruct k; try discriminate; apply app_nil_r.
  - apply Forall_cons_iff in HF as [[S V] HF]. cbn [app].
    assert (D : is_comma c = false -> good_dot c = false -> args_pure prev (c :: rest ++ close) es (fold_loc es) pc =
              args_pure c (rest ++ close) (es ++ [c]) (fold_loc (es ++ [c])) false).
    { intros A B. rewrite fold_loc_snoc. destruct c as [|k v l]; [reflexivity|]. destruct k; try discriminate; reflexivity. }
    destruct (is_comma c) eqn:EC.
    + destruct c as [|k v l]; [discriminate|]. destruct k; try discriminate. cbn [args_pure filter notdot good_dot negb between_commas].
      cbn [is_comma]. destruct es as [|x es].
      * specialize (IH (CLeaf LComma v l) [] pc close HF HC).
        destruct (args_pure (CLeaf LComma v l) (rest ++ close) [] (fold_loc []) pc) as [o e]. exact IH.
      * specialize (IH (CLeaf LComma v l) [] true close HF HC). change (fold_loc []) with mock_location in IH.
        destruct (args_pure (CLeaf LComma v l) (rest ++ close) [] mock_location true) as [o e]. cbn [fst] in *.
        cbn [remove_elements_not_included_ast not_in_ast filter some_item map]. rewrite IH. reflexivity.
    + destruct (good_dot c) eqn:ED.
      * destruct c as [|k v l]; [discriminate|]. destruct k; try discriminate. cbn [args_pure filter notdot good_dot negb].
        specialize (IH (CLeaf LDot v l) es pc close HF HC).
        destruct (args_pure (CLeaf LDot v l) (rest ++ close) es (fold_loc es) pc) as [o e]. exact IH.
      * rewrite D by reflexivity. rewrite IH by assumption. cbn [filter]. unfold notdot at 2. rewrite ED. cbn [negb between_commas].
        rewrite EC. reflexivity.
Qed.

Lemma remove_stands : forall cs, Forall tame_item cs -> remove_elements_not_included_ast cs = filter stands cs.
Proof.
  intros cs H. induction H as [|c cs [S V] _ IH]; [reflexivity|]. cbn. rewrite IH.
  destruct c as [k xs l|k v l]; [reflexivity|]. destruct k; try discriminate; reflexivity.
Qed.

Definition core (cs : list cst) : list cst := filter (fun c => visible c && negb (bracket_leaf c)) cs.

Lemma core_sitem : forall ys, Forall (fun c => sitem c = true) ys -> core ys = filter visible ys.
Proof.
  intros ys H. induction H as [|c ys S _ IH]; [reflexivity|]. unfold core in *. cbn. rewrite IH.
  destruct c as [k xs l|k v l]; [reflexivity|]. destruct k; try discriminate; reflexivity.
Qed.

Lemma out_spec : forall o ys close, not_in_ast o = true -> visible o = true -> Forall (fun c => sitem c = true) ys ->
  (close = [] \/ exists c, close = [c] /\ is_closer c = true) ->
  out (o :: ys ++ close) =
  filter stands (firstn 3 (core ys)) ++ map mk (given (skipn 3 (core ys))).
Proof.
  intros o ys close HO VO HY HC. unfold out. rewrite strip_filter. cbn [filter]. rewrite VO, filter_app, (core_sitem ys HY).
  assert (EC : filter visible close = close).
  { destruct HC as [->|(c & -> & C)]; [reflexivity|]. destruct c as [|k v l]; [discriminate|]. destruct k; try discriminate; reflexivity. }
  rewrite EC.
  assert (HT : Forall tame_item (filter visible ys)).
  { rewrite Forall_forall in *. intros c I. apply filter_In in I as [I V]. split; auto. }
  set (V := filter visible ys) in *. clearbody V.
  assert (RC : remove_elements_not_included_ast close = []).
  { destruct HC as [->|(c & -> & C)]; [reflexivity|]. destruct c as [|k v l]; [discriminate|]. destruct k; try discriminate; reflexivity. }
  assert (short : forall V, Forall tame_item V -> remove_elements_not_included_ast (o :: V ++ close) = filter stands V).
  { intros W HW. cbn. rewrite HO, remove_app, RC, app_nil_r. apply remove_stands, HW. }
  destruct V as [|v1 [|v2 [|v3 rest]]].
  - etransitivity; [|exact (short _ HT)]. destruct HC as [->|(c & -> & C)]; reflexivity.
  - etransitivity; [|etransitivity; [exact (short _ HT)|symmetry; apply app_nil_r]].
    destruct HC as [->|(c & -> & C)]; reflexivity.
  - etransitivity; [|etransitivity; [exact (short _ HT)|symmetry; apply app_nil_r]].
    destruct HC as [->|(c & -> & C)]; reflexivity.
  - cbn [app cva firstn skipn].
    pose proof (args_out rest v3 [] false close ltac:(do 3 apply Forall_inv_tail in HT; exact HT) HC) as A.
    change (fold_loc []) with mock_location in A. destruct (args_pure v3 (rest ++ close) [] mock_location false) as [oo ee].
    cbn [fst] in *. change (o :: v1 :: v2 :: v3 :: oo) with ([o; v1; v2; v3] ++ oo). rewrite remove_app, A. f_equal.
    cbn [remove_elements_not_included_ast]. rewrite HO. apply (remove_stands [v1; v2; v3]).
    change (v1 :: v2 :: v3 :: rest) with ([v1; v2; v3] ++ rest) in HT. apply Forall_app in HT as [HT _]. exact HT.
Qed.

(** ** Reading the simplified items *)
Definition same_face (x y : cst) : Prop := exists e, SItem x y e.

Lemma same_dot : forall x y, same_face x y -> good_dot x = good_dot y.
Proof.
  intros x y [e S]. inversion S as [k v l E|l|s l l'|k o c lo body close l xs ys es items HB]; subst; try reflexivity.
Qed.
Lemma same_comma : forall x y, same_face x y -> is_comma x = is_comma y.
Proof. intros x y [e S]. eapply SItem_comma, S. Qed.
Lemma same_visible : forall x y, same_face x y -> visible x = visible y.
Proof. intros x y [e S]. eapply SItem_visible, S. Qed.
Lemma same_bracket : forall x y, same_face x y -> bracket_leaf x = bracket_leaf y.
Proof.
  intros x y [e S]. inversion S as [k v l E|l|s l l'|k o c lo body close l xs ys es items HB]; subst; try reflexivity.
Qed.
Lemma same_loc : forall x y, same_face x y -> item_loc x = cst_location y.
Proof.
  intros x y [e S]. inversion S as [k v l E|l|s l l'|k o c lo body close l xs ys es items HB]; subst; try reflexivity.
  destruct k; try discriminate; reflexivity.
Qed.

Definition okr (uuid : nat -> str) (x y : cst) : Prop :=
  same_face x y /\ forall n a n', aux uuid y n = Ok (a, n') -> reads x a.

Section transfer.
  Variable R : cst -> cst -> Prop.
  Hypothesis RF : forall x y, R x y -> same_face x y.

  Lemma F2_firstn : forall n xs ys, Forall2 R xs ys -> Forall2 R (firstn n xs) (firstn n ys).
  Proof. induction n as [|n IH]; intros xs ys H; [constructor|]. destruct H; cbn; constructor; auto. Qed.
  Lemma F2_skipn : forall n xs ys, Forall2 R xs ys -> Forall2 R (skipn n xs) (skipn n ys).
  Proof. induction n as [|n IH]; intros xs ys H; [exact H|]. destruct H; cbn; [constructor|auto]. Qed.
  Lemma F2_between : forall xs ys, Forall2 R xs ys -> forall g h, Forall2 R g h ->
    Forall2 (Forall2 R) (between_commas g xs) (between_commas h ys).
  Proof.
    intros xs ys H. induction H as [|x y xs ys Hxy _ IH]; intros g h G; cbn; [repeat constructor; exact G|].
    rewrite (same_comma x y (RF _ _ Hxy)). destruct (is_comma y).
    - constructor; [exact G|]. apply IH. constructor.
    - apply IH. apply Forall2_app; [exact G|repeat constructor; exact Hxy].
  Qed.
  Lemma F2_some : forall gs hs, Forall2 (Forall2 R) gs hs -> Forall2 (Forall2 R) (filter some_item gs) (filter some_item hs).
  Proof.
    intros gs hs H. induction H as [|g h gs hs G _ IH]; [constructor|]. cbn. destruct G; cbn; [exact IH|].
    constructor; [constructor; assumption|exact IH].
  Qed.
  Lemma F2_given : forall xs ys, Forall2 R xs ys -> Forall2 (Forall2 R) (given xs) (given ys).
  Proof.
    intros xs ys H. apply F2_some, F2_between; [|constructor]. apply Forall2_filter; [|exact H].
    intros x y A. cbn. rewrite (same_dot x y (RF _ _ A)). reflexivity.
  Qed.
  Lemma F2_core : forall xs ys, Forall2 R xs ys -> Forall2 R (core xs) (core ys).
  Proof.
    intros xs ys H. apply Forall2_filter; [|exact H]. intros x y A. cbn.
    rewrite (same_visible x y (RF _ _ A)), (same_bracket x y (RF _ _ A)). reflexivity.
  Qed.
  Lemma F2_stands : forall xs ys, Forall2 R xs ys -> Forall2 R (filter stands xs) (filter stands ys).
  Proof.
    intros xs ys H. apply Forall2_filter; [|exact H]. intros x y A. unfold stands.
    rewrite (same_dot x y (RF _ _ A)), (same_comma x y (RF _ _ A)). reflexivity.
  Qed.
End transfer.

Lemma group_loc_face : forall R : cst -> cst -> Prop, (forall x y, R x y -> same_face x y) ->
  forall g h, Forall2 R g h -> fold_loc h = group_loc g.
Proof.
  intros R RF g h H. unfold fold_loc, group_loc. f_equal. induction H as [|x y g h A _ IH]; [reflexivity|].
  cbn. rewrite IH, (same_loc x y (RF _ _ A)). reflexivity.
Qed.

Lemma auxs_app : forall uuid a b n r n', auxs uuid (a ++ b) n = Ok (r, n') ->
  exists ra rb m, auxs uuid a n = Ok (ra, m) /\ auxs uuid b m = Ok (rb, n') /\ r = ra ++ rb.
Proof.
  intros uuid a b. induction a as [|x a IH]; intros n r n' H.
  - exists [], r, n. auto.
  - cbn [app auxs] in H. fold (auxs uuid) in H. apply bind_ok in H as ([y n1] & A & H).
    apply bind_ok in H as ([r' n2] & B & H). injection H as <- <-. destruct (IH _ _ _ B) as (ra & rb & m & E1 & E2 & ->).
    exists (y :: ra), rb, m. cbn [auxs]. fold (auxs uuid). rewrite A. cbn [bind]. rewrite E1. auto.
Qed.

Lemma inside_bracket : forall k o c lo body close, bracket_of k = Some (o, c) ->
  Forall (fun x => g_expr x \/ is_newline x) body ->
  (close = [] \/ exists lc, close = [CLeaf c None lc]) ->
  inside (CLeaf o None lo :: body ++ close) = core (flat body).
Proof.
  intros k o c lo body close HB HF HC. unfold inside. rewrite (flat_bracket o lo body close c HC).
  cbn [filter]. assert (EO : visible (CLeaf o None lo) && negb (bracket_leaf (CLeaf o None lo)) = false)
    by (destruct k; try discriminate; injection HB as <- <-; reflexivity). rewrite EO, filter_app.
  assert (E : filter (fun c => visible c && negb (bracket_leaf c)) close = []).
  { destruct HC as [->|[lc ->]]; [reflexivity|]. destruct k; try discriminate; injection HB as <- <-; reflexivity. }
  rewrite E, app_nil_r. reflexivity.
Qed.

Lemma SItem_reads : forall uuid,
  (forall c c' es (H : SItem c c' es), parsed c -> okr uuid c c') /\
  (forall xs ys es (H : SItems xs ys es), Forall parsed xs -> Forall2 (okr uuid) xs ys).
Proof.
  intro uuid. assert (RF : forall x y, okr uuid x y -> same_face x y) by (intros x y [A _]; exact A).
  apply (SItem_both
    (fun c c' es _ => parsed c -> okr uuid c c')
    (fun xs ys es _ => Forall parsed xs -> Forall2 (okr uuid) xs ys)).
  - intros k v l E HP. split; [eexists; apply SI_leaf, E|]. intros n a n' H.
    cbn in H. destruct (aux_leaf k v) as [[k' v']|] eqn:EA; [|discriminate]. injection H as <- <-.
    destruct (parsed_name k v l HP) as [s ->]; [destruct k; discriminate|].
    apply aux_leaf_name in EA as [EA ->]; [|intros ->; discriminate]. apply Re_name, EA.
  - intros l _. split; [eexists; apply SI_esc0|]. intros n a n' H. injection H as <- <-. apply Re_nothing.
  - intros s l l' _. split; [eexists; apply SI_esc1|]. intros n a n' H. injection H as <- <-. apply Re_escape.
  - intros k o c lo body close l xs ys es items HB HF HC HX HS IH HI _.
    specialize (IH ltac:(subst xs; apply parsed_flat, HF)). split.
    { eexists. eapply SI_bracket; eauto. }
    pose proof (SItems_sitem _ _ _ HS) as YS. subst items.
    rewrite out_spec; [|destruct k; try discriminate; injection HB as <- <-; reflexivity
      |destruct k; try discriminate; injection HB as <- <-; reflexivity|exact YS|].
    2: { destruct HC as [->|[lc ->]]; [auto|right]. eexists. split; [reflexivity|].
         destruct k; try discriminate; injection HB as <- <-; reflexivity. }
    destruct (command_bracket _ _ _ HB) as (k' & CK & AK).
    intros n a n' H. rewrite aux_inner_eq, AK in H. apply bind_ok in H as ([r n1] & A & H). injection H as <- <-.
    apply auxs_app in A as (hs & aas & m & A1 & A2 & ->).
    eapply Re_command; [exact CK| |]; rewrite (inside_bracket k o c lo body close HB HF HC), <- HX.
    + eapply auxs_rel; [|apply F2_stands, F2_firstn, F2_core; [exact RF|exact RF|exact IH]|exact A1].
      intros x y n0 a n2 [_ G]. apply G.
    + pose proof (F2_given _ RF _ _ (F2_skipn _ 3 _ _ (F2_core _ RF _ _ IH))) as G.
      set (gs := given (skipn 3 (core xs))) in *. set (hs' := given (skipn 3 (core ys))) in *. clearbody gs hs'.
      clear - G A2 RF. revert m aas n1 A2. induction G as [|g h gs hs' Fg _ IH]; intros m aas n1 E.
      * injection E as <- <-. constructor.
      * cbn [map auxs] in E. fold (auxs uuid) in E.
        apply bind_ok in E as ([a n2] & A & E). apply bind_ok in E as ([r' n3] & B & E). injection E as <- <-.
        constructor; [|eauto]. unfold mk in A. rewrite aux_inner_eq in A. cbn [aux_inner] in A.
        apply bind_ok in A as ([as' n4] & A & A3). injection A3 as <- <-. exists (uuid n4), as'.
        rewrite (group_loc_face _ RF g h Fg). split; [reflexivity|].
        eapply auxs_rel; [|exact Fg|exact A]. intros x y n0 a n5 [_ G]. apply G.
  - constructor.
  - intros c c' es cs cs' ess H1 IH1 H2 IH2 HP. apply Forall_cons_iff in HP as [P1 P2]. constructor; auto.
Qed.

Lemma SList_reads : forall (R : cst -> cst -> list terror -> Prop) (P : cst -> cst -> Prop),
  (forall c c' es, R c c' es -> inner c = inner c' /\ (inner c = true -> P c c')) ->
  forall xs ys es, SList R xs ys es -> Forall2 P (filter inner xs) (filter inner ys).
Proof.
  intros R P HR xs ys es H. induction H as [|c c' es cs cs' ess H1 H2 IH]; [constructor|].
  destruct (HR _ _ _ H1) as [A B]. cbn. rewrite <- A. destruct (inner c); [constructor; auto|auto].
Qed.

Definition okm_reads (uuid : nat -> str) (x y : cst) : Prop :=
  forall n a n', aux uuid y n = Ok (a, n') -> reads x a.

Lemma SLine_reads : forall uuid c c' es, SLine c c' es -> inner c = inner c' /\ (inner c = true -> okm_reads uuid c c').
Proof.
  intros uuid c c' es H. inversion H as [xs ys es0 l HN HF HS|k l HI]; subst; split; try reflexivity; [|discriminate].
  intros _ n a n' E. rewrite aux_inner_eq in E. cbn [aux_inner] in E. apply bind_ok in E as ([r n1] & A & E).
  injection E as <- <-. apply Re_expr.
  eapply auxs_rel; [|eapply (proj2 (SItem_reads uuid) _ _ _ HS)|exact A]; [intros x y m a m' [_ G]; apply G|].
  eapply Forall_impl; [|exact HF]. intros; left; assumption.
Qed.
Lemma SStmt_reads : forall uuid c c' es, SStmt c c' es -> inner c = inner c' /\ (inner c = true -> okm_reads uuid c c').
Proof.
  intros uuid c c' es H. inversion H as [xs ys es0 l HS|k l HI]; subst; split; try reflexivity; [|discriminate].
  intros _ n a n' E. rewrite aux_inner_eq in E. cbn [aux_inner] in E. apply bind_ok in E as ([r n1] & A & E).
  injection E as <- <-. apply Re_stmt.
  eapply auxs_rel; [|eapply (SList_reads _ _ (SLine_reads uuid) _ _ _ HS)|exact A]. intros x y m a m' G; apply G.
Qed.
Theorem transform_reads : forall uuid c a es, g_document c -> transform uuid c = Ok (a, es) -> reads c a.
Proof.
  intros uuid c a es G H. destruct (SDoc_exists c G) as (c' & e & S). unfold transform in H.
  rewrite (SDoc_simplify _ _ _ S) in H. cbn [bind] in H. apply bind_ok in H as ([a' n] & A & H).
  injection H as <- ->. inversion S as [xs ys es0 l HS]; subst.
  rewrite aux_inner_eq in A. cbn [aux_inner] in A. apply bind_ok in A as ([r n1] & A & E). injection E as <- <-.
  apply Re_document.
  eapply auxs_rel; [|eapply (SList_reads _ _ (SStmt_reads uuid) _ _ _ HS)|exact A]. intros x y m a m' P; apply P.
Qed.
