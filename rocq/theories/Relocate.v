(** Locations have no influence on the shape of trees. *)
From Coq Require Import String List NArith Arith Bool Lia.
From Verif Require Import Base Tokens CST SpecTok SpecCST Parser ParserProofs ParserTotal ParserAccepts ParserProofs2
  ParserLocations SpecTree ParserTree AST TransformError SpecTransform SpecReads SpecStrip
  Transform ReadsProofs.
Import ListNotations.

Definition utok (t : token) : token := mktok (tk t) mock_location.

Lemma unloc_location : forall c, cst_location (unloc c) = mock_location.
Proof. intros []; reflexivity. Qed.

Lemma map_locations : forall cs, map cst_location (map unloc cs) = map (fun _ => mock_location) cs.
Proof. intro cs. rewrite map_map. apply map_ext. apply unloc_location. Qed.

Lemma fold_mock : forall (A : Type) (cs : list A), fold_left merge_location (map (fun _ => mock_location) cs) mock_location = mock_location.
Proof. induction cs as [|x cs IH]; [reflexivity|exact IH]. Qed.

Lemma flat_map_unloc : forall cs, Forall (fun c => leaf_toks (unloc c) = map utok (leaf_toks c)) cs ->
  flat_map leaf_toks (map unloc cs) = map utok (flat_map leaf_toks cs).
Proof.
  intros cs H. induction H as [|x cs Hx _ IH]; [reflexivity|]. cbn. rewrite map_app, Hx, IH. reflexivity.
Qed.

Lemma unloc_toks : forall c, leaf_toks (unloc c) = map utok (leaf_toks c).
Proof.
  induction c as [k v l|k cs l IH] using cst_ind'; [reflexivity|].
  destruct k; cbn [unloc leaf_toks]; try (apply flat_map_unloc; exact IH).
  cbn [map utok tk]. f_equal. destruct cs as [|[k cs' l'|[] [s|] l'] [|y cs]]; reflexivity.
Qed.

Lemma unloc_list_toks : forall cs, flat_map leaf_toks (map unloc cs) = map utok (flat_map leaf_toks cs).
Proof. intro cs. apply flat_map_unloc. rewrite Forall_forall. intros c _. apply unloc_toks. Qed.

Lemma unloc_newline : forall c, is_newline c -> is_newline (unloc c).
Proof. intros c [l ->]. eexists. reflexivity. Qed.

Lemma unloc_newlines : forall cs, Forall is_newline cs -> Forall is_newline (map unloc cs).
Proof. intros cs H. rewrite Forall_map. eapply Forall_impl; [|exact H]. apply unloc_newline. Qed.

Lemma unloc_g : forall c, (g_item c -> g_item (unloc c)) /\ (g_expr c -> g_expr (unloc c)).
Proof.
  induction c as [k v l|k cs l IH] using cst_ind'.
  - split; intro G; [|inversion G]. inversion G; subst; constructor; assumption.
  - rewrite Forall_forall in IH. split; intro G.
    + inversion G as [l0|s k0 l0 l' H1| | |k0 o cl lo body close l0 H1 H2 H3]; subst.
      * constructor.
      * eapply G_escaped1. exact H1.
      * cbn [unloc map]. rewrite map_app. eapply G_bracket; [exact H1| |].
        -- rewrite Forall_forall in *. intros y Y. apply in_map_iff in Y as (x & <- & I).
           destruct (H2 x I) as [G2|N]; [left|right; apply unloc_newline; exact N].
           apply IH; [|exact G2]. right. apply in_or_app. auto.
        -- destruct H3 as [->|[lc ->]]; [left; reflexivity|right; eexists; reflexivity].
    + inversion G as [items l0 NE HF]; subst. cbn [unloc]. constructor.
      * destruct cs; [congruence|discriminate].
      * rewrite Forall_forall in *. intros y Y. apply in_map_iff in Y as (x & <- & I). apply IH; auto.
Qed.

Lemma unloc_eoc : forall c, g_expr_or_close c -> g_expr_or_close (unloc c).
Proof.
  intros c [G|(k & l & -> & H)]; [left; apply unloc_g; exact G|right]. eexists _, _. split; [reflexivity|exact H].
Qed.

Lemma unloc_stmt : forall c, g_stmt c -> g_stmt (unloc c).
Proof.
  intros c (x & cs & l & -> & G & T). exists (unloc x), (map unloc cs), mock_location.
  split; [reflexivity|]. split; [apply unloc_eoc; exact G|].
  induction T as [|n y cs N Y _ IH]; constructor; auto using unloc_newline, unloc_eoc.
Qed.

Lemma unloc_document : forall c, g_document c -> g_document (unloc c).
Proof.
  intros c (ps & lst & ns & le & l & -> & GP & GL & GN).
  exists (map unloc ps), (map unloc lst), (map unloc ns), mock_location, mock_location.
  split; [cbn; rewrite !map_app; reflexivity|]. split; [|split].
  - induction GP as [|s n1 n2 ms cs HS H1 H2 H3 H4 IH]; [constructor|]. cbn [map]. rewrite map_app.
    constructor; auto using unloc_newline, unloc_stmt, unloc_newlines.
  - destruct GL as [->|(s & -> & HS)]; [left; reflexivity|right; eexists; split; [reflexivity|apply unloc_stmt; exact HS]].
  - apply unloc_newlines; exact GN.
Qed.

Lemma node_unloc : forall c n, node_of n (unloc c) -> exists n0, node_of n0 c /\ n = unloc n0.
Proof.
  induction c as [k v l|k cs l IH] using cst_ind'; intros n N.
  - inversion N; subst. exists (CLeaf k v l). split; [apply N_self|reflexivity].
  - inversion N as [|? x ? ? ? I N']; subst; [exists (CInner k cs l); split; [apply N_self|reflexivity]|].
    apply in_map_iff in I as (y & <- & I). rewrite Forall_forall in IH.
    destruct (IH y I n N') as (n0 & N0 & ->). exists n0. split; [eapply N_child; eauto|reflexivity].
Qed.

Lemma unloc_two : forall cs, two_exprs (map unloc cs) = two_exprs cs.
Proof.
  assert (E : forall c, is_expr (unloc c) = is_expr c) by (intros [[]|]; reflexivity).
  induction cs as [|a [|b r] IH]; [reflexivity|reflexivity|].
  cbn [map two_exprs] in *. rewrite IH, !E. reflexivity.
Qed.

Lemma unloc_spans : forall c after, spans_ok c after -> spans_ok (unloc c) (map utok after).
Proof.
  induction c as [k v l|k cs l IH] using cst_ind'; intros after S; [exact I|].
  destruct S as [S SL]. cbn [unloc spans_ok]. split.
  - assert (N0 : forall i x, nth_error cs i = Some x -> nth_error (map unloc cs) i = Some (unloc x)).
    { intros i x E. rewrite nth_error_map, E. reflexivity. }
    assert (U : forall cl, unclosed_end cl l after -> unclosed_end cl mock_location (map utok after)).
    { intros cl (t & r & -> & _ & K & E). exists (utok t), (map utok r). repeat split; auto.
      intro HE. apply E. unfold utok in HE. rewrite map_map in HE. exact HE. }
    assert (BR : bracket_of k <> None -> span_ok k (map unloc cs) mock_location (map utok after)).
    { intro B. destruct k; try (exfalso; apply B; reflexivity);
        (destruct S as (o & cl & a & z & E & A & Z & _ & R); exists o, cl, (unloc a), (unloc z);
         rewrite map_length, unloc_location; do 3 (split; [auto|]); split; [reflexivity|];
         destruct z as [kz cz lz|kz vz lz]; cbn [unloc]; [auto|]; 
         destruct kz, cl; auto). }
    destruct k; try (apply BR; discriminate); try exact I.
    + destruct S as (a & z & A & Z & _). exists (unloc a), (unloc z). rewrite map_length, !unloc_location. auto.
    + intros E t r E2. cbn [span_ok] in S. destruct cs; [|discriminate]. destruct after as [|t0 r0]; [discriminate|].
      injection E2 as <- <-. exact (S eq_refl t0 r0 eq_refl).
  - fold (spans_list cs after) in SL. change (spans_list (map unloc cs) (map utok after)).
    clear S. induction IH as [|x cs Hx _ IHc]; [exact I|]. destruct SL as [S1 S2]. split; [|apply IHc; exact S2].
    rewrite unloc_list_toks, <- map_app. apply Hx. exact S1.
Qed.

Theorem tree_unloc : forall ts c, tree_of ts c -> tree_of (map utok ts) (unloc c).
Proof.
  intros ts c (G & A & M & rest & -> & S). split; [apply unloc_document; exact G|]. split; [|split].
  - intros k cs l N B. apply node_unloc in N as ([k0 cs0 l0|] & N & E); [|discriminate]. injection E as -> -> ->.
    rewrite unloc_two. exact (A _ _ _ N B).
  - intros k cs l N B. apply node_unloc in N as ([k0 cs0 l0|] & N & E); [|discriminate]. injection E as -> -> ->.
    rewrite map_locations, fold_mock. reflexivity.
  - exists (map utok rest). rewrite map_app, unloc_toks. split; [reflexivity|apply unloc_spans; exact S].
Qed.

Theorem same_kinds : forall ts1 ts2 c1 c2, map tk ts1 = map tk ts2 ->
  parse ts1 = Ok c1 -> parse ts2 = Ok c2 -> unloc c1 = unloc c2.
Proof.
  intros ts1 ts2 c1 c2 E H1 H2. apply parse_tree, tree_unloc, tree_parse in H1, H2.
  assert (X : map utok ts1 = map utok ts2).
  { unfold utok. rewrite <- (map_map tk (fun k => mktok k mock_location)), E, map_map. reflexivity. }
  congruence.
Qed.

(** ** Readings *)
Lemma unloc_flat : forall cs, flat (map unloc cs) = map unloc (flat cs).
Proof.
  induction cs as [|c cs IH]; [reflexivity|]. unfold flat in *. cbn [map flat_map]. rewrite map_app, IH.
  destruct c as [[]|]; reflexivity.
Qed.

Lemma filter_unloc : forall p, (forall c, p (unloc c) = p c) -> forall cs, filter p (map unloc cs) = map unloc (filter p cs).
Proof.
  intros p H cs. induction cs as [|c cs IH]; [reflexivity|]. cbn. rewrite H, IH. destruct (p c); reflexivity.
Qed.

Lemma unloc_inside : forall cs, inside (map unloc cs) = map unloc (inside cs).
Proof. intro cs. unfold inside. rewrite unloc_flat. apply filter_unloc. intros [[]|[]]; reflexivity. Qed.

Lemma unloc_dot : forall c, good_dot (unloc c) = good_dot c.
Proof. intros [[]|[]]; reflexivity. Qed.
Lemma unloc_comma : forall c, is_comma (unloc c) = is_comma c.
Proof. intros [[]|[]]; reflexivity. Qed.

Lemma unloc_between : forall cs g, between_commas (map unloc g) (map unloc cs) = map (map unloc) (between_commas g cs).
Proof.
  induction cs as [|c cs IH]; intro g; [reflexivity|]. cbn [map between_commas]. rewrite unloc_comma.
  destruct (is_comma c); [cbn [map]; rewrite <- IH; reflexivity|].
  rewrite <- IH, map_app. reflexivity.
Qed.

Lemma unloc_given : forall cs, given (map unloc cs) = map (map unloc) (given cs).
Proof.
  intro cs. unfold given. rewrite filter_unloc by (intro c; rewrite unloc_dot; reflexivity).
  change (@nil cst) with (map unloc []) at 1. rewrite unloc_between.
  induction (between_commas [] _) as [|g gs IH]; [reflexivity|]. cbn [map filter]. rewrite IH.
  destruct g; reflexivity.
Qed.

Lemma unloc_group : forall g, group_loc (map unloc g) = mock_location.
Proof.
  intro g. unfold group_loc. rewrite map_map. etransitivity; [|apply (fold_mock _ g)]. apply (f_equal (fun x => fold_left merge_location x mock_location)). apply map_ext.
  intros [k cs l|k v l]; [|reflexivity]. destruct k; try reflexivity. destruct cs; [reflexivity|]. cbn. apply unloc_location.
Qed.

Lemma F2_unloc : forall xs ys, Forall2 (fun x a => reads x a /\ reads (unloc x) (bare a)) xs ys ->
  Forall2 reads (map unloc xs) (map bare ys).
Proof. intros xs ys H. induction H as [|x y xs ys [_ R] _ IH]; constructor; auto. Qed.

Theorem reads_unloc : forall c a, reads c a -> reads (unloc c) (bare a).
Proof.
  apply (reads_ind' (fun c a => reads (unloc c) (bare a))).
  - intros k k' s i l H. apply Re_name. exact H.
  - intros s i l l'. apply Re_escape.
  - intros i l. apply Re_nothing.
  - intros k o c k' cs l i hs aas H H1 H2. cbn [unloc bare]. rewrite map_app. eapply Re_command; [exact H| |].
    + rewrite unloc_inside, firstn_map, filter_unloc; [apply F2_unloc; exact H1|].
      intro x. unfold stands. rewrite unloc_dot, unloc_comma. reflexivity.
    + rewrite unloc_inside, skipn_map, unloc_given. clear H1.
      induction H2 as [|g a gs as' (i' & xs & -> & F) _ IH]; [constructor|]. constructor; [|exact IH].
      exists [], (map bare xs). rewrite unloc_group. split; [reflexivity|apply F2_unloc; exact F].
  - intros xs ys i l H. apply Re_expr. apply F2_unloc. exact H.
  - intros xs ys i l H. apply Re_stmt. rewrite filter_unloc by (intros []; reflexivity). apply F2_unloc. exact H.
  - intros xs ys i l H. apply Re_document. rewrite filter_unloc by (intros []; reflexivity). apply F2_unloc. exact H.
Qed.
