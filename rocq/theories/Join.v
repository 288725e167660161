(** One document after the other: the tree of the whole has the statements of both. *)
From Coq Require Import String List NArith Arith Bool Lia.
From Verif Require Import Base Tokens CST SpecTok SpecCST Parser ParserProofs ParserTotal ParserAccepts ParserProofs2
  ParserLocations SpecTree ParserTree AST TransformError SpecTransform SpecReads SpecStrip
  Transform TransformProofs TransformErrors TransformKinds ReadsProofs Relocate StripProofs.
Import ListNotations.

(** ** What comes after a node matters only up to its first token *)
Lemma unclosed_after : forall cl l u t r r', In TkEOF (map tk (t :: r)) ->
  unclosed_end cl l (u ++ t :: r) -> unclosed_end cl l (u ++ t :: r').
Proof.
  intros cl l u t r r' HE (t0 & r0 & E & A & B & C). destruct u as [|u0 u]; cbn [app] in *; injection E as <- <-.
  - exists t, r'. repeat split; auto.
  - exists u0, (u ++ t :: r'). repeat split; auto. intros _. apply C. cbn [map]. right. rewrite map_app, in_app_iff. auto.
Qed.

Lemma spans_after : forall c u t r r', In TkEOF (map tk (t :: r)) -> spans_ok c (u ++ t :: r) -> spans_ok c (u ++ t :: r').
Proof.
  induction c as [k v l|k cs l IH] using cst_ind'; intros u t r r' HE S; [exact I|].
  destruct S as [S SL]. cbn [spans_ok]. split.
  - destruct k; try exact I; try exact S;
      try (destruct S as (o & cl & a & z & E & A & Z & F & R); exists o, cl, a, z; repeat (split; [assumption|]);
           destruct z as [kz cz lz|kz vz lz]; [eapply unclosed_after; eassumption|];
           match type of R with if ?b then _ else _ => destruct b end; [exact R|eapply unclosed_after; eassumption]).
    intros E t0 r0 E0. destruct u as [|u0 u]; cbn [app] in *; injection E0 as <- <-; eapply (S E); reflexivity.
  - fold (spans_list cs (u ++ t :: r)) in SL. change (spans_list cs (u ++ t :: r')).
    clear S. induction IH as [|x cs Hx _ IHc]; [exact I|]. destruct SL as [S1 S2]. split; [|apply IHc; exact S2].
    rewrite app_assoc in S1 |- *. eapply Hx; eassumption.
Qed.

Lemma spans_list_after : forall cs t r r', In TkEOF (map tk (t :: r)) -> spans_list cs (t :: r) -> spans_list cs (t :: r').
Proof.
  induction cs as [|x cs IH]; intros t r r' HE S; [exact I|]. destruct S as [S1 S2]. split; [|eapply IH; eassumption].
  eapply spans_after; eassumption.
Qed.

(** ** A statement without unclosed brackets does not end in a newline *)
Definition closed_up (c : cst) : Prop := flat_map unclosed (cst_nodes c) = [].

Definition ends_well (ts : list token) : Prop := exists us t, ts = us ++ [t] /\ tk t <> TkNewLine.

Lemma ends_after : forall a b, ends_well b -> ends_well (a ++ b).
Proof. intros a b (us & t & -> & N). exists (a ++ us), t. rewrite app_assoc. auto. Qed.

Lemma closed_child : forall k cs l x, closed_up (CInner k cs l) -> In x cs -> closed_up x.
Proof.
  unfold closed_up. intros k cs l x H HI. cbn [cst_nodes] in H. rewrite flat_map_app in H. apply app_eq_nil in H as [H _].
  apply in_split in HI as (a & b & ->). rewrite flat_map_app in H. cbn [flat_map] in H. rewrite !flat_map_app in H.
  apply app_eq_nil in H as [_ H]. apply app_eq_nil in H as [H _]. exact H.
Qed.

Lemma closed_self : forall k cs l, closed_up (CInner k cs l) -> unclosed (CInner k cs l) = [].
Proof.
  unfold closed_up. intros k cs l H. cbn [cst_nodes] in H. rewrite flat_map_app in H. apply app_eq_nil in H as [_ H].
  cbn [flat_map] in H. rewrite app_nil_r in H. exact H.
Qed.

Lemma item_closes : forall k x, item_or_newline x -> closes k x = false.
Proof.
  intros k x [G|[l ->]]; [|destruct k; reflexivity].
  destruct G as [l|s k' l l' H|k' s l H|k' l H|k' o cl lo body close l H1 H2 H3]; try (destruct k; reflexivity);
    (destruct H as [<-|[<-|[<-|[]]]]; destruct k; reflexivity).
Qed.

Lemma closed_bracket : forall k o c lo body close l, bracket_of k = Some (o, c) ->
  Forall (fun x => g_expr x \/ is_newline x) body -> (close = [] \/ exists lc, close = [CLeaf c None lc]) ->
  unclosed (CInner k (CLeaf o None lo :: body ++ close) l) = [] -> exists lc, close = [CLeaf c None lc].
Proof.
  intros k o c lo body close l B HB HC U. destruct HC as [->|HC]; [exfalso|exact HC].
  assert (HF : flat (CLeaf o None lo :: body ++ []) = CLeaf o None lo :: flat body) by (rewrite app_nil_r; reflexivity).
  cbn [unclosed] in U. rewrite HF in U.
  assert (X : closes k (last (CLeaf o None lo :: flat body) (CLeaf o None lo)) = false).
  { pose proof (flat_items body HB) as FI. destruct (flat body) as [|y ys] eqn:E.
    - destruct k; try discriminate; injection B as <- <-; reflexivity.
    - change (last (CLeaf o None lo :: y :: ys) (CLeaf o None lo)) with (last (y :: ys) (CLeaf o None lo)).
      apply item_closes. rewrite Forall_forall in FI. apply FI, last_In. discriminate. }
  rewrite X in U. destruct k; try discriminate.
Qed.

Lemma item_ends : forall c, (g_item c -> closed_up c -> ends_well (leaf_toks c)).
Proof.
  intros c G U. destruct G as [l|s k l l' H|k s l H|k l H|k o cl lo body close l H1 H2 H3].
  - exists [], (mktok TkBackSlash l). split; [reflexivity|discriminate].
  - cbn. eexists [_], _. split; [reflexivity|]. cbn [tk].
    repeat (destruct H as [H|H]; [injection H as <- <-; cbn; discriminate|]). destruct H.
  - eexists [], _. split; [reflexivity|]. destruct H as [<-|[<-|[<-|[]]]]; discriminate.
  - eexists [], _. split; [reflexivity|]. destruct H as [<-|[<-|[<-|[]]]]; discriminate.
  - destruct (closed_bracket _ _ _ _ _ _ _ H1 H2 H3 (closed_self _ _ _ U)) as [lc ->].
    destruct (bk_of _ _ _ H1) as (b & -> & -> & ->). rewrite b_toks. cbn [flat_map]. apply ends_after. rewrite flat_map_app.
    apply ends_after. eexists [], _. split; [reflexivity|]. destruct b; discriminate.
Qed.

Lemma eoc_ends : forall c, g_expr_or_close c -> closed_up c -> ends_well (leaf_toks c).
Proof.
  intros c [G|(k & l & -> & H)] U.
  - destruct G as [items l NE GI]. cbn [leaf_toks].
    destruct (exists_last NE) as (xs & z & ->). rewrite flat_map_app. apply ends_after. cbn [flat_map]. rewrite app_nil_r.
    apply item_ends; [rewrite Forall_forall in GI; apply GI|eapply closed_child; [exact U|]]; apply in_or_app; right; left; reflexivity.
  - eexists [], _. split; [reflexivity|]. destruct H as [<-|[<-|[<-|[]]]]; discriminate.
Qed.

Lemma tail_ends : forall cs, g_stmt_tail cs -> Forall closed_up cs -> cs = [] \/ ends_well (flat_map leaf_toks cs).
Proof.
  intros cs H. induction H as [|n x cs Hn Hx Ht IH]; intro U; [left; reflexivity|right].
  inversion U as [|? ? _ U1]; subst. inversion U1 as [|? ? U2 U3]; subst. cbn [flat_map]. apply ends_after.
  destruct (IH U3) as [->|E]; [|apply ends_after; exact E]. cbn [flat_map]. rewrite app_nil_r. apply eoc_ends; assumption.
Qed.

Lemma stmt_ends : forall c, g_stmt c -> closed_up c -> ends_well (leaf_toks c).
Proof.
  intros c (x & cs & l & -> & Hx & Ht) U.
  assert (UC : Forall closed_up (x :: cs)) by (rewrite Forall_forall; intros y Hy; eapply closed_child; eassumption).
  inversion UC as [|? ? U1 U2]; subst. cbn [leaf_toks flat_map].
  destruct (tail_ends cs Ht U2) as [->|E]; [|apply ends_after; exact E]. cbn [flat_map]. rewrite app_nil_r. apply eoc_ends; assumption.
Qed.

(** ** Paragraphs *)
Lemma paragraphs_app : forall a b, g_paragraphs a -> g_paragraphs b -> g_paragraphs (a ++ b).
Proof.
  intros a b H HB. induction H as [|s n1 n2 ns cs HS H1 H2 H3 H4 IH]; [exact HB|].
  cbn [app]. rewrite <- app_assoc. constructor; assumption.
Qed.

Lemma paragraphs_newlines : forall ps ns, g_paragraphs ps -> ps <> [] -> Forall is_newline ns -> g_paragraphs (ps ++ ns).
Proof.
  intros ps ns H. induction H as [|s n1 n2 ms cs HS H1 H2 H3 H4 IH]; intros NE HN; [congruence|].
  cbn [app]. rewrite <- app_assoc. destruct cs as [|c cs].
  - cbn [app]. rewrite <- (app_nil_r (ms ++ ns)). constructor; try assumption; try constructor. apply Forall_app; auto.
  - constructor; try assumption. apply IH; [discriminate|exact HN].
Qed.

Lemma paragraphs_last : forall ps, g_paragraphs ps -> ps <> [] -> exists xs n, ps = xs ++ [n] /\ is_newline n.
Proof.
  intros ps H. induction H as [|s n1 n2 ms cs HS H1 H2 H3 H4 IH]; intro NE; [congruence|].
  destruct cs as [|c cs].
  - rewrite app_nil_r. destruct ms as [|m ms] using rev_ind.
    + exists [s; n1], n2. auto.
    + exists (s :: n1 :: n2 :: ms), m. apply Forall_app in H3 as [_ H3]. inversion H3; auto.
  - destruct IH as (xs & n & E & N); [discriminate|]. exists (s :: n1 :: n2 :: ms ++ xs), n. rewrite E.
    cbn [app]. rewrite <- app_assoc. auto.
Qed.

Lemma snoc2 : forall (A : Type) (us vs : list A) a b z, us ++ [a; b] = vs ++ [z] -> us ++ [a] = vs /\ b = z.
Proof.
  intros A us vs a b z H. change [a; b] with ([a] ++ [b]) in H. rewrite app_assoc in H. apply app_inj_tail in H. exact H.
Qed.

Lemma body_paragraphs : forall ps lst ns us n1 n2,
  g_paragraphs ps -> (lst = [] \/ exists s, lst = [s] /\ g_stmt s) -> Forall is_newline ns ->
  Forall closed_up lst -> ps ++ lst <> [] ->
  flat_map leaf_toks (ps ++ lst ++ ns) = us ++ [n1; n2] -> tk n1 = TkNewLine -> tk n2 = TkNewLine ->
  g_paragraphs (ps ++ lst ++ ns).
Proof.
  intros ps lst ns us n1 n2 GP GL GN U NE E N1 N2. destruct GL as [->|(s & -> & GS)].
  - rewrite app_nil_r in NE. cbn [app]. apply paragraphs_newlines; assumption.
  - apply paragraphs_app; [exact GP|]. inversion U as [|? ? U1 _]; subst.
    destruct (stmt_ends s GS U1) as (ss & t & ET & NT).
    rewrite !flat_map_app in E. cbn [flat_map] in E. rewrite app_nil_r, ET in E.
    destruct ns as [|m1 [|m2 ms]].
    + exfalso. cbn [flat_map] in E. rewrite app_nil_r, app_assoc in E. symmetry in E. apply snoc2 in E as [_ <-]. congruence.
    + exfalso. inversion GN as [|? ? [l ->] _]; subst. cbn [flat_map leaf_toks app] in E.
      rewrite !app_assoc in E. symmetry in E. apply snoc2 in E as [E _]. apply app_inj_tail in E as [_ <-]. congruence.
    + inversion GN as [|? ? M1 GN1]; subst. inversion GN1 as [|? ? M2 GN2]; subst.
      cbn [app]. rewrite <- (app_nil_r ms). constructor; try assumption. constructor.
Qed.

(** ** The tree of both *)
Theorem join_tree : forall us n1 n2 e csa la tb cb, tk n1 = TkNewLine -> tk n2 = TkNewLine -> tk e = TkEOF ->
  ~ In TkEOF (map tk us) ->
  tree_of (us ++ [n1; n2; e]) (CInner CDocument (csa ++ [CLeaf LEOF None (tl e)]) la) -> 
  closed_up (CInner CDocument (csa ++ [CLeaf LEOF None (tl e)]) la) -> existsb inner csa = true ->
  tree_of tb cb -> forall csb lb, cb = CInner CDocument csb lb ->
  tree_of (us ++ [n1; n2] ++ tb) (CInner CDocument (csa ++ csb) (fold_left merge_location (map cst_location (csa ++ csb)) mock_location)).
Proof.
  intros us n1 n2 e csa la tb cb N1 N2 NE NU (GA & AA & MA & resta & EA & SA) U HS (GB & AB & MB & restb & EB & SB) csb lb ->.
  destruct GA as (ps & lst & ns & le & l & EC & GP & GL & GN).
  injection EC as EC <-. rewrite !app_assoc in EC. apply app_inj_tail in EC as [-> E2]. injection E2 as E2. rewrite <- (app_assoc ps lst ns) in *.
  destruct SA as [_ SA]. change (spans_list ((ps ++ lst ++ ns) ++ [CLeaf LEOF None (tl e)]) resta) in SA.
  apply spans_split in SA as [SA _]. cbn [flat_map leaf_toks app] in SA.
  cbn [leaf_toks] in EA. rewrite flat_map_app in EA. cbn [flat_map leaf_toks app leaf_kind] in EA.
  assert (ER : flat_map leaf_toks (ps ++ lst ++ ns) = us ++ [n1; n2] /\ resta = []).
  { rewrite <- app_assoc in EA.
    replace (us ++ [n1; n2; e]) with ((us ++ [n1; n2]) ++ [e]) in EA by (rewrite <- app_assoc; reflexivity).
    destruct e as [ke lee]. cbn [tk tl] in *. subst ke. cbn [app] in EA.
    remember (flat_map leaf_toks (ps ++ lst ++ ns)) as xs eqn:EX. clear EX.
    assert (NX : ~ In TkEOF (map tk (us ++ [n1; n2]))).
    { rewrite map_app, in_app_iff. cbn. rewrite N1, N2. intros [X|[X|[X|[]]]]; [exact (NU X)|discriminate X..]. }
    revert EA NX. generalize (us ++ [n1; n2]) as ys. clear. induction xs as [|x xs IH]; intros [|y ys] E N; cbn [app] in E.
    - injection E as E. auto.
    - injection E as -> _. exfalso. apply N. left. reflexivity.
    - exfalso. destruct xs; discriminate.
    - injection E as -> E. apply IH in E as [-> ->]; [auto|]. intro X. apply N. right. exact X. }
  destruct ER as [ER ->].
  assert (GPA : g_paragraphs (ps ++ lst ++ ns)).
  { eapply body_paragraphs; eauto.
    - rewrite Forall_forall. intros x HI. eapply closed_child; [exact U|]. rewrite !in_app_iff. auto.
    - intro X. apply app_eq_nil in X as [-> ->]. cbn [app] in HS. clear - GN HS.
      induction GN as [|x xs [l ->] _ IH]; [discriminate|apply IH; exact HS]. }
  assert (NN : ps ++ lst ++ ns <> []) by (intro X; rewrite X in HS; discriminate).
  remember (ps ++ lst ++ ns) as csa eqn:ECSA. clear ECSA.
  split; [|split; [|split]].
  - destruct GB as (ps' & lst' & ns' & le' & l' & EC & GP' & GL' & GN'). injection EC as -> ->.
    exists (csa ++ ps'), lst', ns', le', (fold_left merge_location (map cst_location (csa ++ ps' ++ lst' ++ ns' ++ [CLeaf LEOF None le'])) mock_location).
    split; [rewrite <- !app_assoc; reflexivity|]. split; [apply paragraphs_app; assumption|auto].
  - apply not_bracket; [reflexivity|]. apply apart_children in AA, AB. apply Forall_app in AA as [AA _]. apply Forall_app. auto.
  - apply merged_inner; [auto|]. apply merged_child in MA, MB. apply Forall_app in MA as [MA _]. apply Forall_app. auto.
  - exists restb. split.
    + cbn [leaf_toks] in EB |- *. rewrite flat_map_app, ER, EB, <- !app_assoc. reflexivity.
    + cbn [leaf_toks] in EB. destruct SB as [_ SB]. change (spans_list csb restb) in SB.
      split; [exact I|]. change (spans_list (csa ++ csb) restb). apply spans_list_app; [|exact SB].
      destruct (paragraphs_last csa GPA NN) as (xs & n & -> & [ln ->]).
      apply spans_split in SA as [SA _]. cbn [flat_map leaf_toks app leaf_kind] in SA.
      apply spans_list_app; [|split; exact I]. cbn [flat_map leaf_toks app leaf_kind].
      eapply spans_list_after; [|exact SA]. right. left. reflexivity.
Qed.
