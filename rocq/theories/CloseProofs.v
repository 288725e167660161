(** A missing closing bracket makes no difference to the AST. *)
From Coq Require Import String List NArith Arith Bool Lia.
From Verif Require Import Base Tokens CST SpecTok SpecCST Parser ParserProofs ParserTotal ParserAccepts ParserProofs2
  ParserLocations SpecTree ParserTree AST TransformError SpecTransform SpecReads SpecStrip SpecClose Transform
  TransformIds TransformReads ReadsProofs ReadsProofs2 Relocate StripProofs.
Import ListNotations.

(** ** The tree with all brackets closed *)
Definition ends_closed (k : ckind) (cs : list cst) : bool :=
  match cs with [] => false | o :: _ => closes k (last cs o) end.
Definition missing (k : ckind) (cs : list cst) (l : loc) : list cst :=
  match bracket_of k with
  | Some (_, z) => if ends_closed k cs then [] else [CLeaf z None (mkloc (lend l) (lend l))]
  | None => []
  end.
Fixpoint closeup (c : cst) : cst :=
  match c with
  | CLeaf _ _ _ => c
  | CInner k cs l => CInner k (map closeup cs ++ missing k cs l) l
  end.

(** Does the part end in a lone backslash? *)
Fixpoint tail_lone (lone : bool) (c : cst) : bool :=
  match c with
  | CInner CBackSlash [] _ => true
  | CInner _ cs _ => fold_left tail_lone cs lone
  | CLeaf _ _ _ => false
  end.

Lemma closeup_loc : forall c, cst_location (closeup c) = cst_location c.
Proof. intros []; reflexivity. Qed.

Definition walk_at (Q : list tkind -> Prop) (c : cst) : Prop := forall after lone, spans_ok c after -> has_eof after ->
  dangling lone (leaf_toks c ++ after) = dangling (tail_lone lone c) after /\
  (dangling (tail_lone lone c) after = false -> forall open, Q open ->
    close_missing open (leaf_toks c ++ after) = leaf_toks (closeup c) ++ close_missing open after /\
    spans_ok (closeup c) (close_missing open after)).

Lemma walk_at_list : forall Q xs, Forall (walk_at Q) xs -> forall after lone, spans_list xs after -> has_eof after ->
  dangling lone (flat_map leaf_toks xs ++ after) = dangling (fold_left tail_lone xs lone) after /\
  (dangling (fold_left tail_lone xs lone) after = false -> forall open, Q open ->
    close_missing open (flat_map leaf_toks xs ++ after) = flat_map leaf_toks (map closeup xs) ++ close_missing open after /\
    spans_list (map closeup xs) (close_missing open after)).
Proof.
  intros Q xs H after. induction H as [|x xs Hx _ IH]; intros lone S HE.
  - split; [reflexivity|]. intros _ open _. split; [reflexivity|exact I].
  - destruct S as [S1 S2]. cbn [flat_map map fold_left]. rewrite <- app_assoc.
    destruct (Hx _ lone S1 (has_eof_app _ _ HE)) as [D1 E1]. destruct (IH (tail_lone lone x) S2 HE) as [D2 E2].
    split; [rewrite D1; exact D2|]. intros D open QO. destruct (E2 D open QO) as [E3 E4].
    rewrite <- D2 in D. destruct (E1 D open QO) as [E5 E6]. rewrite E5, E3, <- app_assoc. rewrite E3 in E6.
    split; [reflexivity|]. split; [exact E6|exact E4].
Qed.

Definition walk : cst -> Prop := walk_at (fun _ => True).
Definition whole : cst -> Prop := walk_at (fun open => open = []).

Lemma walk_whole : forall c, walk c -> whole c.
Proof.
  intros c W after lone S HE. destruct (W after lone S HE) as [D E]. split; [exact D|]. intros D' open _. exact (E D' open I).
Qed.

(** Tokens that keep their place. *)
Lemma leaf_walk : forall k v l,
  In (leaf_kind k v) [TkWhiteSpace; TkNewLine; TkDot; TkComma] \/
    (exists s, In (leaf_kind k v) [TkModule s; TkIdent s; TkText s]) -> walk (CLeaf k v l).
Proof.
  intros k v l H after lone _ _.
  assert (K : dangling lone (leaf_toks (CLeaf k v l) ++ after) = dangling false after /\
    forall open, close_missing open (leaf_toks (CLeaf k v l) ++ after) = leaf_toks (CLeaf k v l) ++ close_missing open after).
  { destruct H as [H|[s H]]; cbn in H; cbn [leaf_toks app];
    repeat (destruct H as [H|H]; [rewrite <- H; split; reflexivity|]); destruct H. }
  destruct K as [K1 K2]. cbn [tail_lone closeup]. split; [exact K1|]. intros _ open _. split; [apply K2|exact I].
Qed.

Lemma missing_none : forall k cs l, bracket_of k = None -> missing k cs l = [].
Proof. intros k cs l H. unfold missing. rewrite H. reflexivity. Qed.

Lemma closes_not : forall b c, body_elem c -> closes (nkind b) c = false.
Proof. intros b c [[]|[l ->]]; destruct b; reflexivity. Qed.

Lemma missing_open : forall b lo body l, Forall body_elem body ->
  missing (nkind b) (CLeaf (oleaf b) None lo :: body) l = [CLeaf (zleaf b) None (mkloc (lend l) (lend l))].
Proof.
  intros b lo body l F. unfold missing. replace (bracket_of (nkind b)) with (Some (oleaf b, zleaf b)) by (destruct b; reflexivity).
  replace (ends_closed _ _) with false; [reflexivity|]. symmetry. cbn [ends_closed].
  destruct body as [|x body]; [destruct b; reflexivity|]. 
  apply closes_not. rewrite Forall_forall in F. apply F.
  change (last (CLeaf (oleaf b) None lo :: x :: body) (CLeaf (oleaf b) None lo)) with (last (x :: body) (CLeaf (oleaf b) None lo)).
  generalize (CLeaf (oleaf b) None lo). clear. intro d. revert x. induction body as [|y body IH]; intro x; [left; reflexivity|].
  right. apply IH.
Qed.

Lemma missing_closed : forall b lo body lc l,
  missing (nkind b) (CLeaf (oleaf b) None lo :: body ++ [CLeaf (zleaf b) None lc]) l = [].
Proof.
  intros b lo body lc l. unfold missing. replace (bracket_of (nkind b)) with (Some (oleaf b, zleaf b)) by (destruct b; reflexivity).
  replace (ends_closed _ _) with true; [reflexivity|]. symmetry. cbn [ends_closed].
  rewrite app_comm_cons, last_last. destruct b; reflexivity.
Qed.

Lemma put_step : forall b open t r, bstop (t :: r) -> tk t <> zkind b ->
  close_missing (okind b :: open) (t :: r) = mktok (zkind b) (mkloc (lend (tl t)) (lend (tl t))) :: close_missing open (t :: r).
Proof.
  intros b open [k lt] r H N. cbn in H, N.
  destruct H as [<-|[<-|[<-|[<-|[<-|[]]]]]], b; cbn in *; try congruence; reflexivity.
Qed.

Lemma dangling_bstop_close : forall b lone lc after, dangling lone (mktok (zkind b) lc :: after) = dangling false after.
Proof. intros []; reflexivity. Qed.

Lemma bstop_dangling : forall l ts, bstop ts -> dangling l ts = false -> dangling false ts = false.
Proof.
  intros l [|[k lt] ts] H D; [destruct H|]. cbn in H. destruct H as [<-|[<-|[<-|[<-|[<-|[]]]]]]; exact D || reflexivity.
Qed.

Definition fine (c : cst) : Prop := walk c /\ apart (closeup c).

Lemma newline_fine : forall c, is_newline c -> fine c.
Proof. intros c [l ->]. split; [apply leaf_walk; left; cbn; tauto|apply apart_leaf]. Qed.

Lemma close_two : forall cs, two_exprs (map closeup cs) = two_exprs cs.
Proof.
  assert (E : forall c, is_expr (closeup c) = is_expr c) by (intros [[]|]; reflexivity).
  induction cs as [|a [|b r] IH]; [reflexivity|reflexivity|].
  cbn [map two_exprs] in *. rewrite IH, !E. reflexivity.
Qed.

Lemma item_fine : forall c, apart c -> (g_item c -> fine c /\ g_item (closeup c)) /\ (g_expr c -> fine c /\ g_expr (closeup c)).
Proof.
  induction c as [k v l|k cs l IH] using cst_ind'; intro AP.
  - split; intro G; [|inversion G]. split; [|exact G]. split; [|apply apart_leaf].
    apply leaf_walk. inversion G as [| |k' s l' H1|k' l' H1|]; subst.
    + right. destruct H1 as [<-|[<-|[<-|[]]]]; cbn; eexists; [left|right; left|right; right; left]; reflexivity.
    + left. destruct H1 as [<-|[<-|[<-|[]]]]; cbn; tauto.
  - pose proof (apart_children _ _ _ AP) as AC. rewrite Forall_forall in IH, AC. split; intro G.
    + inversion G as [l0|s k0 l0 l' H1| | |k0 o cl lo body close l0 H1 H2 H3]; subst.
      * split; [|exact G]. split; [|apply not_bracket; [reflexivity|constructor]].
        intros after lone S HE. destruct after as [|t ts]; [destruct HE|]. destruct S as [S _].
        pose proof (S eq_refl t ts eq_refl) as NE. pose proof (can_escape_iff (tk t)) as CE. rewrite (not_escapable _ NE) in CE.
        change (leaf_toks (CInner CBackSlash [] l) ++ t :: ts) with (mktok TkBackSlash l :: t :: ts).
        split.
        -- transitivity (if can_escape (tk t) then dangling false ts else dangling true (t :: ts)); [reflexivity|].
           rewrite CE. reflexivity.
        -- intros D open _.
           assert (X : exists r, close_missing open (t :: ts) = t :: r).
           { destruct t as [k lt]. cbn [tk] in *. cbn [tail_lone] in D.
             destruct k; try discriminate CE; try discriminate D; eexists; reflexivity. }
           destruct X as [r R]. split.
           ++ transitivity (if can_escape (tk t) then mktok TkBackSlash l :: t :: close_missing open ts
                else mktok TkBackSlash l :: close_missing open (t :: ts)); [reflexivity|]. rewrite CE. reflexivity.
           ++ split; [|exact I]. rewrite R. intros _ t' r' E. injection E as <- <-. exact NE.
      * split; [|exact G]. split; [|apply not_bracket; [reflexivity|constructor; [apply apart_leaf|constructor]]].
        intros after lone S HE. pose proof (can_escape_iff (unescape s)) as CE. rewrite (escapable_of s k0 H1) in CE.
        change (leaf_toks (CInner CBackSlash [CLeaf LText (Some s) l'] l) ++ after)
          with (mktok TkBackSlash l :: mktok (unescape s) l' :: after).
        split.
        -- transitivity (if can_escape (unescape s) then dangling false after else dangling true (mktok (unescape s) l' :: after)); [reflexivity|].
           rewrite CE. reflexivity.
        -- intros D open _. split.
           ++ transitivity (if can_escape (unescape s) then mktok TkBackSlash l :: mktok (unescape s) l' :: close_missing open after
                else mktok TkBackSlash l :: close_missing open (mktok (unescape s) l' :: after)); [reflexivity|]. rewrite CE. reflexivity.
           ++ split; [discriminate|split; exact I].
      * destruct (bk_of _ _ _ H1) as (b & -> & -> & ->).
        assert (FI : Forall (fun x => fine x /\ body_elem (closeup x)) body).
        { rewrite Forall_forall in *. intros x I.
          assert (K : In x (CLeaf (oleaf b) None lo :: body ++ close)) by (right; apply in_or_app; auto).
          destruct (H2 x I) as [Gx|N].
          - destruct (proj2 (IH x K (AC x K)) Gx) as [F G']. split; [exact F|left; exact G'].
          - split; [apply newline_fine; exact N|]. destruct N as [lx ->]. right. eexists; reflexivity. }
        assert (FW : Forall walk body) by (eapply Forall_impl; [|exact FI]; intros x Q; apply Q).
        assert (FB : Forall body_elem (map closeup body)) by (rewrite Forall_map; eapply Forall_impl; [|exact FI]; intros x Q; apply Q).
        assert (FA : Forall apart (map closeup body)) by (rewrite Forall_map; eapply Forall_impl; [|exact FI]; intros x Q; apply Q).
        pose (lc := match close with [CLeaf _ _ lc] => lc | _ => mkloc (lend l) (lend l) end).
        assert (SQ : closeup (CInner (nkind b) (CLeaf (oleaf b) None lo :: body ++ close) l) =
          CInner (nkind b) (CLeaf (oleaf b) None lo :: map closeup body ++ [CLeaf (zleaf b) None lc]) l).
        { cbn [closeup map]. f_equal. rewrite map_app. unfold lc. destruct H3 as [->|[lc' ->]].
          - rewrite !app_nil_r, missing_open by exact H2. reflexivity.
          - rewrite missing_closed. cbn [map closeup]. rewrite app_nil_r. reflexivity. }
        split; [split|].
        2:{ rewrite SQ. apply apart_inner.
            - constructor; [apply apart_leaf|]. apply Forall_app. split; [exact FA|]. constructor; [apply apart_leaf|constructor].
            - intro NB. rewrite app_comm_cons. apply two_snoc; [|reflexivity].
              change (CLeaf (oleaf b) None lo :: map closeup body) with (map closeup (CLeaf (oleaf b) None lo :: body)).
              rewrite close_two. pose proof (AP _ _ _ (N_self _) NB) as T.
              destruct H3 as [->|[lc' ->]]; [rewrite app_nil_r in T; exact T|].
              clear - T. cbn [two_exprs app] in *. revert T. generalize (CLeaf (oleaf b) None lo). revert body.
              induction body as [|x body IH]; intros d T; [reflexivity|]. cbn [app two_exprs] in *.
              apply orb_false_iff in T as [T1 T2]. rewrite T1. cbn [orb]. apply (IH x). exact T2. }
        2:{ rewrite SQ. eapply G_bracket; [exact H1|exact FB|]. right. eexists; reflexivity. }
        intros after lone [SP SL] HE.
        change (spans_list (CLeaf (oleaf b) None lo :: body ++ close) after) in SL. destruct SL as [_ SL].
        change (spans_list (body ++ close) after) in SL. apply spans_split in SL as [SB _].
        assert (LN : tail_lone lone (CInner (nkind b) (CLeaf (oleaf b) None lo :: body ++ close) l) = fold_left tail_lone (body ++ close) false)
          by (destruct b; reflexivity).
        rewrite LN, SQ, !b_toks. cbn [flat_map leaf_toks app]. rewrite !flat_map_app, <- !app_assoc, o_kind. cbn [flat_map leaf_toks app].
        rewrite z_kind, fold_left_app.
        assert (OP : forall ts, dangling lone (mktok (okind b) lo :: ts) = dangling false ts) by (destruct b; reflexivity).
        assert (OC : forall open ts, close_missing open (mktok (okind b) lo :: ts) = mktok (okind b) lo :: close_missing (okind b :: open) ts)
          by (destruct b; reflexivity).
        rewrite OP.
        assert (SI : forall after', l = mkloc (lstart lo) (lend lc) -> spans_list (map closeup body) (mktok (zkind b) lc :: after') ->
          spans_ok (CInner (nkind b) (CLeaf (oleaf b) None lo :: map closeup body ++ [CLeaf (zleaf b) None lc]) l) after').
        { intros after' EL SX. split; [rewrite EL at 1; apply (span_intro_closed b (map closeup body))|].
          change (spans_list (CLeaf (oleaf b) None lo :: map closeup body ++ [CLeaf (zleaf b) None lc]) after').
          split; [exact I|]. apply spans_list_app; [|split; exact I]. cbn [flat_map leaf_toks app]. rewrite z_kind. exact SX. }
        destruct H3 as [->|[lc' ->]].
        -- cbn [flat_map app] in *. rewrite app_nil_r in *.
           destruct (span_open _ _ _ _ _ H2 SP) as [SS (t & r & -> & SE & SK & SN)]. specialize (SN HE).
           rewrite z_kind in SK.
           destruct (walk_at_list _ body FW (t :: r) false SB HE) as [D1 D2].
           cbn [fold_left]. split; [exact D1|]. intros D open _. destruct (D2 D (okind b :: open) I) as [E1 E2].
           rewrite (put_step b open t r SN SK) in E1, E2. rewrite <- SE in E1, E2.
           rewrite OC, E1, <- ?app_assoc. split; [reflexivity|]. apply SI; [|exact E2].
           destruct l as [sl el]. cbn in SS |- *. rewrite SS. reflexivity.
        -- cbn [flat_map leaf_toks app] in *. rewrite z_kind in *.
           assert (HE' : has_eof (mktok (zkind b) lc' :: after)) by (right; exact HE).
           destruct (walk_at_list _ body FW _ false SB HE') as [D1 D2]. rewrite dangling_bstop_close in D1, D2.
           split; [exact D1|]. intros D open _. destruct (D2 D (okind b :: open) I) as [E1 E2].
           assert (CL : close_missing (okind b :: open) (mktok (zkind b) lc' :: after) = mktok (zkind b) lc' :: close_missing open after)
             by (destruct b; reflexivity).
           rewrite CL in E1, E2. rewrite OC, E1, <- ?app_assoc. split; [reflexivity|]. apply SI; [|exact E2].
           change (CLeaf (oleaf b) None lo :: body ++ [CLeaf (zleaf b) None lc'])
             with ((CLeaf (oleaf b) None lo :: body) ++ [CLeaf (zleaf b) None lc']) in SP.
           destruct (span_closed _ _ _ _ _ SP) as (a & EA & ->). injection EA as <-. reflexivity.
    + inversion G as [items l0 NE HF]; subst.
      assert (FI : Forall (fun x => fine x /\ g_item (closeup x)) cs).
      { rewrite Forall_forall in *. intros x I. apply IH; auto. }
      assert (SQ : closeup (CInner CExpr cs l) = CInner CExpr (map closeup cs) l)
        by (cbn [closeup]; rewrite missing_none, app_nil_r by reflexivity; reflexivity).
      split; [split|].
      * intros after lone [S SL] HE. change (spans_list cs after) in SL.
        assert (FW : Forall walk cs) by (eapply Forall_impl; [|exact FI]; intros x Q; apply Q).
        destruct (walk_at_list _ cs FW after lone SL HE) as [D1 D2]. split; [exact D1|]. intros D open _.
        destruct (D2 D open I) as [E1 E2]. rewrite SQ. split; [exact E1|]. split; [|exact E2].
        destruct S as (a & z & A & Z & ->). exists (closeup a), (closeup z).
        rewrite map_length, !nth_error_map, A, Z, !closeup_loc. auto.
      * rewrite SQ. apply not_bracket; [reflexivity|]. rewrite Forall_map. eapply Forall_impl; [|exact FI]. intros x Q; apply Q.
      * rewrite SQ. constructor; [destruct cs; [congruence|discriminate]|]. rewrite Forall_map.
        eapply Forall_impl; [|exact FI]. intros x Q; apply Q.
Qed.

(** ** Documents *)
Definition good (c : cst) : Prop := whole c /\ apart (closeup c).

Lemma fine_good : forall c, fine c -> good c.
Proof. intros c [W A]. split; [apply walk_whole; exact W|exact A]. Qed.

Lemma eoc_good : forall c, apart c -> g_expr_or_close c -> good c /\ g_expr_or_close (closeup c).
Proof.
  intros c A [G|(k & l & -> & H)].
  - destruct (proj2 (item_fine c A) G) as [F G']. split; [apply fine_good; exact F|left; exact G'].
  - split; [split; [|apply apart_leaf]|right; eexists _, _; split; [reflexivity|exact H]].
    intros after lone _ _. cbn [closeup]. split; [destruct H as [<-|[<-|[<-|[]]]]; reflexivity|].
    intros D open ->. split; [|exact I]. destruct H as [<-|[<-|[<-|[]]]]; reflexivity.
Qed.

Lemma tail_good : forall cs, g_stmt_tail cs -> Forall apart cs -> Forall good cs /\ g_stmt_tail (map closeup cs).
Proof.
  intros cs T. induction T as [|n x cs N X _ IH]; intro A; [split; constructor|].
  inversion A as [|? ? A1 A2]; subst. inversion A2 as [|? ? A3 A4]; subst.
  destruct (eoc_good x A3 X) as [F1 G1]. destruct (IH A4) as [F2 G2]. split.
  - constructor; [apply fine_good, newline_fine; exact N|]. constructor; assumption.
  - cbn [map]. constructor; [|exact G1|exact G2]. destruct N as [l ->]. eexists; reflexivity.
Qed.

Lemma good_list : forall cs, Forall good cs -> Forall whole cs /\ Forall apart (map closeup cs).
Proof.
  intros cs H. rewrite Forall_map. split; (eapply Forall_impl; [|exact H]; intros x Q; apply Q).
Qed.

Lemma stmt_good : forall c, apart c -> g_stmt c -> good c /\ g_stmt (closeup c).
Proof.
  intros c A (x & cs & l & -> & G & T). pose proof (apart_children _ _ _ A) as AC. inversion AC as [|? ? A1 A2]; subst.
  destruct (eoc_good x A1 G) as [F1 G1]. destruct (tail_good cs T A2) as [F2 G2].
  destruct (good_list (x :: cs) (Forall_cons _ F1 F2)) as [FW FA].
  assert (SQ : closeup (CInner CStmt (x :: cs) l) = CInner CStmt (closeup x :: map closeup cs) l)
    by (cbn [closeup]; rewrite missing_none, app_nil_r by reflexivity; reflexivity).
  split; [split|].
  - intros after lone [_ SL] HE. change (spans_list (x :: cs) after) in SL.
    destruct (walk_at_list _ (x :: cs) FW after lone SL HE) as [D1 D2]. split; [exact D1|]. intros D open QO.
    destruct (D2 D open QO) as [E1 E2]. rewrite SQ. split; [exact E1|]. split; [exact I|exact E2].
  - rewrite SQ. apply not_bracket; [reflexivity|exact FA].
  - rewrite SQ. exists (closeup x), (map closeup cs), l. auto.
Qed.

Lemma newlines_good : forall cs, Forall is_newline cs -> Forall good cs /\ map closeup cs = cs.
Proof.
  intros cs H. split; [eapply Forall_impl; [|exact H]; intros x N; apply fine_good, newline_fine; exact N|].
  induction H as [|x cs [l ->] _ IH]; [reflexivity|]. cbn. rewrite IH. reflexivity.
Qed.

Lemma paragraphs_good : forall cs, g_paragraphs cs -> Forall apart cs -> Forall good cs /\ g_paragraphs (map closeup cs).
Proof.
  intros cs H. induction H as [|s n1 n2 ns cs HS H1 H2 H3 H4 IH]; intro A; [split; constructor|].
  inversion A as [|? ? A1 A2]; subst. inversion A2 as [|? ? A3 A4]; subst. inversion A4 as [|? ? A5 A6]; subst.
  apply Forall_app in A6 as [A6 A7]. destruct (stmt_good s A1 HS) as [F1 G1].
  destruct (newlines_good ns H3) as [F3 E3]. destruct (IH A7) as [F4 G4]. split.
  - constructor; [exact F1|]. do 2 (constructor; [apply fine_good, newline_fine; assumption|]). apply Forall_app. auto.
  - cbn [map]. rewrite map_app, E3. destruct H1 as [l1 ->], H2 as [l2 ->].
    constructor; try assumption; eexists; reflexivity.
Qed.

Lemma closeup_locs : forall cs, map cst_location (map closeup cs) = map cst_location cs.
Proof. intro cs. rewrite map_map. apply map_ext. apply closeup_loc. Qed.

Lemma closeup_merged : forall c, merged c -> merged (closeup c).
Proof.
  induction c as [k v l|k cs l IH] using cst_ind'; intro M; [exact M|]. cbn [closeup]. apply merged_inner.
  - intro K. assert (B : bracket_of k = None) by (destruct K as [-> | ->]; reflexivity).
    rewrite missing_none, app_nil_r, closeup_locs by exact B. apply (M k); [apply N_self|exact K].
  - apply merged_child in M. apply Forall_app. split.
    + rewrite Forall_map. rewrite Forall_forall in *. auto.
    + unfold missing. destruct (bracket_of k) as [[o z]|]; [|constructor]. destruct (ends_closed k cs); constructor; [|constructor].
      apply small_merged, small_leaf.
Qed.

Theorem tree_close : forall ts c, dangling false ts = false -> tree_of ts c -> tree_of (close_missing [] ts) (closeup c).
Proof.
  intros ts c DG (G & A & M & rest & -> & S). pose proof (closeup_merged c M) as MC. pose proof (apart_children) as AC0.
  destruct G as (ps & lst & ns & le & l & -> & GP & GL & GN). pose proof (apart_children _ _ _ A) as AC.
  apply Forall_app in AC as [AC1 AC]. apply Forall_app in AC as [AC2 AC].
  destruct (paragraphs_good ps GP AC1) as [W1 P1]. destruct (newlines_good ns GN) as [W3 N3].
  assert (L : Forall good lst /\ (map closeup lst = [] \/ exists s, map closeup lst = [s] /\ g_stmt s)).
  { destruct GL as [->|(s & -> & HS)]; [split; [constructor|left; reflexivity]|].
    inversion AC2; subst. destruct (stmt_good s) as [Ws Gs]; [assumption|exact HS|].
    split; [auto|right; eexists; split; [reflexivity|exact Gs]]. }
  destruct L as [W2 L2].
  assert (SQ : closeup (CInner CDocument (ps ++ lst ++ ns ++ [CLeaf LEOF None le]) l) =
    CInner CDocument (map closeup ps ++ map closeup lst ++ ns ++ [CLeaf LEOF None le]) l).
  { cbn [closeup]. rewrite missing_none, app_nil_r by reflexivity. rewrite !map_app, N3. reflexivity. }
  assert (FG : Forall good (ps ++ lst ++ ns)) by (repeat (apply Forall_app; split; [assumption|]); assumption).
  destruct (good_list _ FG) as [FW FA].
  split; [|split; [|split]].
  - rewrite SQ. eexists _, _, _, _, _. split; [reflexivity|]. auto.
  - rewrite SQ. apply not_bracket; [reflexivity|]. rewrite !map_app, N3 in FA.
    apply Forall_app in FA as [F1 FA]. apply Forall_app in FA as [F2 F3].
    repeat (apply Forall_app; split; [assumption|]). constructor; [apply apart_leaf|constructor].
  - exact MC.
  - exists rest. destruct S as [_ SL].
    change (spans_list (ps ++ lst ++ ns ++ [CLeaf LEOF None le]) rest) in SL.
    replace (ps ++ lst ++ ns ++ [CLeaf LEOF None le]) with ((ps ++ lst ++ ns) ++ [CLeaf LEOF None le]) in SL
      by (rewrite <- !app_assoc; reflexivity).
    apply spans_split in SL as [SL _].
    destruct (walk_at_list _ _ FW _ false SL) as [D1 D2]; [left; reflexivity|].
    rewrite SQ. cbn [leaf_toks] in *. rewrite !flat_map_app in *. cbn [flat_map leaf_toks app leaf_kind] in *.
    rewrite <- !app_assoc in *. cbn [app] in *.
    rewrite D1 in DG. destruct (D2 DG [] eq_refl) as [E1 E2]. rewrite E1.
    rewrite !map_app, !flat_map_app, <- !app_assoc, N3. split; [reflexivity|].
    split; [exact I|]. change (spans_list (map closeup ps ++ map closeup lst ++ ns ++ [CLeaf LEOF None le]) rest).
    replace (map closeup ps ++ map closeup lst ++ ns ++ [CLeaf LEOF None le])
      with ((map closeup ps ++ map closeup lst ++ ns) ++ [CLeaf LEOF None le])
      by (rewrite <- !app_assoc; reflexivity).
    apply spans_list_app; [|split; exact I]. rewrite !map_app, N3 in E2. exact E2.
Qed.

(** ** Readings *)
Lemma closeup_inside : forall k cs l, inside (map closeup cs ++ missing k cs l) = map closeup (inside cs).
Proof.
  intros k cs l. unfold inside.
  assert (E : flat (map closeup cs ++ missing k cs l) = map closeup (flat cs) ++ missing k cs l).
  { unfold flat. rewrite flat_map_app. f_equal.
    - induction cs as [|c cs IH]; [reflexivity|]. cbn [map flat_map]. rewrite map_app, IH.
      destruct c as [[] xs lx|]; try reflexivity. cbn [closeup]. rewrite missing_none, app_nil_r by reflexivity. reflexivity.
    - unfold missing. destruct k; cbn [bracket_of]; try reflexivity; destruct (ends_closed _ cs); reflexivity. }
  rewrite E, filter_app.
  assert (Z : filter (fun c => visible c && negb (bracket_leaf c)) (missing k cs l) = []).
  { unfold missing. destruct k; cbn [bracket_of]; try reflexivity; destruct (ends_closed _ cs); reflexivity. }
  rewrite Z, app_nil_r. clear E Z. induction (flat cs) as [|c xs IH]; [reflexivity|]. cbn [map filter].
  replace (visible (closeup c) && negb (bracket_leaf (closeup c))) with (visible c && negb (bracket_leaf c))
    by (destruct c as [[]|[]]; reflexivity).
  rewrite IH. destruct (visible c && negb (bracket_leaf c)); reflexivity.
Qed.

Lemma filter_closeup : forall p, (forall c, p (closeup c) = p c) -> forall cs, filter p (map closeup cs) = map closeup (filter p cs).
Proof.
  intros p H cs. induction cs as [|c cs IH]; [reflexivity|]. cbn [map filter]. rewrite H, IH. destruct (p c); reflexivity.
Qed.

Lemma closeup_dot : forall c, good_dot (closeup c) = good_dot c.
Proof. intros [[]|[]]; reflexivity. Qed.
Lemma closeup_comma : forall c, is_comma (closeup c) = is_comma c.
Proof. intros [[]|[]]; reflexivity. Qed.
Lemma stands_closeup : forall x, stands (closeup x) = stands x.
Proof. intro x. unfold stands. rewrite closeup_dot, closeup_comma. reflexivity. Qed.

Lemma closeup_between : forall cs g, between_commas (map closeup g) (map closeup cs) = map (map closeup) (between_commas g cs).
Proof.
  induction cs as [|c cs IH]; intro g; [reflexivity|]. cbn [map between_commas]. rewrite closeup_comma.
  destruct (is_comma c); [cbn [map]; rewrite <- IH; reflexivity|].
  rewrite <- IH, map_app. reflexivity.
Qed.

Lemma closeup_given : forall cs, given (map closeup cs) = map (map closeup) (given cs).
Proof.
  intro cs. unfold given. rewrite filter_closeup by (intro c; rewrite closeup_dot; reflexivity).
  change (@nil cst) with (map closeup []) at 1. rewrite closeup_between.
  induction (between_commas [] _) as [|g gs IH]; [reflexivity|]. cbn [map filter]. rewrite IH.
  destruct g; reflexivity.
Qed.

Lemma closeup_group : forall g, group_loc (map closeup g) = group_loc g.
Proof.
  intro g. unfold group_loc. rewrite map_map. f_equal. apply map_ext. intros [[] [|x cs] l|]; try reflexivity.
  cbn. apply closeup_loc.
Qed.

Lemma F2_closeup : forall xs ys, Forall2 (fun x a => reads x a /\ reads (closeup x) a) xs ys -> Forall2 reads (map closeup xs) ys.
Proof. intros xs ys H. induction H as [|x y xs ys [_ R] _ IH]; constructor; auto. Qed.

Lemma inner_closeup : forall x, inner (closeup x) = inner x.
Proof. intros []; reflexivity. Qed.

Theorem reads_closeup : forall c a, reads c a -> reads (closeup c) a.
Proof.
  apply (reads_ind' (fun c a => reads (closeup c) a)).
  - intros k k' s i l H. apply Re_name. exact H.
  - intros s i l l'. apply Re_escape.
  - intros i l. apply Re_nothing.
  - intros k o c k' cs l i hs aas H H1 H2. cbn [closeup].
    eapply Re_command; [exact H| |].
    + rewrite closeup_inside, firstn_map, filter_closeup by exact stands_closeup. apply F2_closeup; exact H1.
    + rewrite closeup_inside, skipn_map, closeup_given. clear H1.
      induction H2 as [|g a gs as' (i' & xs & -> & F) _ IH]; [constructor|]. constructor; [|exact IH].
      exists i', xs. rewrite closeup_group. split; [reflexivity|apply F2_closeup; exact F].
  - intros xs ys i l H. cbn [closeup]. rewrite missing_none, app_nil_r by reflexivity. apply Re_expr. apply F2_closeup. exact H.
  - intros xs ys i l H. cbn [closeup]. rewrite missing_none, app_nil_r by reflexivity. apply Re_stmt.
    rewrite filter_closeup by exact inner_closeup. apply F2_closeup. exact H.
  - intros xs ys i l H. cbn [closeup]. rewrite missing_none, app_nil_r by reflexivity. apply Re_document.
    rewrite filter_closeup by exact inner_closeup. apply F2_closeup. exact H.
Qed.

Definition back (c : cst) : Prop := forall b, reads (closeup c) b -> exists a, reads c a.

Lemma back_list : forall xs, Forall back xs -> forall bs, Forall2 reads (map closeup xs) bs -> exists ys, Forall2 reads xs ys.
Proof.
  intros xs H. induction H as [|x xs B _ IH]; intros bs F; cbn in F; inversion F; subst; [exists []; constructor|].
  edestruct B as [a A]; [eassumption|]. edestruct IH as [ys Y]; [eassumption|]. exists (a :: ys). constructor; assumption.
Qed.

Lemma reads_back : forall c, back c /\ forall xs l, c = CInner CExpr xs l -> Forall back xs.
Proof.
  induction c as [k v l|k cs l IH] using cst_ind'.
  - split; [|discriminate]. intros b R. exists b. exact R.
  - assert (IHb : Forall back cs) by (eapply Forall_impl; [|exact IH]; intros x Q; apply Q).
    split; [|intros xs l' E; injection E as -> -> ->; exact IHb].
    intros b R.
    assert (BI : forall x, In x (inside cs) -> back x).
    { intros x I. unfold inside in I. apply filter_In in I as [I _]. apply in_flat in I as [I|(xs & lx & I & X)].
      - rewrite Forall_forall in IHb. auto.
      - rewrite Forall_forall in IH. pose proof (proj2 (IH _ I) xs lx eq_refl) as Q. rewrite Forall_forall in Q. auto. }
    cbn [closeup] in R.
    destruct (command_kind k) as [[[o z] k']|] eqn:CK.
    + destruct (command_inv _ _ _ _ _ _ _ CK R) as (i2 & hs2 & aas2 & -> & H2 & A2).
      rewrite closeup_inside in H2, A2.
      rewrite firstn_map, filter_closeup in H2 by exact stands_closeup.
      destruct (back_list (filter stands (firstn 3 (inside cs)))) with (bs := hs2) as [hs HS]; [|exact H2|].
      { rewrite Forall_forall. intros x I. apply filter_In in I as [I _]. apply BI. rewrite <- (firstn_skipn 3 (inside cs)). apply in_or_app; auto. }
      rewrite skipn_map, closeup_given in A2.
      assert (GB : forall g, In g (given (skipn 3 (inside cs))) -> Forall back g).
      { intros g G. rewrite Forall_forall. intros x X. apply BI. rewrite <- (firstn_skipn 3 (inside cs)). apply in_or_app. right.
        eapply given_in; eassumption. }
      assert (AS : exists aas, Forall2 (fun g a => exists i' as', a = AInner NExpr i' as' (group_loc g) /\ Forall2 reads g as')
        (given (skipn 3 (inside cs))) aas).
      { clear R H2. revert GB aas2 A2. induction (given (skipn 3 (inside cs))) as [|g gs IHg]; intros GB aas2 A2; [exists []; constructor|].
        cbn [map] in A2. inversion A2 as [|? b0 ? bs (i3 & as3 & -> & F3) A3]; subst.
        destruct (back_list g (GB g (or_introl eq_refl)) _ F3) as [ys Y].
        edestruct IHg as [aas AA]; [intros g' I; apply GB; right; exact I|exact A3|].
        exists (AInner NExpr [] ys (group_loc g) :: aas). constructor; [|exact AA]. exists [], ys. auto. }
      destruct AS as [aas AA]. exists (AInner k' [] (hs ++ aas) l). eapply Re_command; eassumption.
    + assert (EB : k = CExpr \/ k = CStmt \/ k = CDocument \/ k = CBackSlash) by (destruct k; try discriminate CK; tauto).
      rewrite missing_none, app_nil_r in R by (destruct EB as [-> | [-> | [-> | -> ]]]; reflexivity).
      destruct EB as [-> | [-> | [-> | -> ]]].
      * inversion R as [| | | |xs ys i0 l0 F E1 E2| |]; subst; try discriminate.
        destruct (back_list cs IHb _ F) as [zs Z]. exists (AInner NExpr [] zs l). apply Re_expr. exact Z.
      * inversion R as [| | | | |xs ys i0 l0 F E1 E2|]; subst; try discriminate.
        rewrite filter_closeup in F by exact inner_closeup.
        destruct (back_list (filter inner cs)) with (bs := ys) as [zs Z]; [|exact F|exists (AInner NStmt [] zs l); apply Re_stmt; exact Z].
        rewrite Forall_forall in *. intros x I. apply filter_In in I as [I _]. auto.
      * inversion R as [| | | | | |xs ys i0 l0 F E1 E2]; subst; try discriminate.
        rewrite filter_closeup in F by exact inner_closeup.
        destruct (back_list (filter inner cs)) with (bs := ys) as [zs Z]; [|exact F|exists (AInner NDocument [] zs l); apply Re_document; exact Z].
        rewrite Forall_forall in *. intros x I. apply filter_In in I as [I _]. auto.
      * destruct cs as [|x [|y cs]].
        -- eexists. apply (Re_nothing []).
        -- destruct x as [|kx vx lx]; [inversion R; discriminate|]. exists b. exact R.
        -- cbn [map] in R. inversion R; discriminate.
Qed.

(** ** Identifiers are drawn in the order of the nodes. *)
Fixpoint relabel (uuid : nat -> str) (a : ast) (n : nat) : ast * nat :=
  match a with
  | ALeaf k _ v l => (ALeaf k (uuid n) v l, S n)
  | AInner k _ cs l =>
    let (r, n') := (fix go (cs : list ast) (n : nat) : list ast * nat :=
      match cs with
      | [] => ([], n)
      | x :: cs' => let (a, n1) := relabel uuid x n in let (r, n2) := go cs' n1 in (a :: r, n2)
      end) cs n in
    (AInner k (uuid n') r l, S n')
  end.

Lemma aux_relabel : forall uuid c n a m, aux uuid c n = Ok (a, m) -> relabel uuid (erase a) n = (a, m).
Proof.
  intros uuid. induction c as [k v l|k cs l IH] using cst_ind'; intros n a m H.
  - cbn in H. destruct (aux_leaf k v) as [[k' v']|]; [|discriminate]. injection H as <- <-. reflexivity.
  - cbn [aux] in H. destruct (aux_inner k) as [k'|]; [|discriminate].
    apply bind_ok in H as ([r n'] & H & E). injection E as <- <-. cbn [erase relabel].
    assert (X : (fix go (cs : list ast) (n : nat) : list ast * nat :=
      match cs with
      | [] => ([], n)
      | x :: cs' => let (a, n1) := relabel uuid x n in let (r, n2) := go cs' n1 in (a :: r, n2)
      end) (map erase r) n = (r, n')).
    { revert n r n' H. induction IH as [|x cs Hx _ IHc]; intros n r n' H; [injection H as <- <-; reflexivity|].
      apply bind_ok in H as ([a n1] & H1 & H). apply bind_ok in H as ([r' n2] & H2 & H). injection H as <- <-.
      cbn [map]. rewrite (Hx _ _ _ H1). rewrite (IHc _ _ _ H2). reflexivity. }
    rewrite X. reflexivity.
Qed.

Theorem same_ids : forall uuid c1 c2 a1 a2 es1 es2, transform uuid c1 = Ok (a1, es1) -> transform uuid c2 = Ok (a2, es2) ->
  erase a1 = erase a2 -> a1 = a2.
Proof.
  intros uuid c1 c2 a1 a2 es1 es2 H1 H2 E. unfold transform in *.
  apply bind_ok in H1 as ([s1 e1] & _ & H1). apply bind_ok in H1 as ([b1 n1] & H1 & E1). injection E1 as <- <-.
  apply bind_ok in H2 as ([s2 e2] & _ & H2). apply bind_ok in H2 as ([b2 n2] & H2 & E2). injection E2 as <- <-.
  apply aux_relabel in H1, H2. rewrite E in H1. congruence.
Qed.

(** ** No bracket is open *)
Lemma flat_snoc_leaf : forall cs k v l, flat (cs ++ [CLeaf k v l]) = flat cs ++ [CLeaf k v l].
Proof. intros. unfold flat. rewrite flat_map_app. reflexivity. Qed.

Lemma closed_by : forall k cs d l, closes k d = true -> unclosed (CInner k (cs ++ [d]) l) = [].
Proof.
  intros k cs d l H. destruct d as [kd xs ld|kd v ld]; [destruct k; discriminate|]. unfold unclosed. rewrite flat_snoc_leaf.
  destruct (not_closed k); [|reflexivity]. destruct (flat cs ++ _) as [|y ys] eqn:E; [reflexivity|].
  rewrite <- E, last_last, H. reflexivity.
Qed.

Lemma closeup_closed : forall c, flat_map unclosed (cst_nodes (closeup c)) = [].
Proof.
  induction c as [k v l|k cs l IH] using cst_ind'; [reflexivity|]. cbn [closeup cst_nodes]. rewrite !flat_map_app. cbn [flat_map].
  assert (A : flat_map unclosed (flat_map cst_nodes (map closeup cs)) = []).
  { clear l. induction IH as [|x cs H _ IHc]; [reflexivity|]. cbn [map flat_map]. rewrite flat_map_app, H, IHc. reflexivity. }
  assert (B : flat_map unclosed (flat_map cst_nodes (missing k cs l)) = []).
  { unfold missing. destruct (bracket_of k) as [[o z]|]; [|reflexivity]. destruct (ends_closed k cs); reflexivity. }
  rewrite A, B. cbn [app]. rewrite app_nil_r.
  destruct (bracket_of k) as [[o z]|] eqn:EB; [|destruct k; try discriminate; reflexivity].
  unfold missing. rewrite EB. destruct (ends_closed k cs) eqn:EC.
  - rewrite app_nil_r. destruct cs as [|c0 cs] using rev_ind; [discriminate|]. clear IHcs. rewrite map_app. cbn [map].
    assert (CL : closes k c0 = true).
    { unfold ends_closed in EC. destruct (cs ++ [c0]) eqn:E; [destruct cs; discriminate|]. rewrite <- E, last_last in EC. exact EC. }
    apply closed_by. destruct c0; [destruct k; discriminate|exact CL].
  - apply closed_by. destruct k; try discriminate; injection EB as <- <-; reflexivity.
Qed.

Theorem missing_closed_alike : forall ts c, parse ts = Ok c -> dangling false ts = false ->
  exists c', parse (close_missing [] ts) = Ok c' /\ flat_map unclosed (cst_nodes c') = [] /\
  forall uuid,
  (forall a es, transform uuid c = Ok (a, es) -> exists es', transform uuid c' = Ok (a, es')) /\
  (forall a es', transform uuid c' = Ok (a, es') -> exists es, transform uuid c = Ok (a, es)).
Proof.
  intros ts c P D. exists (closeup c).
  pose proof P as T. apply parse_tree, (tree_close _ _ D), tree_parse in T. split; [exact T|]. split; [apply closeup_closed|].
  pose proof (proj1 (parse_sound _ _ P)) as G1. pose proof (proj1 (parse_sound _ _ T)) as G2.
  intro uuid. split.
  - intros a es E. pose proof (reads_closeup _ _ (transform_reads _ _ _ _ G1 E)) as R.
    destruct (reads_transform uuid _ _ G2 R) as (b & es' & E' & EE). 
    assert (b = a) as -> by (eapply same_ids; eassumption). eauto.
  - intros a es' E. pose proof (transform_reads _ _ _ _ G2 E) as R. destruct (proj1 (reads_back c) _ R) as [a0 R0].
    destruct (reads_transform uuid _ _ G1 R0) as (b & es & E' & EE).
    assert (b = a) as ->; [|eauto]. eapply same_ids; [exact E'|exact E|]. rewrite EE.
    exact (reads_unique _ _ _ (reads_closeup _ _ R0) R).
Qed.
