(** Spaces and newlines inside brackets have no influence on what is read. *)
From Coq Require Import String List NArith Arith Bool Lia.
From Verif Require Import Base Tokens CST SpecTok SpecCST Parser ParserProofs ParserTotal ParserAccepts ParserProofs2
  ParserLocations SpecTree ParserTree AST TransformError SpecTransform SpecReads SpecStrip Transform
  TransformIds TransformReads ReadsProofs ReadsProofs2 Relocate.
Import ListNotations.

(** ** The tree without these spaces *)
Definition separator (c : cst) : bool := match c with CLeaf LNewline _ _ => true | _ => bracket_leaf c end.
Definition wrap (g : list cst) : list cst :=
  match g with
  | [] => []
  | x :: _ => [CInner CExpr g (mkloc (lstart (cst_location x)) (lend (cst_location (last g x))))]
  end.
Fixpoint rebuild (g cs : list cst) : list cst :=
  match cs with
  | [] => wrap g
  | c :: r => if separator c then wrap g ++ c :: rebuild [] r else rebuild (g ++ [c]) r
  end.
Definition loneb (c : cst) : bool := match c with CInner CBackSlash [] _ => true | _ => false end.
Fixpoint keep (lone : bool) (cs : list cst) : list cst :=
  match cs with
  | [] => []
  | c :: r => if visible c || lone then c :: keep (loneb c) r else keep false r
  end.
Fixpoint squeeze (c : cst) : cst :=
  match c with
  | CLeaf _ _ _ => c
  | CInner ((CAngle | CCurly | CSquare) as k) cs l => CInner k (rebuild [] (keep false (flat (map squeeze cs)))) l
  | CInner CBackSlash _ _ => c
  | CInner k cs l => CInner k (map squeeze cs) l
  end.

Lemma squeeze_loc : forall c, cst_location (squeeze c) = cst_location c.
Proof. intros [[]|]; reflexivity. Qed.
Lemma squeeze_visible : forall c, visible (squeeze c) = visible c.
Proof. intros [[]|]; reflexivity. Qed.
Lemma squeeze_lone : forall c, loneb (squeeze c) = loneb c.
Proof. intros [[]|]; reflexivity. Qed.
Lemma squeeze_sep : forall c, separator (squeeze c) = separator c.
Proof. intros [[]|]; reflexivity. Qed.
Lemma squeeze_expr : forall c, is_expr (squeeze c) = is_expr c.
Proof. intros [[]|]; reflexivity. Qed.

Lemma squeeze_flat : forall cs, flat (map squeeze cs) = map squeeze (flat cs).
Proof.
  induction cs as [|c cs IH]; [reflexivity|]. unfold flat in *. cbn [map flat_map]. rewrite map_app, IH.
  destruct c as [[]|]; reflexivity.
Qed.

Lemma squeeze_bracket : forall k cs l, bracket_of k <> None ->
  squeeze (CInner k cs l) = CInner k (rebuild [] (keep false (map squeeze (flat cs)))) l.
Proof. intros k cs l H. rewrite <- squeeze_flat. destruct k; try reflexivity; exfalso; apply H; reflexivity. Qed.

(** *** rebuild *)
Lemma wrap_toks : forall g, flat_map leaf_toks (wrap g) = flat_map leaf_toks g.
Proof. intros [|x g]; [reflexivity|]. cbn [wrap flat_map leaf_toks]. apply app_nil_r. Qed.

Lemma rebuild_toks : forall cs g, flat_map leaf_toks (rebuild g cs) = flat_map leaf_toks (g ++ cs).
Proof.
  induction cs as [|c cs IH]; intro g; cbn [rebuild].
  - rewrite wrap_toks, app_nil_r. reflexivity.
  - destruct (separator c).
    + rewrite !flat_map_app, wrap_toks. cbn [flat_map]. rewrite IH. reflexivity.
    + rewrite IH, <- app_assoc. reflexivity.
Qed.

Lemma rebuild_app : forall cs g d, separator d = true -> rebuild g (cs ++ [d]) = rebuild g cs ++ [d].
Proof.
  induction cs as [|c cs IH]; intros g d H; cbn [app rebuild].
  - rewrite H. cbn. reflexivity.
  - destruct (separator c); [rewrite IH, <- app_assoc by exact H; reflexivity|apply IH; exact H].
Qed.

Lemma last_wrap : forall x g after, spans_list (x :: g) after -> spans_ok (CInner CExpr (x :: g)
  (mkloc (lstart (cst_location x)) (lend (cst_location (last (x :: g) x))))) after.
Proof.
  intros x g after H. split; [|exact H]. exists x, (last (x :: g) x). split; [reflexivity|]. split; [|reflexivity].
  replace (length (x :: g) - 1) with (length g) by (cbn; lia). apply nth_error_last.
Qed.

Lemma rebuild_spans : forall cs g after, spans_list (g ++ cs) after -> spans_list (rebuild g cs) after.
Proof.
  assert (W : forall g after, spans_list g after -> spans_list (wrap g) after).
  { intros [|x g] after H; [exact I|]. split; [apply last_wrap; exact H|exact I]. }
  induction cs as [|c cs IH]; intros g after H; cbn [rebuild].
  - rewrite app_nil_r in H. apply W. exact H.
  - destruct (separator c).
    + apply spans_split in H as [H1 [H2 H3]]. apply spans_list_app.
      * replace (flat_map leaf_toks (c :: rebuild [] cs)) with (flat_map leaf_toks (c :: cs));
          [apply W; exact H1|]. cbn [flat_map]. rewrite rebuild_toks. reflexivity.
      * split; [rewrite rebuild_toks; exact H2|]. apply IH. exact H3.
    + apply IH. rewrite <- app_assoc. exact H.
Qed.

Definition item_or_newline (c : cst) : Prop := g_item c \/ is_newline c.

Lemma item_sep : forall c, g_item c -> separator c = false /\ is_expr c = false.
Proof.
  intros c G. inversion G as [l0|s k l0 l1 H|k s l0 H|k l0 H|k o cl lo body close l0 H1 H2 H3]; subst; try (split; reflexivity).
  - destruct H as [<-|[<-|[<-|[]]]]; split; reflexivity.
  - destruct H as [<-|[<-|[<-|[]]]]; split; reflexivity.
  - destruct k; try discriminate; split; reflexivity.
Qed.

Lemma wrap_body : forall g, Forall g_item g -> Forall body_elem (wrap g).
Proof. intros [|x g] H; constructor; [|constructor]. left. constructor; [discriminate|exact H]. Qed.

Lemma rebuild_body : forall cs g, Forall g_item g -> Forall item_or_newline cs -> Forall body_elem (rebuild g cs).
Proof.
  induction cs as [|c cs IH]; intros g G H; cbn [rebuild]; [apply wrap_body; exact G|].
  inversion H as [|? ? H1 H2]; subst. destruct H1 as [H1|[l ->]].
  - rewrite (proj1 (item_sep c H1)). apply IH; [|exact H2]. apply Forall_app. auto.
  - cbn [separator]. apply Forall_app. split; [apply wrap_body; exact G|]. constructor; [right; eexists; reflexivity|].
    apply IH; [constructor|exact H2].
Qed.

Lemma wrap_apart : forall g, Forall apart g -> Forall apart (wrap g).
Proof. intros [|x g] H; constructor; [|constructor]. apply not_bracket; [reflexivity|exact H]. Qed.

Lemma rebuild_apart : forall cs g, Forall apart g -> Forall apart cs -> Forall apart (rebuild g cs).
Proof.
  induction cs as [|c cs IH]; intros g G H; cbn [rebuild]; [apply wrap_apart; exact G|].
  inversion H as [|? ? H1 H2]; subst. destruct (separator c).
  - apply Forall_app. split; [apply wrap_apart; exact G|]. constructor; [exact H1|]. apply IH; [constructor|exact H2].
  - apply IH; [|exact H2]. apply Forall_app. auto.
Qed.

Lemma sep_not_expr : forall c, separator c = true -> is_expr c = false.
Proof. intros [[]|[]] H; cbn in *; congruence. Qed.

Lemma two_insert : forall a c b, two_exprs a = false -> is_expr c = false -> two_exprs b = false -> two_exprs (a ++ c :: b) = false.
Proof.
  induction a as [|x a IH]; intros c b A C B.
  - cbn [app two_exprs]. rewrite C, B. destruct b; reflexivity.
  - destruct a as [|y a].
    + cbn [app two_exprs]. rewrite C, B, andb_false_r. destruct b; reflexivity.
    + cbn [app two_exprs] in *. apply orb_false_iff in A as [A1 A2]. rewrite A1. cbn [orb]. apply (IH c b A2 C B).
Qed.

Lemma rebuild_two : forall cs g, two_exprs (rebuild g cs) = false.
Proof.
  assert (W : forall g, two_exprs (wrap g) = false) by (intros [|x g]; reflexivity).
  induction cs as [|c cs IH]; intro g; cbn [rebuild]; [apply W|].
  destruct (separator c) eqn:E; [|apply IH]. apply two_insert; auto. apply sep_not_expr; exact E.
Qed.

Lemma rebuild_flat : forall cs g, flat (rebuild g cs) = g ++ cs.
Proof.
  assert (W : forall g, flat (wrap g) = g) by (intros [|x g]; [reflexivity|apply app_nil_r]).
  induction cs as [|c cs IH]; intro g; cbn [rebuild]; [rewrite W, app_nil_r; reflexivity|].
  destruct (separator c) eqn:E.
  - apply sep_not_expr in E. unfold flat in *. rewrite flat_map_app, W. cbn [flat_map]. rewrite IH.
    destruct c as [[]|]; try discriminate; reflexivity.
  - rewrite IH, <- app_assoc. reflexivity.
Qed.

(** *** keep *)
Lemma keep_in : forall cs l x, In x (keep l cs) -> In x cs.
Proof.
  induction cs as [|c cs IH]; intros l x H; [destruct H|]. cbn [keep] in H.
  destruct (visible c || l); [destruct H as [<-|H]; [left; reflexivity|]|]; right; eapply IH; exact H.
Qed.

Lemma keep_forall : forall (P : cst -> Prop) cs l, Forall P cs -> Forall P (keep l cs).
Proof. intros P cs l H. rewrite Forall_forall in *. intros x I. apply H. eapply keep_in; exact I. Qed.

Lemma keep_visible : forall cs l, filter visible (keep l cs) = filter visible cs.
Proof.
  induction cs as [|c cs IH]; intro l; [reflexivity|]. cbn [keep filter].
  destruct (visible c) eqn:E; cbn [orb].
  - cbn [filter]. rewrite E, IH. reflexivity.
  - destruct l; cbn [filter]; rewrite ?E; apply IH.
Qed.

Lemma keep_snoc : forall cs l d, visible d = true -> keep l (cs ++ [d]) = keep l cs ++ [d].
Proof.
  induction cs as [|c cs IH]; intros l d H; cbn [app keep].
  - rewrite H. reflexivity.
  - destruct (visible c || l); [cbn [app]; f_equal|]; apply IH; exact H.
Qed.

(** ** Tokens *)
Lemma strip_bstop : forall open l l' ts, bstop ts -> strip open l ts = strip open l' ts.
Proof.
  intros open l l' [|[k lt] ts] H; [reflexivity|]. cbn in H.
  destruct H as [<-|[<-|[<-|[<-|[<-|[]]]]]]; reflexivity.
Qed.

Lemma strip_top : forall l l' ts, strip [] l ts = strip [] l' ts.
Proof. intros l l' [|[k lt] ts]; [reflexivity|]. destruct k; reflexivity. Qed.

Lemma strip_first : forall open t ts, exists r, strip open true (t :: ts) = t :: r.
Proof.
  intros open [k l] ts. destruct k; cbn [strip tk]; try (eexists; reflexivity).
  - destruct open; eexists; reflexivity.
  - destruct open; eexists; reflexivity.
  - destruct ts as [|u r]; [eexists; reflexivity|]. destruct (can_escape (tk u)); eexists; reflexivity.
Qed.

Lemma strip_unclosed : forall b open l ts, bstop ts -> (forall t r, ts = t :: r -> tk t <> zkind b) ->
  strip (okind b :: open) l ts = strip open false ts.
Proof.
  intros b open l [|[k lt] ts] H N; [reflexivity|]. specialize (N _ _ eq_refl). cbn in H, N.
  destruct H as [<-|[<-|[<-|[<-|[<-|[]]]]]], b; cbn in *; try congruence; reflexivity.
Qed.

Lemma strip_bstop_first : forall open l ts, bstop ts ->
  exists t r r', ts = t :: r /\ strip open l ts = t :: r'.
Proof.
  intros open l [|[k lt] ts] H; [destruct H|]. cbn in H. exists (mktok k lt), ts.
  destruct H as [<-|[<-|[<-|[<-|[<-|[]]]]]]; eexists; split; reflexivity.
Qed.

Lemma can_escape_iff : forall k, can_escape k = match escapable k with Some _ => true | None => false end.
Proof. intro k. apply escape_iff. Qed.

Lemma span_intro_closed : forall b cs lo lc after,
  span_ok (nkind b) ((CLeaf (oleaf b) None lo :: cs) ++ [CLeaf (zleaf b) None lc]) (mkloc (lstart lo) (lend lc)) after.
Proof.
  intros b cs lo lc after.
  pose proof (last_snoc _ (CLeaf (oleaf b) None lo :: cs) (CLeaf (zleaf b) None lc)) as L.
  destruct b; (eexists _, _, _, _; split; [reflexivity|]; split; [reflexivity|]; split; [exact L|]; split; reflexivity).
Qed.

Lemma span_intro_open : forall b lo body l after, Forall body_elem body -> lstart l = lstart lo ->
  unclosed_end (zleaf b) l after -> span_ok (nkind b) (CLeaf (oleaf b) None lo :: body) l after.
Proof.
  intros b lo body l after F S U.
  assert (N : exists z, nth_error (CLeaf (oleaf b) None lo :: body) (length (CLeaf (oleaf b) None lo :: body) - 1) = Some z).
  { destruct (nth_error _ _) eqn:E; [eauto|]. apply nth_error_None in E. cbn [length] in E. lia. }
  destruct N as [z Z].
  assert (K : z = CLeaf (oleaf b) None lo \/ body_elem z).
  { apply nth_error_In in Z as Z'. destruct Z' as [<-|Z']; [auto|]. rewrite Forall_forall in F. auto. }
  destruct b; (eexists _, _, _, z; split; [reflexivity|]; split; [reflexivity|]; split; [exact Z|]; split; [exact S|];
    destruct K as [->|[K|[lz ->]]]; [exact U|inversion K; subst; exact U|exact U]).
Qed.

(** ** Items *)
Definition walk (c : cst) : Prop := forall after open lone, spans_ok c after -> has_eof after ->
  strip open lone (leaf_toks c ++ after) =
    (if visible c || lone || match open with [] => true | _ => false end then leaf_toks (squeeze c) else []) ++
    strip open (loneb c) after /\
  spans_ok (squeeze c) (strip open (loneb c) after).

Lemma newline_walk : forall c, is_newline c -> walk c.
Proof.
  intros c [l ->] after open lone _ _. split; [|exact I]. destruct open, lone; reflexivity.
Qed.

Lemma flat_spans : forall body after, Forall body_elem body -> spans_list body after -> spans_list (flat body) after.
Proof.
  intros body after F. induction F as [|x body Hx F IH]; intro S; [exact I|]. destruct S as [S1 S2].
  unfold flat in *. cbn [flat_map]. destruct Hx as [Hx|[l ->]].
  - destruct Hx as [items l NE G]. destruct S1 as [_ S1]. fold (spans_list items (flat_map leaf_toks body ++ after)) in S1.
    apply spans_list_app; [|apply IH; exact S2].
    fold (flat body). assert (E : flat_map leaf_toks (flat body) = flat_map leaf_toks body).
    { clear -F. induction F as [|y body Hy _ IH]; [reflexivity|]. unfold flat in *. cbn [flat_map]. rewrite flat_map_app, IH.
      destruct Hy as [[items l _ _]|[l ->]]; reflexivity. }
    rewrite E. exact S1.
  - split; [exact I|apply IH; exact S2].
Qed.

Lemma flat_toks : forall body, Forall body_elem body -> flat_map leaf_toks (flat body) = flat_map leaf_toks body.
Proof.
  intros body F. induction F as [|y body Hy _ IH]; [reflexivity|]. unfold flat in *. cbn [flat_map]. rewrite flat_map_app, IH.
  destruct Hy as [[items l _ _]|[l ->]]; reflexivity.
Qed.

Lemma flat_items : forall body, Forall body_elem body -> Forall item_or_newline (flat body).
Proof.
  intros body F. induction F as [|y body Hy _ IH]; [constructor|]. unfold flat in *. cbn [flat_map]. apply Forall_app.
  split; [|exact IH]. destruct Hy as [[items l _ G]|[l ->]].
  - eapply Forall_impl; [|exact G]. left; assumption.
  - constructor; [right; eexists; reflexivity|constructor].
Qed.

Lemma in_flat : forall body x, In x (flat body) -> In x body \/ exists xs l, In (CInner CExpr xs l) body /\ In x xs.
Proof.
  intros body x H. unfold flat in H. apply in_flat_map in H as (y & I & H).
  destruct y as [[] ys ly|]; try (destruct H as [<-|[]]; left; exact I). right. eauto.
Qed.

(** Inside brackets. *)
Lemma inside_walk : forall xs, Forall walk xs -> forall o open after lone, spans_list xs after -> has_eof after -> bstop after ->
  strip (o :: open) lone (flat_map leaf_toks xs ++ after) =
    flat_map leaf_toks (keep lone (map squeeze xs)) ++ strip (o :: open) false after /\
  spans_list (keep lone (map squeeze xs)) (strip (o :: open) false after).
Proof.
  intros xs H o open after. induction H as [|x xs Hx _ IH]; intros lone S HE B.
  - cbn [flat_map app map keep]. split; [apply strip_bstop; exact B|exact I].
  - destruct S as [S1 S2]. cbn [flat_map map keep]. rewrite <- app_assoc.
    destruct (Hx _ (o :: open) lone S1 (has_eof_app _ _ HE)) as [E1 E2]. rewrite E1, squeeze_visible, squeeze_lone.
    rewrite orb_false_r.
    destruct (IH (loneb x) S2 HE B) as [I1 I2]. rewrite I1 in *.
    destruct (visible x || lone) eqn:V.
    + cbn [flat_map]. rewrite <- app_assoc. split; [reflexivity|]. split; [exact E2|exact I2].
    + cbn [app]. assert (L : loneb x = false) by (destruct x as [[]|[]]; try reflexivity; discriminate V).
      rewrite L in *. split; [reflexivity|exact I2].
Qed.

(** Outside brackets. *)
Lemma outside_walk : forall xs, Forall walk xs -> forall after, spans_list xs after -> has_eof after ->
  strip [] false (flat_map leaf_toks xs ++ after) = flat_map leaf_toks (map squeeze xs) ++ strip [] false after /\
  spans_list (map squeeze xs) (strip [] false after).
Proof.
  intros xs H after. induction H as [|x xs Hx _ IH]; intros S HE.
  - split; [reflexivity|exact I].
  - destruct S as [S1 S2]. cbn [flat_map map]. rewrite <- !app_assoc.
    destruct (Hx _ [] false S1 (has_eof_app _ _ HE)) as [E1 E2]. rewrite !orb_true_r in E1. rewrite E1.
    rewrite (strip_top (loneb x) false) in *. destruct (IH S2 HE) as [I1 I2]. rewrite I1 in *.
    split; [reflexivity|]. split; [exact E2|exact I2].
Qed.

Definition fine (c : cst) : Prop := walk c /\ g_item (squeeze c) /\ apart (squeeze c).

Lemma squeezed_bracket : forall b lo body close l,
  Forall body_elem body -> (close = [] \/ exists lc, close = [CLeaf (zleaf b) None lc]) ->
  squeeze (CInner (nkind b) (CLeaf (oleaf b) None lo :: body ++ close) l) =
  CInner (nkind b) (CLeaf (oleaf b) None lo :: rebuild [] (keep false (map squeeze (flat body))) ++ close) l.
Proof.
  intros b lo body close l F H. rewrite squeeze_bracket by (destruct b; discriminate). f_equal.
  assert (E : flat (CLeaf (oleaf b) None lo :: body ++ close) = CLeaf (oleaf b) None lo :: flat body ++ close).
  { unfold flat. cbn [flat_map app]. rewrite flat_map_app. destruct H as [->|[lc ->]]; reflexivity. }
  rewrite E. cbn [map squeeze].
  assert (V : forall xs, keep false (CLeaf (oleaf b) None lo :: xs) = CLeaf (oleaf b) None lo :: keep false xs) by (destruct b; reflexivity).
  rewrite V.
  assert (R : forall xs, rebuild [] (CLeaf (oleaf b) None lo :: xs) = CLeaf (oleaf b) None lo :: rebuild [] xs) by (destruct b; reflexivity).
  rewrite R. f_equal. rewrite map_app. destruct H as [->|[lc ->]].
  - cbn [map]. rewrite !app_nil_r. reflexivity.
  - cbn [map squeeze]. rewrite keep_snoc by (destruct b; reflexivity). apply rebuild_app. destruct b; reflexivity.
Qed.

Lemma item_fine : forall c, (g_item c -> fine c) /\
  (g_expr c -> forall xs l, c = CInner CExpr xs l -> Forall fine xs).
Proof.
  induction c as [k v l|k cs l IH] using cst_ind'.
  - split; intro G; [|inversion G]. split; [|split].
    + inversion G as [| |k' s l' H1|k' l' H1|]; subst; intros after open lone _ _; (split; [|exact I]);
        destruct H1 as [<-|[<-|[<-|[]]]]; destruct open, lone; reflexivity.
    + exact G.
    + apply apart_leaf.
  - rewrite Forall_forall in IH. split; intro G.
    + inversion G as [l0|s k0 l0 l' H1| | |k0 o cl lo body close l0 H1 H2 H3]; subst.
      * split; [|split; [exact G|apply not_bracket; [reflexivity|constructor]]].
        intros after open lone S HE. destruct after as [|t ts]; [destruct HE|]. destruct S as [S _].
        pose proof (S eq_refl t ts eq_refl) as NE. destruct (strip_first open t ts) as [r R].
        change (loneb (CInner CBackSlash [] l)) with true. rewrite R. split.
        -- change (leaf_toks (CInner CBackSlash [] l) ++ t :: ts) with (mktok TkBackSlash l :: t :: ts).
           rewrite <- R. cbn [visible orb squeeze leaf_toks app].
           transitivity (if can_escape (tk t) then mktok TkBackSlash l :: t :: strip open false ts
             else mktok TkBackSlash l :: strip open true (t :: ts)); [reflexivity|].
           rewrite can_escape_iff, (not_escapable _ NE). reflexivity.
        -- split; [|exact I]. intros _ t' r' E. injection E as <- <-. exact NE.
      * split; [|split; [exact G|apply not_bracket; [reflexivity|constructor; [apply apart_leaf|constructor]]]].
        intros after open lone S HE. cbn [leaf_toks app visible orb squeeze loneb strip tk].
        rewrite can_escape_iff, (escapable_of s k0 H1). split; [reflexivity|]. split; [discriminate|split; exact I].
      * destruct (bk_of _ _ _ H1) as (b & -> & -> & ->).
        assert (FI : Forall (fun x => walk x /\ (item_or_newline (squeeze x)) /\ apart (squeeze x)) (flat body)).
        { rewrite Forall_forall. intros x I. apply in_flat in I as I'. 
          assert (K : forall y, In y body -> In y (CLeaf (oleaf b) None lo :: body ++ close)) by (intros y Y; right; apply in_or_app; auto).
          rewrite Forall_forall in H2. destruct I' as [IB|(xs & lx & IB & IX)].
          - destruct (H2 x IB) as [Gx|N].
            + exfalso. inversion Gx as [items lx NE GI E]; subst. 
              apply flat_items in IB as _ || idtac.
              assert (Q : Forall item_or_newline (flat body)) by (apply flat_items; rewrite Forall_forall; exact H2).
              rewrite Forall_forall in Q. destruct (Q _ I) as [Q'|[lq Q']]; [inversion Q'; discriminate|discriminate].
            + split; [apply newline_walk; exact N|]. destruct N as [lx ->]. split; [right; eexists; reflexivity|apply apart_leaf].
          - destruct (H2 _ IB) as [Gx|[lq Q]]; [|discriminate].
            pose proof (proj2 (IH _ (K _ IB)) Gx xs lx eq_refl) as FX. rewrite Forall_forall in FX.
            destruct (FX x IX) as (W & GI & A). split; [exact W|]. split; [left; exact GI|exact A]. }
        assert (FW : Forall walk (flat body)) by (eapply Forall_impl; [|exact FI]; intros x Q; apply Q).
        assert (FB : Forall body_elem (rebuild [] (keep false (map squeeze (flat body))))).
        { apply rebuild_body; [constructor|]. apply keep_forall. rewrite Forall_map.
          eapply Forall_impl; [|exact FI]. intros x Q; apply Q. }
        assert (FA : Forall apart (rebuild [] (keep false (map squeeze (flat body))))).
        { apply rebuild_apart; [constructor|]. apply keep_forall. rewrite Forall_map.
          eapply Forall_impl; [|exact FI]. intros x Q; apply Q. }
        split; [|split]; [|rewrite squeezed_bracket by assumption; eapply G_bracket; eassumption|].
        2:{ rewrite squeezed_bracket by assumption. apply apart_inner.
            - constructor; [apply apart_leaf|]. apply Forall_app. split; [exact FA|].
              destruct H3 as [->|[lc ->]]; repeat constructor. apply apart_leaf.
            - intros _. 
              assert (T : two_exprs (CLeaf (oleaf b) None lo :: rebuild [] (keep false (map squeeze (flat body)))) = false).
              { cbn [two_exprs is_expr]. rewrite rebuild_two. destruct (rebuild _ _); reflexivity. }
              destruct H3 as [->|[lc ->]]; [rewrite app_nil_r; exact T|]. rewrite app_comm_cons.
              apply two_snoc; [exact T|reflexivity]. }
        intros after open lone [SP SL] HE.
        rewrite squeezed_bracket by assumption.
        change (spans_list (CLeaf (oleaf b) None lo :: body ++ close) after) in SL. destruct SL as [_ SL].
        change (spans_list (body ++ close) after) in SL. apply spans_split in SL as [SB _].
        assert (V : visible (CInner (nkind b) (CLeaf (oleaf b) None lo :: body ++ close) l) = true) by (destruct b; reflexivity).
        rewrite V. cbn [orb].
        assert (LN : loneb (CInner (nkind b) (CLeaf (oleaf b) None lo :: body ++ close) l) = false) by (destruct b; reflexivity).
        rewrite LN, !b_toks. cbn [flat_map leaf_toks app]. rewrite !flat_map_app, <- !app_assoc, rebuild_toks, o_kind. cbn [app].
        assert (OP : forall ts, strip open lone (mktok (okind b) lo :: ts) = mktok (okind b) lo :: strip (okind b :: open) false ts) by (destruct b; reflexivity).
        rewrite OP. rewrite <- (flat_toks body) by exact H2.
        apply flat_spans in SB; [|exact H2].
        destruct H3 as [->|[lc ->]].
        -- cbn [flat_map app] in *. rewrite app_nil_r in *.
           destruct (span_open _ _ _ _ _ H2 SP) as [SS (t & r & -> & SE & SK & SN)]. specialize (SN HE).
           rewrite z_kind in SK.
           destruct (inside_walk _ FW (okind b) open (t :: r) false SB HE SN) as [W1 W2].
           assert (U : strip (okind b :: open) false (t :: r) = strip open false (t :: r)).
           { apply strip_unclosed; [exact SN|]. intros t0 r0 E. injection E as <- <-. exact SK. }
           rewrite U in W1, W2. rewrite W1. split; [reflexivity|]. split.
           ++ apply span_intro_open; [exact FB|exact SS|].
              destruct (strip_bstop_first open false (t :: r) SN) as (t0 & r0 & r' & E & R). injection E as <- <-.
              rewrite R. exists t, r'. rewrite z_kind. repeat split; auto.
           ++ change (spans_list (CLeaf (oleaf b) None lo :: rebuild [] (keep false (map squeeze (flat body)))) (strip open false (t :: r))).
              split; [exact I|]. apply rebuild_spans. exact W2.
        -- cbn [flat_map leaf_toks app] in *. rewrite z_kind in *.
           assert (BS : bstop (mktok (zkind b) lc :: after)) by (destruct b; cbn; tauto).
           assert (HE' : has_eof (mktok (zkind b) lc :: after)) by (right; exact HE).
           destruct (inside_walk _ FW (okind b) open _ false SB HE' BS) as [W1 W2].
           assert (CL : strip (okind b :: open) false (mktok (zkind b) lc :: after) = mktok (zkind b) lc :: strip open false after)
             by (destruct b; reflexivity).
           rewrite CL in W1, W2. rewrite W1. split; [reflexivity|]. split.
           ++ change (CLeaf (oleaf b) None lo :: body ++ [CLeaf (zleaf b) None lc])
                with ((CLeaf (oleaf b) None lo :: body) ++ [CLeaf (zleaf b) None lc]) in SP.
              destruct (span_closed _ _ _ _ _ SP) as (a & EA & ->). injection EA as <-.
              apply span_intro_closed.
           ++ change (spans_list (CLeaf (oleaf b) None lo :: rebuild [] (keep false (map squeeze (flat body))) ++ [CLeaf (zleaf b) None lc]) (strip open false after)).
              split; [exact I|]. apply spans_list_app; [|split; exact I]. cbn [flat_map leaf_toks app]. rewrite z_kind.
              apply rebuild_spans. exact W2.
    + intros xs l' E. injection E as -> -> ->. inversion G as [items l0 NE HF]; subst.
      rewrite Forall_forall in *. intros x I. apply IH; auto.
Qed.

(** ** Documents *)
Lemma items_fine : forall xs, Forall g_item xs -> Forall fine xs.
Proof. intros xs H. eapply Forall_impl; [|exact H]. intros x G. apply item_fine. exact G. Qed.

Definition whole (c : cst) : Prop := forall after, spans_ok c after -> has_eof after ->
  strip [] false (leaf_toks c ++ after) = leaf_toks (squeeze c) ++ strip [] false after /\
  spans_ok (squeeze c) (strip [] false after).

Lemma whole_list : forall xs, Forall whole xs -> forall after, spans_list xs after -> has_eof after ->
  strip [] false (flat_map leaf_toks xs ++ after) = flat_map leaf_toks (map squeeze xs) ++ strip [] false after /\
  spans_list (map squeeze xs) (strip [] false after).
Proof.
  intros xs H after. induction H as [|x xs Hx _ IH]; intros S HE.
  - split; [reflexivity|exact I].
  - destruct S as [S1 S2]. cbn [flat_map map]. rewrite <- !app_assoc.
    destruct (Hx _ S1 (has_eof_app _ _ HE)) as [E1 E2]. rewrite E1.
    destruct (IH S2 HE) as [I1 I2]. rewrite I1 in *. split; [reflexivity|]. split; [exact E2|exact I2].
Qed.

Lemma expr_whole : forall c, g_expr c -> whole c /\ g_expr (squeeze c) /\ apart (squeeze c).
Proof.
  intros c [items l NE G]. pose proof (items_fine _ G) as F. split; [|split].
  - intros after [S SL] HE. change (spans_list items after) in SL.
    assert (FW : Forall walk items) by (eapply Forall_impl; [|exact F]; intros x Q; apply Q).
    destruct (outside_walk _ FW _ SL HE) as [E1 E2]. cbn [squeeze leaf_toks]. split; [exact E1|]. split; [|exact E2].
    destruct S as (a & z & A & Z & ->). exists (squeeze a), (squeeze z).
    rewrite map_length, !nth_error_map, A, Z, !squeeze_loc. auto.
  - cbn [squeeze]. constructor; [destruct items; [congruence|discriminate]|]. rewrite Forall_map.
    eapply Forall_impl; [|exact F]. intros x Q; apply Q.
  - cbn [squeeze]. apply not_bracket; [reflexivity|]. rewrite Forall_map. eapply Forall_impl; [|exact F]. intros x Q; apply Q.
Qed.

Lemma newline_whole : forall c, is_newline c -> whole c /\ is_newline (squeeze c) /\ apart (squeeze c).
Proof.
  intros c [l ->]. split; [|split].
  - intros after _ _. split; [reflexivity|exact I].
  - eexists; reflexivity.
  - apply apart_leaf.
Qed.

Lemma eoc_whole : forall c, g_expr_or_close c -> whole c /\ g_expr_or_close (squeeze c) /\ apart (squeeze c).
Proof.
  intros c [G|(k & l & -> & H)].
  - destruct (expr_whole c G) as (W & G' & A). split; [exact W|]. split; [left; exact G'|exact A].
  - split; [|split].
    + intros after _ _. split; [|exact I]. destruct H as [<-|[<-|[<-|[]]]]; reflexivity.
    + right. eexists _, _. split; [reflexivity|exact H].
    + apply apart_leaf.
Qed.

Lemma tail_whole : forall cs, g_stmt_tail cs ->
  Forall whole cs /\ g_stmt_tail (map squeeze cs) /\ Forall apart (map squeeze cs).
Proof.
  intros cs T. induction T as [|n x cs N X _ (W & T' & A)]; [repeat split; constructor|].
  destruct (newline_whole n N) as (W1 & N1 & A1). destruct (eoc_whole x X) as (W2 & N2 & A2).
  cbn [map]. split; [auto|]. split; [constructor; assumption|auto].
Qed.

Lemma stmt_whole : forall c, g_stmt c -> whole c /\ g_stmt (squeeze c) /\ apart (squeeze c).
Proof.
  intros c (x & cs & l & -> & G & T). destruct (eoc_whole x G) as (W2 & N2 & A2). destruct (tail_whole cs T) as (W & T' & A).
  split; [|split].
  - intros after [_ SL] HE. change (spans_list (x :: cs) after) in SL.
    destruct (whole_list (x :: cs) (Forall_cons _ W2 W) _ SL HE) as [E1 E2]. split; [exact E1|]. split; [exact I|exact E2].
  - exists (squeeze x), (map squeeze cs), l. auto.
  - apply not_bracket; [reflexivity|]. constructor; assumption.
Qed.

Lemma newlines_whole : forall cs, Forall is_newline cs ->
  Forall whole cs /\ Forall is_newline (map squeeze cs) /\ Forall apart (map squeeze cs).
Proof.
  intros cs H. rewrite !Forall_map. repeat split; (eapply Forall_impl; [|exact H]; intros x N; apply (newline_whole x N)).
Qed.

Lemma paragraphs_whole : forall cs, g_paragraphs cs ->
  Forall whole cs /\ g_paragraphs (map squeeze cs) /\ Forall apart (map squeeze cs).
Proof.
  intros cs H. induction H as [|s n1 n2 ns cs HS H1 H2 H3 H4 (W & P & A)]; [repeat split; constructor|].
  destruct (stmt_whole s HS) as (Ws & Gs & As). destruct (newline_whole n1 H1) as (W1 & N1 & A1).
  destruct (newline_whole n2 H2) as (W2 & N2 & A2). destruct (newlines_whole ns H3) as (W3 & N3 & A3).
  cbn [map]. rewrite map_app. split; [|split].
  - do 3 (constructor; [assumption|]). apply Forall_app. auto.
  - constructor; assumption.
  - do 3 (constructor; [assumption|]). apply Forall_app. auto.
Qed.

(** Statements and documents stand only at the top. *)
Definition small (c : cst) : Prop := forall k cs l, node_of (CInner k cs l) c -> k <> CStmt /\ k <> CDocument.

Lemma small_leaf : forall k v l, small (CLeaf k v l).
Proof. intros k v l k' cs l' N. inversion N. Qed.

Lemma small_inner : forall k cs l, k <> CStmt -> k <> CDocument -> Forall small cs -> small (CInner k cs l).
Proof.
  intros k cs l K1 K2 F k' cs' l' N. inversion N as [|? x ? ? ? I N']; subst; [auto|].
  rewrite Forall_forall in F. exact (F x I _ _ _ N').
Qed.

Lemma item_small : forall c, g_item c \/ g_expr c -> small c.
Proof.
  induction c as [k v l|k cs l IH] using cst_ind'; intro G; [apply small_leaf|].
  rewrite Forall_forall in IH. destruct G as [G|G].
  - inversion G as [l0|s k0 l0 l' H1| | |k0 o cl lo body close l0 H1 H2 H3]; subst.
    + apply small_inner; [discriminate|discriminate|constructor].
    + apply small_inner; [discriminate|discriminate|]. constructor; [apply small_leaf|constructor].
    + apply small_inner; [destruct k; discriminate|destruct k; discriminate|]. rewrite Forall_forall in *.
      intros x I. destruct I as [<-|I]; [apply small_leaf|]. apply in_app_or in I as I'. destruct I' as [I'|I'].
      * destruct (H2 x I') as [Gx|[lx ->]]; [|apply small_leaf]. apply IH; [right; exact I|right; exact Gx].
      * destruct H3 as [->|[lc ->]]; [destruct I'|]. destruct I' as [<-|[]]. apply small_leaf.
  - inversion G as [items l0 NE HF]; subst. apply small_inner; [discriminate|discriminate|]. rewrite Forall_forall in *. auto.
Qed.

Lemma eoc_small : forall c, g_expr_or_close c -> small c.
Proof. intros c [G|(k & l & -> & H)]; [apply item_small; right; exact G|apply small_leaf]. Qed.

Lemma tail_small : forall cs, g_stmt_tail cs -> Forall small cs.
Proof.
  intros cs T. induction T as [|n x cs [l ->] X _ IH]; constructor; [apply small_leaf|]. constructor; [apply eoc_small; exact X|exact IH].
Qed.

Lemma merged_inner : forall k cs l, (k = CStmt \/ k = CDocument -> l = fold_left merge_location (map cst_location cs) mock_location) ->
  Forall merged cs -> merged (CInner k cs l).
Proof.
  intros k cs l H F k' cs' l' N K. inversion N as [|? x ? ? ? I N']; subst; [auto|].
  rewrite Forall_forall in F. exact (F x I _ _ _ N' K).
Qed.

Lemma small_merged : forall c, small c -> merged c.
Proof. intros c H k cs l N K. destruct (H _ _ _ N). tauto. Qed.

Lemma merged_child : forall k cs l, merged (CInner k cs l) -> Forall merged cs.
Proof.
  intros k cs l M. rewrite Forall_forall. intros x I k' cs' l' N K. apply (M k' cs' l'); [eapply N_child; eauto|exact K].
Qed.

Lemma squeeze_locs : forall cs, map cst_location (map squeeze cs) = map cst_location cs.
Proof. intro cs. rewrite map_map. apply map_ext. apply squeeze_loc. Qed.

Lemma stmt_merged : forall c, g_stmt c -> merged c -> merged (squeeze c).
Proof.
  intros c (x & cs & l & -> & G & T) M. cbn [squeeze]. apply merged_inner.
  - intros K. change (squeeze x :: map squeeze cs) with (map squeeze (x :: cs)). rewrite squeeze_locs.
    apply (M CStmt); [apply N_self|exact K].
  - destruct (eoc_whole x G) as (_ & G' & _). destruct (tail_whole cs T) as (_ & T' & _).
    constructor; [apply small_merged, eoc_small; exact G'|].
    eapply Forall_impl; [|apply tail_small; exact T']. intros y Y; apply small_merged; exact Y.
Qed.

Lemma newlines_merged : forall cs, Forall is_newline cs -> Forall merged (map squeeze cs).
Proof.
  intros cs H. rewrite Forall_map. eapply Forall_impl; [|exact H]. intros x [l ->]. apply small_merged, small_leaf.
Qed.

Lemma paragraphs_merged : forall cs, g_paragraphs cs -> Forall merged cs -> Forall merged (map squeeze cs).
Proof.
  intros cs H. induction H as [|s n1 n2 ns cs HS H1 H2 H3 H4 IH]; intro M; [constructor|].
  inversion M as [|? ? M1 M2]; subst. inversion M2 as [|? ? M3 M4]; subst. inversion M4 as [|? ? M5 M6]; subst.
  apply Forall_app in M6 as [M6 M7]. cbn [map]. rewrite map_app.
  constructor; [apply stmt_merged; assumption|].
  destruct H1 as [l1 ->], H2 as [l2 ->]. do 2 (constructor; [apply small_merged, small_leaf|]).
  apply Forall_app. split; [apply newlines_merged; exact H3|apply IH; exact M7].
Qed.

(** The tree without the spaces is the tree of the tokens without the spaces. *)
Theorem tree_strip : forall ts c, tree_of ts c -> tree_of (strip [] false ts) (squeeze c).
Proof.
  intros ts c (G & A & M & rest & -> & S).
  destruct G as (ps & lst & ns & le & l & -> & GP & GL & GN).
  destruct (paragraphs_whole ps GP) as (W1 & P1 & A1). destruct (newlines_whole ns GN) as (W3 & N3 & A3).
  assert (L : Forall whole lst /\ (map squeeze lst = [] \/ exists s, map squeeze lst = [s] /\ g_stmt s) /\ Forall apart (map squeeze lst)).
  { destruct GL as [->|(s & -> & HS)]; [repeat split; constructor; reflexivity|].
    destruct (stmt_whole s HS) as (Ws & Gs & As). split; [auto|]. split; [right; eexists; split; [reflexivity|exact Gs]|]. 
    constructor; [exact As|constructor]. }
  destruct L as (W2 & L2 & A2).
  assert (SQ : squeeze (CInner CDocument (ps ++ lst ++ ns ++ [CLeaf LEOF None le]) l) =
    CInner CDocument (map squeeze ps ++ map squeeze lst ++ map squeeze ns ++ [CLeaf LEOF None le]) l).
  { cbn [squeeze]. rewrite !map_app. reflexivity. }
  pose proof (merged_child _ _ _ M) as MC.
  assert (LOC : l = fold_left merge_location (map cst_location (ps ++ lst ++ ns ++ [CLeaf LEOF None le])) mock_location)
    by (apply (M CDocument); [apply N_self|right; reflexivity]).
  split; [|split; [|split]].
  - rewrite SQ. eexists _, _, _, _, _. split; [reflexivity|]. auto.
  - rewrite SQ. apply not_bracket; [reflexivity|]. repeat (apply Forall_app; split; [assumption|]).
    constructor; [apply apart_leaf|constructor].
  - cbn [squeeze]. apply merged_inner.
    + intros _. rewrite squeeze_locs. exact LOC.
    + apply Forall_app in MC as [M1 MC]. apply Forall_app in MC as [M2 MC]. rewrite !map_app.
      apply Forall_app; split; [apply paragraphs_merged; assumption|].
      apply Forall_app; split.
      * destruct GL as [->|(s & -> & HS)]; [constructor|]. inversion M2; subst. constructor; [apply stmt_merged; assumption|constructor].
      * apply Forall_app; split; [apply newlines_merged; exact GN|]. constructor; [apply small_merged, small_leaf|constructor].
  - exists rest. destruct S as [_ SL].
    change (spans_list (ps ++ lst ++ ns ++ [CLeaf LEOF None le]) rest) in SL.
    replace (ps ++ lst ++ ns ++ [CLeaf LEOF None le]) with ((ps ++ lst ++ ns) ++ [CLeaf LEOF None le]) in SL
      by (rewrite <- !app_assoc; reflexivity).
    apply spans_split in SL as [SL _].
    assert (FW : Forall whole (ps ++ lst ++ ns)) by (repeat (apply Forall_app; split; [assumption|]); assumption).
    destruct (whole_list _ FW _ SL) as [E1 E2]; [left; reflexivity|].
    rewrite SQ. cbn [leaf_toks]. rewrite !flat_map_app in *. cbn [flat_map leaf_toks app leaf_kind] in *. rewrite <- !app_assoc in *. cbn [app] in *.
    rewrite E1. rewrite !map_app, !flat_map_app, <- !app_assoc. split; [reflexivity|].
    split; [exact I|]. change (spans_list (map squeeze ps ++ map squeeze lst ++ map squeeze ns ++ [CLeaf LEOF None le]) rest).
    replace (map squeeze ps ++ map squeeze lst ++ map squeeze ns ++ [CLeaf LEOF None le])
      with ((map squeeze ps ++ map squeeze lst ++ map squeeze ns) ++ [CLeaf LEOF None le])
      by (rewrite <- !app_assoc; reflexivity).
    apply spans_list_app; [|split; exact I]. rewrite !map_app in E2. exact E2.
Qed.

(** ** Readings *)
Lemma filter_squeeze : forall p, (forall c, p (squeeze c) = p c) -> forall cs, filter p (map squeeze cs) = map squeeze (filter p cs).
Proof.
  intros p H cs. induction cs as [|c cs IH]; [reflexivity|]. cbn. rewrite H, IH. destruct (p c); reflexivity.
Qed.

Lemma filter_and : forall (A : Type) (p q : A -> bool) xs, filter (fun x => p x && q x) xs = filter q (filter p xs).
Proof. intros A p q xs. induction xs as [|x xs IH]; [reflexivity|]. cbn. destruct (p x); cbn; rewrite IH; reflexivity. Qed.

Lemma squeeze_inside : forall cs, inside (rebuild [] (keep false (map squeeze (flat cs)))) = map squeeze (inside cs).
Proof.
  intro cs. unfold inside. rewrite rebuild_flat. cbn [app]. rewrite filter_and, keep_visible, <- filter_and.
  apply filter_squeeze. intros [[]|[]]; reflexivity.
Qed.

Lemma squeeze_dot : forall c, good_dot (squeeze c) = good_dot c.
Proof. intros [[]|[]]; reflexivity. Qed.
Lemma squeeze_comma : forall c, is_comma (squeeze c) = is_comma c.
Proof. intros [[]|[]]; reflexivity. Qed.

Lemma squeeze_between : forall cs g, between_commas (map squeeze g) (map squeeze cs) = map (map squeeze) (between_commas g cs).
Proof.
  induction cs as [|c cs IH]; intro g; [reflexivity|]. cbn [map between_commas]. rewrite squeeze_comma.
  destruct (is_comma c); [cbn [map]; rewrite <- IH; reflexivity|].
  rewrite <- IH, map_app. reflexivity.
Qed.

Lemma squeeze_given : forall cs, given (map squeeze cs) = map (map squeeze) (given cs).
Proof.
  intro cs. unfold given. rewrite filter_squeeze by (intro c; rewrite squeeze_dot; reflexivity).
  change (@nil cst) with (map squeeze []) at 1. rewrite squeeze_between.
  induction (between_commas [] _) as [|g gs IH]; [reflexivity|]. cbn [map filter]. rewrite IH.
  destruct g; reflexivity.
Qed.

Lemma squeeze_group : forall g, group_loc (map squeeze g) = group_loc g.
Proof.
  intro g. unfold group_loc. rewrite map_map. f_equal. apply map_ext. intros [[]|]; reflexivity.
Qed.

Lemma F2_squeeze : forall xs ys, Forall2 (fun x a => reads x a /\ reads (squeeze x) a) xs ys -> Forall2 reads (map squeeze xs) ys.
Proof. intros xs ys H. induction H as [|x y xs ys [_ R] _ IH]; constructor; auto. Qed.

Lemma stands_squeeze : forall x, stands (squeeze x) = stands x.
Proof. intro x. unfold stands. rewrite squeeze_dot, squeeze_comma. reflexivity. Qed.

Lemma command_bracket : forall k o c k', command_kind k = Some (o, c, k') -> bracket_of k <> None.
Proof. intros [] o c k' H; try discriminate. Qed.

Theorem reads_squeeze : forall c a, reads c a -> reads (squeeze c) a.
Proof.
  apply (reads_ind' (fun c a => reads (squeeze c) a)).
  - intros k k' s i l H. apply Re_name. exact H.
  - intros s i l l'. apply Re_escape.
  - intros i l. apply Re_nothing.
  - intros k o c k' cs l i hs aas H H1 H2. rewrite squeeze_bracket by (eapply command_bracket; exact H).
    eapply Re_command; [exact H| |].
    + rewrite squeeze_inside, firstn_map, filter_squeeze by exact stands_squeeze. apply F2_squeeze; exact H1.
    + rewrite squeeze_inside, skipn_map, squeeze_given. clear H1.
      induction H2 as [|g a gs as' (i' & xs & -> & F) _ IH]; [constructor|]. constructor; [|exact IH].
      exists i', xs. rewrite squeeze_group. split; [reflexivity|apply F2_squeeze; exact F].
  - intros xs ys i l H. apply Re_expr. apply F2_squeeze. exact H.
  - intros xs ys i l H. apply Re_stmt. rewrite filter_squeeze by (intros [[]|]; reflexivity). apply F2_squeeze. exact H.
  - intros xs ys i l H. apply Re_document. rewrite filter_squeeze by (intros [[]|]; reflexivity). apply F2_squeeze. exact H.
Qed.

(** A tree can be read if the tree without spaces and locations can. *)
Definition back (c : cst) : Prop := forall b, reads (unloc (squeeze c)) b -> exists a, reads c a.

Lemma back_list : forall xs, Forall back xs -> forall bs, Forall2 reads (map (fun c => unloc (squeeze c)) xs) bs ->
  exists ys, Forall2 reads xs ys.
Proof.
  intros xs H. induction H as [|x xs B _ IH]; intros bs F; cbn in F; inversion F; subst; [exists []; constructor|].
  edestruct B as [a A]; [eassumption|]. edestruct IH as [ys Y]; [eassumption|]. exists (a :: ys). constructor; assumption.
Qed.

Lemma between_in : forall cs g0 g x, In g (between_commas g0 cs) -> In x g -> In x g0 \/ In x cs.
Proof.
  induction cs as [|c cs IH]; intros g0 g x G X; cbn in G; [destruct G as [<-|[]]; auto|].
  destruct (is_comma c).
  - destruct G as [<-|G]; [auto|]. destruct (IH _ _ _ G X) as [[]|]; right; right; assumption.
  - destruct (IH _ _ _ G X) as [I|]; [|right; right; assumption]. apply in_app_or in I as [I|[<-|[]]]; [auto|right; left; reflexivity].
Qed.

Lemma given_in : forall cs g x, In g (given cs) -> In x g -> In x cs.
Proof.
  intros cs g x G X. unfold given in G. apply filter_In in G as [G _]. destruct (between_in _ _ _ _ G X) as [[]|I].
  apply filter_In in I. apply I.
Qed.

Lemma reads_back : forall c, back c /\ forall xs l, c = CInner CExpr xs l -> Forall back xs.
Proof.
  induction c as [k v l|k cs l IH] using cst_ind'.
  - split; [|discriminate]. intros b R. cbn in R. inversion R as [k0 k' s i l0 NK| | | | | |]; subst. exists (ALeaf k' i (Some s) l).
    apply Re_name. exact NK.
  - assert (IHb : Forall back cs) by (eapply Forall_impl; [|exact IH]; intros x Q; apply Q).
    split; [|intros xs l' E; injection E as -> -> ->; exact IHb].
    intros b R.
    assert (M : forall xs, map unloc (map squeeze xs) = map (fun c => unloc (squeeze c)) xs) by (intro; apply map_map).
    assert (BI : forall x, In x (inside cs) -> back x).
    { intros x I. unfold inside in I. apply filter_In in I as [I _]. apply in_flat in I as [I|(xs & lx & I & X)].
      - rewrite Forall_forall in IHb. auto.
      - rewrite Forall_forall in IH. pose proof (proj2 (IH _ I) xs lx eq_refl) as Q. rewrite Forall_forall in Q. auto. }
    destruct (command_kind k) as [[[o z] k']|] eqn:CK.
    + rewrite squeeze_bracket in R by (eapply command_bracket; exact CK). cbn [unloc] in R.
      destruct (command_inv _ _ _ _ _ _ _ CK R) as (i2 & hs2 & aas2 & -> & H2 & A2).
      rewrite unloc_inside, squeeze_inside in H2, A2.
      rewrite !firstn_map, filter_unloc in H2 by (intro x; unfold stands; rewrite unloc_dot, unloc_comma; reflexivity).
      rewrite filter_squeeze in H2 by exact stands_squeeze. rewrite M in H2.
      destruct (back_list (filter stands (firstn 3 (inside cs)))) with (bs := hs2) as [hs HS]; [|exact H2|].
      { rewrite Forall_forall. intros x I. apply filter_In in I as [I _]. apply BI. rewrite <- (firstn_skipn 3 (inside cs)). apply in_or_app; auto. }
      rewrite !skipn_map, unloc_given, squeeze_given in A2.
      assert (GB : forall g, In g (given (skipn 3 (inside cs))) -> Forall back g).
      { intros g G. rewrite Forall_forall. intros x X. apply BI. rewrite <- (firstn_skipn 3 (inside cs)). apply in_or_app. right.
        eapply given_in; eassumption. }
      assert (AS : exists aas, Forall2 (fun g a => exists i' as', a = AInner NExpr i' as' (group_loc g) /\ Forall2 reads g as')
        (given (skipn 3 (inside cs))) aas).
      { clear R H2. revert GB aas2 A2. induction (given (skipn 3 (inside cs))) as [|g gs IHg]; intros GB aas2 A2; [exists []; constructor|].
        cbn [map] in A2. inversion A2 as [|? b0 ? bs (i3 & as3 & -> & F3) A3]; subst. rewrite M in F3.
        destruct (back_list g (GB g (or_introl eq_refl)) _ F3) as [ys Y].
        edestruct IHg as [aas AA]; [intros g' I; apply GB; right; exact I|exact A3|].
        exists (AInner NExpr [] ys (group_loc g) :: aas). constructor; [|exact AA]. exists [], ys. auto. }
      destruct AS as [aas AA]. exists (AInner k' [] (hs ++ aas) l). eapply Re_command; eassumption.
    + assert (EB : k = CExpr \/ k = CStmt \/ k = CDocument \/ k = CBackSlash) by (destruct k; try discriminate CK; tauto).
      destruct EB as [-> | [-> | [-> | -> ]]].
      * cbn [squeeze unloc] in R. rewrite M in R. inversion R as [| | | |xs ys i0 l0 F E1 E2| |]; subst; try discriminate.
        destruct (back_list cs IHb _ F) as [zs Z]. exists (AInner NExpr [] zs l). apply Re_expr. exact Z.
      * cbn [squeeze unloc] in R. inversion R as [| | | | |xs ys i0 l0 F E1 E2|]; subst; try discriminate.
        rewrite filter_unloc, filter_squeeze, M in F by (intros [[]|]; reflexivity).
        destruct (back_list (filter inner cs)) with (bs := ys) as [zs Z]; [|exact F|exists (AInner NStmt [] zs l); apply Re_stmt; exact Z].
        rewrite Forall_forall in *. intros x I. apply filter_In in I as [I _]. auto.
      * cbn [squeeze unloc] in R. inversion R as [| | | | | |xs ys i0 l0 F E1 E2]; subst; try discriminate.
        rewrite filter_unloc, filter_squeeze, M in F by (intros [[]|]; reflexivity).
        destruct (back_list (filter inner cs)) with (bs := ys) as [zs Z]; [|exact F|exists (AInner NDocument [] zs l); apply Re_document; exact Z].
        rewrite Forall_forall in *. intros x I. apply filter_In in I as [I _]. auto.
      * cbn [squeeze unloc] in R. destruct cs as [|x [|y cs]].
        -- eexists. apply (Re_nothing []).
        -- destruct x as [|kx vx lx]; [inversion R; discriminate|]. cbn in R.
           inversion R; subst; try discriminate. eexists. apply (Re_escape _ []).
        -- cbn in R. inversion R; discriminate.
Qed.

Lemma bare_erase : forall a, bare (erase a) = bare a.
Proof.
  induction a as [k i v l|k i as' l IH] using ast_ind'; [reflexivity|]. cbn. f_equal. rewrite map_map.
  induction IH as [|x xs H _ IHx]; [reflexivity|]. cbn. rewrite H, IHx. reflexivity.
Qed.

Lemma bare_bare : forall a, bare (bare a) = bare a.
Proof.
  induction a as [k i v l|k i as' l IH] using ast_ind'; [reflexivity|]. cbn. f_equal. rewrite map_map.
  induction IH as [|x xs H _ IHx]; [reflexivity|]. cbn. rewrite H, IHx. reflexivity.
Qed.

Theorem spaces_never_matter : forall uuid ts1 ts2 c1 c2 a1 es1,
  map tk (strip [] false ts1) = map tk (strip [] false ts2) ->
  parse ts1 = Ok c1 -> parse ts2 = Ok c2 -> transform uuid c1 = Ok (a1, es1) ->
  exists a2 es2, transform uuid c2 = Ok (a2, es2) /\ bare a2 = bare a1.
Proof.
  intros uuid ts1 ts2 c1 c2 a1 es1 E P1 P2 T.
  pose proof (proj1 (parse_sound _ _ P1)) as G1. pose proof (proj1 (parse_sound _ _ P2)) as G2.
  assert (U : unloc (squeeze c1) = unloc (squeeze c2)).
  { apply parse_tree, tree_strip, tree_parse in P1, P2. exact (same_kinds _ _ _ _ E P1 P2). }
  pose proof (transform_reads _ _ _ _ G1 T) as R. pose proof (reads_unloc _ _ (reads_squeeze _ _ R)) as R1.
  assert (R2 : reads (unloc (squeeze c2)) (bare a1)) by (rewrite <- U; exact R1).
  destruct (proj1 (reads_back c2) _ R2) as [a2 RA].
  destruct (reads_transform uuid c2 a2 G2 RA) as (b & es & TB & EB).
  exists b, es. split; [exact TB|].
  pose proof (reads_unique _ _ _ R2 (reads_unloc _ _ (reads_squeeze _ _ RA))) as Q.
  apply (f_equal bare) in Q, EB. rewrite !bare_erase, !bare_bare in Q. rewrite !bare_erase in EB. congruence.
Qed.
