(** How tall the AST of a document is. *)
From Coq Require Import String List NArith Arith Bool Lia.
From Verif Require Import Base Tokens CST AST Parser TransformError Transform ParserProofs ParserProofs2
  SpecTok SpecCST SpecTransform TransformProofs PropsParser SpecSerde.
Import ListNotations.

Lemma list_max_cons : forall x l, list_max (x :: l) = Nat.max x (list_max l).
Proof. reflexivity. Qed.
Lemma list_max_app' : forall a b, list_max (a ++ b) = Nat.max (list_max a) (list_max b).
Proof. induction a as [|x a IH]; intro b; [reflexivity|]. cbn [app]. rewrite !list_max_cons, IH. lia. Qed.

(** The brackets around each other *)
Fixpoint bdepth (c : cst) : nat :=
  match c with
  | CLeaf _ _ _ => 0
  | CInner CBackSlash _ _ => 0
  | CInner (CAngle | CCurly | CSquare) cs _ => S (list_max (map bdepth cs))
  | CInner _ cs _ => list_max (map bdepth cs)
  end.

Definition low (m : nat) (c : cst) : Prop := tall c <= m.

Lemma tall_inner : forall m k cs l, low (S m) (CInner k cs l) <-> Forall (low m) cs.
Proof.
  intros m k cs l. unfold low. cbn [tall]. rewrite <- Nat.succ_le_mono, list_max_le, Forall_map. reflexivity.
Qed.

Lemma low_le : forall m n c, low m c -> m <= n -> low n c.
Proof. unfold low. intros. lia. Qed.
Lemma lows_le : forall m n cs, Forall (low m) cs -> m <= n -> Forall (low n) cs.
Proof. intros m n cs F L. eapply Forall_impl; [|exact F]. intros c H. eapply low_le; eassumption. Qed.

Lemma remove_low : forall m cs, Forall (low m) cs -> Forall (low m) (remove_elements_not_included_ast cs).
Proof. induction 1 as [|c cs C F IH]; cbn; [constructor|]. destruct (not_in_ast c); [assumption|constructor; assumption]. Qed.

Lemma strip_low : forall m cs, Forall (low m) cs -> Forall (low m) (remove_whitespaces_and_newlines cs).
Proof.
  induction 1 as [|c cs C F IH]; cbn [remove_whitespaces_and_newlines]; [constructor|].
  destruct c as [k' cs' l|[] v l]; try (constructor; assumption); assumption.
Qed.

Lemma args_loop_low : forall m rest prev ncs expr pc errs r es,
  args_loop prev rest ncs expr pc errs = Ok (r, es) ->
  Forall (low m) rest -> Forall (low (S m)) ncs -> low (S m) expr -> Forall (low (S m)) r.
Proof.
  intro m.
  assert (Snoc : forall ncs x, Forall (low (S m)) ncs -> low (S m) x -> Forall (low (S m)) (ncs ++ [x]))
    by (intros ncs x N X; apply Forall_app; split; [exact N|constructor; [exact X|constructor]]).
  induction rest as [|c rest IH]; intros prev ncs expr pc errs r es H Cr Cn Ce.
  - cbn [args_loop] in H. apply bind_ok in H as (b & _ & H). injection H as <- <-.
    destruct b; [assumption|apply Snoc; assumption].
  - inversion Cr as [|? ? Cc Cr']; subst.
    assert (Cc' : low (S m) c) by (eapply low_le; [exact Cc|lia]).
    assert (Add : forall errs', (let! expr' := cst_add expr c in args_loop c rest ncs expr' false errs') = Ok (r, es) ->
      Forall (low (S m)) r).
    { intros errs' H'. apply bind_ok in H' as (e' & A & H'). eapply IH; try eassumption.
      destruct expr as [k cs l|]; cbn in A; [|discriminate]. injection A as <-. apply tall_inner in Ce. apply tall_inner.
      apply Forall_app. split; [exact Ce|constructor; [exact Cc|constructor]]. }
    assert (Close : (let! e := no_children expr in
       let (ncs, errors) :=
         if e then if pc then (ncs, errs ++ [(EUnexpectedComma, cst_location prev)]) else (ncs, errs)
         else (ncs ++ [expr], errs) in Ok (ncs ++ [c], errors)) = Ok (r, es) -> Forall (low (S m)) r).
    { intro H'. apply bind_ok in H' as (b & _ & H').
      destruct b; [destruct pc|]; injection H' as <- <-; repeat apply Snoc; assumption. }
    cbn [args_loop] in H. destruct c as [k cs l|[] v l];
      try (eapply Add; exact H); try (apply Close; exact H).
    + eapply IH; eassumption.
    + apply bind_ok in H as (b & _ & H). destruct b.
      * eapply IH; eassumption.
      * eapply IH; try eassumption. apply Snoc; assumption.
Qed.

Lemma valid_arguments_low : forall m cs r es, check_valid_arguments cs = Ok (r, es) ->
  Forall (low m) cs -> Forall (low (S m)) r.
Proof.
  intros m cs r es H F. unfold check_valid_arguments in H.
  destruct cs as [|c0 [|c1 [|c2 [|c3 rest]]]]; try (injection H as <- <-; eapply lows_le; [exact F|lia]).
  assert (F4 : Forall (low m) [c0; c1; c2; c3] /\ Forall (low m) rest).
  { apply Forall_app. exact F. }
  destruct F4 as [F4 Fr]. eapply args_loop_low; [exact H|exact Fr| |].
  - eapply lows_le; [exact F4|lia].
  - unfold low. cbn. lia.
Qed.

Definition shrinks (c : cst) : Prop := forall c' es, simplify c = Ok (c', es) ->
  (g_item c -> low (2 * bdepth c + 1) c' /\ forall cs l, c' <> CInner CExpr cs l)
  /\ (g_expr c -> exists cs l, c' = CInner CExpr cs l /\ Forall (low (2 * bdepth c + 1)) cs).

Lemma simps_forall : forall (P : cst -> cst -> Prop) cs ys es, simps cs = Ok (ys, es) ->
  Forall (fun c => forall c' e, simplify c = Ok (c', e) -> P c c') cs -> Forall2 P cs ys.
Proof.
  intros P. induction cs as [|c cs IH]; intros ys es H F; cbn in H.
  - injection H as <- <-. constructor.
  - apply bind_ok in H as ([c' e] & A & H). apply bind_ok in H as ([r es'] & B & H). injection H as <- <-.
    inversion F; subst. constructor; [eauto|eapply IH; eassumption].
Qed.

Lemma bdepth_le : forall x cs, In x cs -> bdepth x <= list_max (map bdepth cs).
Proof.
  intros x cs I. pose proof (proj1 (list_max_le (map bdepth cs) _) (le_n _)) as F. rewrite Forall_forall in F.
  apply F. apply in_map. exact I.
Qed.

Lemma simplify_low : forall c, shrinks c.
Proof.
  induction c as [k v l|k cs l IH] using cst_ind'; intros c' es H.
  - cbn in H. injection H as <- <-. split; [intros _; split; [unfold low; cbn; lia|discriminate]|intro G; inversion G].
  - split; intro G.
    + inversion G as [l0|s k0 l0 l' I|k0 s l0 I|k0 l0 I|k0 o cl lo body close l0 B F C]; subst.
      * cbn in H. injection H as <- <-. split; [unfold low; cbn; lia|discriminate].
      * cbn in H. injection H as <- <-. split; [unfold low; cbn; lia|discriminate].
      * assert (K : k <> CBackSlash) by (destruct k; discriminate).
        rewrite simplify_inner in H by exact K.
        apply bind_ok in H as ([done errs] & Sim & H).
        assert (D : bdepth (CInner k (CLeaf o None lo :: body ++ close) l)
                    = S (list_max (map bdepth (CLeaf o None lo :: body ++ close)))) by (destruct k; try discriminate; reflexivity).
        rewrite D. set (b := list_max (map bdepth (CLeaf o None lo :: body ++ close))) in *.
        assert (Fd : Forall2 (fun c c' => low (2 * b + 1) c' /\ (forall cs l, c' <> CInner CExpr cs l)
                       \/ exists cs l, c' = CInner CExpr cs l /\ Forall (low (2 * b + 1)) cs)
                     (CLeaf o None lo :: body ++ close) done).
        { eapply simps_forall; [exact Sim|]. rewrite Forall_forall in IH |- *. intros x Ix x' e Hx.
          assert (Leaf : forall k v l, x = CLeaf k v l -> low (2 * b + 1) x' /\ (forall cs l, x' <> CInner CExpr cs l)).
          { intros k1 v1 l1 ->. cbn in Hx. injection Hx as <- <-. split; [unfold low; cbn; lia|discriminate]. }
          destruct Ix as [E|Ix]; [left; symmetry in E; exact (Leaf _ _ _ E)|].
          apply in_app_or in Ix as [Ix|Ix].
          - rewrite Forall_forall in F. destruct (F x Ix) as [Gx|(ln & ->)]; [|left; eapply Leaf; reflexivity].
            right. destruct (IH x) with (c' := x') (es := e) as [_ X]; [right; apply in_or_app; auto|exact Hx|].
            destruct (X Gx) as (ys & ly & -> & Fy). exists ys, ly. split; [reflexivity|].
            eapply lows_le; [exact Fy|]. pose proof (bdepth_le x (CLeaf o None lo :: body ++ close)) as Q.
            fold b in Q. assert (bdepth x <= b) by (apply Q; right; apply in_or_app; auto). lia.
          - left. destruct C as [->|(lc & ->)]; [destruct Ix|]. destruct Ix as [E|[]]. symmetry in E. exact (Leaf _ _ _ E). }
        assert (Fs : Forall (low (2 * b + 1)) (flat_map splice done)).
        { clear -Fd. clearbody b. induction Fd as [|x y xs ys Hxy _ IHd]; [constructor|]. cbn [flat_map]. apply Forall_app. split; [|exact IHd].
          destruct Hxy as [[L N]|(cs & l & -> & Fc)]; [|exact Fc].
          destruct y as [[] ycs yl|]; cbn [splice]; try (constructor; [exact L|constructor]). exfalso. eapply N. reflexivity. }
        assert (Fin : bracket_finish k done errs l = Ok (c', es)) by (destruct k; try discriminate; exact H).
        unfold bracket_finish in Fin. apply bind_ok in Fin as (e0 & _ & Fin). apply bind_ok in Fin as ([csts new] & V & Fin).
        injection Fin as <- <-. apply valid_arguments_low with (m := 2 * b + 1) in V; [|apply strip_low; exact Fs].
        split; [|destruct k; discriminate].
        replace (2 * S b + 1) with (S (S (2 * b + 1))) by lia. apply tall_inner. apply remove_low. exact V.
    + inversion G as [items l0 NE F]; subst. rewrite simplify_inner in H by discriminate.
      apply bind_ok in H as ([done errs] & Sim & H). cbn [finish] in H. injection H as <- <-.
      exists done, l. split; [reflexivity|]. change (bdepth (CInner CExpr cs l)) with (list_max (map bdepth cs)).
      set (b := list_max (map bdepth cs)).
      assert (Fd : Forall2 (fun c c' => low (2 * b + 1) c') cs done).
      { eapply simps_forall; [exact Sim|]. rewrite Forall_forall in IH, F |- *. intros x Ix x' e Hx.
        destruct (IH x Ix x' e Hx) as [X _]. destruct (X (F x Ix)) as [L _]. eapply low_le; [exact L|].
        pose proof (bdepth_le x cs Ix). fold b in H. lia. }
      clear -Fd. clearbody b. induction Fd; constructor; assumption.
Qed.

Lemma aux_height : forall uuid c n a n', aux uuid c n = Ok (a, n') -> height a = tall c.
Proof.
  intros uuid c. induction c as [k v l|k cs l IH] using cst_ind'; intros n a n' H.
  - cbn in H. destruct (aux_leaf k v) as [[k' v']|]; [|discriminate]. injection H as <- <-. reflexivity.
  - rewrite aux_inner_eq in H. destruct (aux_inner k) as [k'|]; [|discriminate].
    apply bind_ok in H as ([r n1] & A & H). injection H as <- <-. cbn [height tall]. f_equal. f_equal.
    revert n r n1 A. induction IH as [|c cs Hc _ IHc]; intros n r n1 A.
    + injection A as <- <-. reflexivity.
    + cbn [auxs] in A. fold (auxs uuid) in A. apply bind_ok in A as ([a n2] & A1 & A).
      apply bind_ok in A as ([r' n3] & A2 & A). injection A as <- <-. cbn [map].
      rewrite (Hc _ _ _ A1), (IHc _ _ _ A2). reflexivity.
Qed.

(** ** Documents *)
Definition line_low (b : nat) (c : cst) : Prop := low (2 * b + 2) c.

Lemma expr_low : forall c c' es, simplify c = Ok (c', es) -> g_expr c -> low (2 * bdepth c + 2) c'.
Proof.
  intros c c' es H G. destruct (simplify_low c c' es H) as [_ X]. destruct (X G) as (cs & l & -> & F).
  replace (2 * bdepth c + 2) with (S (2 * bdepth c + 1)) by lia. apply tall_inner. exact F.
Qed.

Lemma leaf_simplify : forall k v l c' es, simplify (CLeaf k v l) = Ok (c', es) -> tall c' = 1.
Proof. intros k v l c' es H. cbn in H. injection H as <- <-. reflexivity. Qed.

Lemma inner_low : forall m k cs l c' es, k = CStmt \/ k = CDocument ->
  (forall x x' e, In x cs -> simplify x = Ok (x', e) -> low m x') ->
  simplify (CInner k cs l) = Ok (c', es) -> low (S m) c'.
Proof.
  intros m k cs l c' es K F H. rewrite simplify_inner in H by (destruct K as [-> | ->]; discriminate).
  apply bind_ok in H as ([done errs] & Sim & H).
  assert (Fd : Forall2 (fun c c' => low m c') cs done).
  { eapply simps_forall; [exact Sim|]. apply Forall_forall. intros x I x' e Hx. eapply F; eassumption. }
  assert (Fl : Forall (low m) done) by (clear -Fd; induction Fd; constructor; assumption).
  destruct K as [-> | ->]; cbn [finish] in H; injection H as <- <-; apply tall_inner; apply remove_low; exact Fl.
Qed.

Lemma stmt_children : forall cs, g_stmt_tail cs -> Forall (fun x => g_expr x \/ exists k v l, x = CLeaf k v l) cs.
Proof.
  induction 1 as [|n x cs (ln & ->) G T IH]; [constructor|]. constructor; [right; eauto|]. constructor; [|exact IH].
  destruct G as [G|(k & l & -> & _)]; [left; exact G|right; eauto].
Qed.

Lemma stmt_low : forall c c' es, g_stmt c -> simplify c = Ok (c', es) -> low (2 * bdepth c + 3) c'.
Proof.
  intros c c' es (x & cs & l & -> & G & T) H.
  replace (2 * bdepth (CInner CStmt (x :: cs) l) + 3) with (S (2 * bdepth (CInner CStmt (x :: cs) l) + 2)) by lia.
  eapply inner_low; [left; reflexivity| |exact H]. intros y y' e I Hy.
  assert (Q : g_expr y \/ exists k v l, y = CLeaf k v l).
  { destruct I as [<-|I]; [destruct G as [G|(k & l0 & -> & _)]; [left; exact G|right; eauto]|].
    pose proof (stmt_children cs T) as F. rewrite Forall_forall in F. auto. }
  destruct Q as [Q|(k & v & l0 & ->)].
  - eapply low_le; [eapply expr_low; eassumption|]. pose proof (bdepth_le y (x :: cs) I).
    change (bdepth (CInner CStmt (x :: cs) l)) with (list_max (map bdepth (x :: cs))). lia.
  - apply leaf_simplify in Hy. unfold low. lia.
Qed.

Lemma paragraphs_children : forall cs, g_paragraphs cs -> Forall (fun x => g_stmt x \/ exists k v l, x = CLeaf k v l) cs.
Proof.
  induction 1 as [|s n1 n2 ns cs G (l1 & ->) (l2 & ->) N P IH]; [constructor|].
  constructor; [auto|]. constructor; [right; eauto|]. constructor; [right; eauto|]. apply Forall_app. split; [|exact IH].
  eapply Forall_impl; [|exact N]. intros x (l & ->). right. eauto.
Qed.

Lemma document_low : forall c c' es, g_document c -> simplify c = Ok (c', es) -> low (2 * bdepth c + 4) c'.
Proof.
  intros c c' es (ps & last & ns & le & l & -> & P & La & N) H.
  set (cs := ps ++ last ++ ns ++ [CLeaf LEOF None le]) in *.
  replace (2 * bdepth (CInner CDocument cs l) + 4) with (S (2 * bdepth (CInner CDocument cs l) + 3)) by lia.
  eapply inner_low; [right; reflexivity| |exact H]. intros y y' e I Hy.
  assert (Q : g_stmt y \/ exists k v l, y = CLeaf k v l).
  { unfold cs in I. apply in_app_or in I as [I|I]; [pose proof (paragraphs_children ps P) as F; rewrite Forall_forall in F; auto|].
    apply in_app_or in I as [I|I]; [destruct La as [->|(s & -> & G)]; [destruct I|destruct I as [<-|[]]; auto]|].
    apply in_app_or in I as [I|[<-|[]]]; [|right; eauto]. rewrite Forall_forall in N. destruct (N y I) as (l0 & ->). right. eauto. }
  destruct Q as [Q|(k & v & l0 & ->)].
  - eapply low_le; [eapply stmt_low; eassumption|]. pose proof (bdepth_le y cs I).
    change (bdepth (CInner CDocument cs l)) with (list_max (map bdepth cs)). lia.
  - apply leaf_simplify in Hy. unfold low. lia.
Qed.

(** ** Tokens *)
Lemma deepest_ge : forall ks d, d <= deepest d ks.
Proof.
  assert (H : forall n ks d, length ks <= n -> d <= deepest d ks).
  { induction n as [|n IH]; intros [|k ks] d L; cbn [length] in L; try lia; try (cbn; lia).
    destruct k; cbn [deepest]; try (apply IH; lia); try lia; try (etransitivity; [|apply IH; lia]; lia).
    destruct ks as [|k ks]; [lia|]. cbn [length] in L. destruct (existsb _ escapes); apply IH; cbn [length]; lia. }
  intros ks d. apply (H (length ks)). lia.
Qed.

Lemma deepest_mono : forall ks d d', d <= d' -> deepest d ks <= deepest d' ks.
Proof.
  assert (H : forall n ks d d', length ks <= n -> d <= d' -> deepest d ks <= deepest d' ks).
  { induction n as [|n IH]; intros [|k ks] d d' L D; cbn [length] in L; try lia; try (cbn; lia).
    destruct k; cbn [deepest]; try (apply IH; lia); try (apply Nat.max_le_compat; [exact D|apply IH; lia]).
    destruct ks as [|k ks]; [lia|]. cbn [length] in L. destruct (existsb _ escapes); apply IH; cbn [length]; lia. }
  intros ks d d'. apply (H (length ks)). lia.
Qed.

Definition kinds (c : cst) : list tkind := map tk (leaf_toks c).
Definition seen (d : nat) (c : list token) (b : nat) (after : list token) : Prop :=
  exists d', d <= d' /\ d + b <= deepest d (map tk (c ++ after)) /\ deepest d' (map tk after) <= deepest d (map tk (c ++ after)).

Lemma seen_skip : forall d t after, (forall d ks, deepest d (tk t :: ks) = deepest d ks) -> seen d [t] 0 after.
Proof.
  intros d t after H. exists d. cbn [app map]. rewrite H. pose proof (deepest_ge (map tk after) d). repeat split; lia.
Qed.

Lemma seen_app : forall d c1 c2 b1 b2 after, seen d c1 b1 (c2 ++ after) -> (forall d', d <= d' -> seen d' c2 b2 after) ->
  seen d (c1 ++ c2) (Nat.max b1 b2) after.
Proof.
  intros d c1 c2 b1 b2 after (d1 & L1 & B1 & M1) H2. destruct (H2 d1 L1) as (d2 & L2 & B2 & M2).
  exists d2. rewrite <- app_assoc. repeat split; lia.
Qed.

Fixpoint spans_list (cs : list cst) (after : list token) : Prop :=
  match cs with
  | [] => True
  | x :: cs' => spans_ok x (flat_map leaf_toks cs' ++ after) /\ spans_list cs' after
  end.
Lemma spans_inner : forall k cs l after, spans_ok (CInner k cs l) after <-> span_ok k cs l after /\ spans_list cs after.
Proof.
  intros. cbn [spans_ok]. apply and_iff_compat_l. induction cs as [|x cs IH]; [reflexivity|].
  cbn [spans_list]. rewrite IH. reflexivity.
Qed.

Lemma seen_list : forall cs after, spans_list cs after ->
  Forall (fun c => forall after d, spans_ok c after -> seen d (leaf_toks c) (bdepth c) after) cs ->
  forall d, seen d (flat_map leaf_toks cs) (list_max (map bdepth cs)) after.
Proof.
  induction cs as [|c cs IH]; intros after S F d.
  - exists d. cbn [flat_map app map]. pose proof (deepest_ge (map tk after) d). repeat split; cbn; lia.
  - cbn [flat_map map]. rewrite list_max_cons. destruct S as [Sc S]. inversion F; subst. apply seen_app; [auto|]. intros d' _. apply IH; assumption.
Qed.

Lemma escaped_iff : forall k, existsb (fun e => if tkind_eq_dec (snd e) k then true else false) escapes = true
  <-> In k (map snd escapes).
Proof.
  intro k. rewrite existsb_exists, in_map_iff. split; intros (x & A & B).
  - exists x. destruct (tkind_eq_dec (snd x) k); [auto|discriminate].
  - exists x. subst k. split; [exact B|]. destruct (tkind_eq_dec (snd x) (snd x)); [reflexivity|contradiction].
Qed.

Lemma item_seen : forall c, (g_item c \/ g_expr c) -> forall after d, spans_ok c after -> seen d (leaf_toks c) (bdepth c) after.
Proof.
  induction c as [k v l|k cs l IH] using cst_ind'; intros G after d Sp.
  - destruct G as [G|G]; [|inversion G]. cbn [leaf_toks bdepth].
    inversion G as [| |? s ? I|? ? I|]; subst; cbn [In] in I.
    + destruct I as [<-|[<-|[<-|[]]]]; apply seen_skip; reflexivity.
    + destruct I as [<-|[<-|[<-|[]]]]; apply seen_skip; reflexivity.
  - destruct G as [G|G].
    + inversion G as [l0|s k0 l0 l' I|k0 s l0 I|k0 l0 I|k0 o cl lo body close l0 B F C]; subst.
      * apply spans_inner in Sp as [Sp _]. cbn [span_ok] in Sp. cbn [leaf_toks bdepth]. exists d. cbn [app map tk].
        pose proof (deepest_ge (map tk after) d) as Ge.
        assert (E : deepest d (TkBackSlash :: map tk after) = deepest d (map tk after)).
        { destruct after as [|t rest]; [reflexivity|]. cbn [map deepest].
          destruct (existsb _ escapes) eqn:X; [|reflexivity]. apply escaped_iff in X. exfalso. exact (Sp eq_refl t rest eq_refl X). }
        rewrite E. repeat split; lia.
      * cbn [leaf_toks bdepth]. exists d. cbn [app map tk].
        pose proof (deepest_ge (map tk after) d) as Ge.
        assert (E : deepest d (TkBackSlash :: unescape s :: map tk after) = deepest d (map tk after)).
        { cbn [deepest]. replace (existsb _ escapes) with true; [reflexivity|]. symmetry. apply escaped_iff.
          assert (U : unescape s = k0).
          { cbn [escapes In] in I. repeat (destruct I as [I|I]; [injection I as <- <-; reflexivity|]). destruct I. }
          rewrite U. change k0 with (snd (s, k0)). apply in_map. exact I. }
        rewrite E. repeat split; lia.
      * apply spans_inner in Sp as [_ Sp].
        assert (K : leaf_toks (CInner k (CLeaf o None lo :: body ++ close) l) = flat_map leaf_toks (CLeaf o None lo :: body ++ close))
          by (destruct k; try discriminate; reflexivity).
        assert (D : bdepth (CInner k (CLeaf o None lo :: body ++ close) l) = S (list_max (map bdepth body))).
        { assert (Z : list_max (map bdepth close) = 0) by (destruct C as [->|(lc & ->)]; reflexivity).
          assert (Y : list_max (map bdepth (CLeaf o None lo :: body ++ close)) = list_max (map bdepth body)).
          { cbn [map]. rewrite list_max_cons, map_app, list_max_app', Z. cbn [bdepth]. lia. }
          destruct k; try discriminate; cbn [bdepth]; rewrite Y; reflexivity. }
        rewrite K, D. cbn [flat_map leaf_toks app]. rewrite flat_map_app.
        assert (O : forall d ks, deepest d (leaf_kind o None :: ks) = deepest (S d) ks)
          by (destruct k; try discriminate; injection B as <- <-; reflexivity).
        assert (Sb : spans_list body (flat_map leaf_toks close ++ after)).
        { destruct Sp as [_ Sp]. clear -Sp. induction body as [|x body IH]; [exact Logic.I|]. cbn [app spans_list] in *. destruct Sp as [S1 S2].
          split; [|apply IH; exact S2]. rewrite flat_map_app, <- app_assoc in S1. exact S1. }
        assert (Fb : Forall (fun c => forall after d, spans_ok c after -> seen d (leaf_toks c) (bdepth c) after) body).
        { rewrite Forall_forall in IH, F |- *. intros x Ix. destruct (F x Ix) as [Gx|(ln & ->)].
          - apply IH; [right; apply in_or_app; auto|auto].
          - intros af dd _. cbn [leaf_toks bdepth]. apply seen_skip. reflexivity. }
        destruct (seen_list body _ Sb Fb (S d)) as (d1 & L1 & B1 & M1).
        assert (Cl : exists d2, d <= d2 /\ deepest d2 (map tk after) <= deepest d1 (map tk (flat_map leaf_toks close ++ after))).
        { destruct C as [->|(lc & ->)].
          - exists d1. cbn [flat_map app]. split; lia.
          - exists (pred d1). cbn [flat_map leaf_toks app map tk]. split; [lia|].
            assert (X : deepest d1 (leaf_kind cl None :: map tk after) = Nat.max d1 (deepest (pred d1) (map tk after)))
              by (destruct k; try discriminate; injection B as <- <-; reflexivity).
            rewrite X. lia. }
        destruct Cl as (d2 & L2 & M2). exists d2.
        replace (map tk ((mktok (leaf_kind o None) lo :: flat_map leaf_toks body ++ flat_map leaf_toks close) ++ after))
          with (leaf_kind o None :: map tk (flat_map leaf_toks body ++ flat_map leaf_toks close ++ after)) by (cbn [app map tk]; rewrite <- app_assoc; reflexivity).
        rewrite O. repeat split; [exact L2|lia|]. lia.
    + inversion G as [items l0 NE F]; subst. apply spans_inner in Sp as [_ Sp].
      change (leaf_toks (CInner CExpr cs l)) with (flat_map leaf_toks cs). change (bdepth (CInner CExpr cs l)) with (list_max (map bdepth cs)).
      apply seen_list; [exact Sp|]. rewrite Forall_forall in *. intros x Ix. apply IH; auto.
Qed.

(** Outside all brackets a closing bracket may close one of the brackets left open. *)
Definition above (c : list token) (b : nat) (after : list token) : Prop :=
  forall d, exists d', b <= deepest d (map tk (c ++ after)) /\
    deepest d' (map tk after) <= deepest d (map tk (c ++ after)).

Lemma above_list : forall cs after, spans_list cs after ->
  Forall (fun c => forall after, spans_ok c after -> above (leaf_toks c) (bdepth c) after) cs ->
  above (flat_map leaf_toks cs) (list_max (map bdepth cs)) after.
Proof.
  induction cs as [|c cs IH]; intros after Sp F d.
  - exists d. cbn. split; lia.
  - cbn [flat_map map]. rewrite list_max_cons. destruct Sp as [Sc Sp]. inversion F as [|? ? Fc Fs]; subst.
    destruct (Fc _ Sc d) as (d1 & B1 & M1). destruct (IH after Sp Fs d1) as (d2 & B2 & M2).
    exists d2. rewrite <- app_assoc. split; lia.
Qed.

Lemma eoc_above : forall c, g_expr_or_close c \/ is_newline c -> forall after, spans_ok c after ->
  above (leaf_toks c) (bdepth c) after.
Proof.
  intros c [[G|(k & l & -> & I)]|(l & ->)] after Sp d.
  - destruct (item_seen c (or_intror G) after d Sp) as (d' & L & B & M). exists d'. split; lia.
  - exists (pred d). cbn [bdepth leaf_toks app map tk]. split; [lia|].
    cbn [In] in I. destruct I as [<-|[<-|[<-|[]]]]; cbn [leaf_kind deepest]; lia.
  - exists d. cbn. split; lia.
Qed.

Lemma stmt_above : forall c, g_stmt c -> forall after, spans_ok c after -> above (leaf_toks c) (bdepth c) after.
Proof.
  intros c (x & cs & l & -> & G & T) after Sp. apply spans_inner in Sp as [_ Sp].
  apply (above_list (x :: cs) after Sp). constructor; [apply eoc_above; auto|].
  clear -T. induction T as [|n y cs N G T IH]; constructor; [apply eoc_above; auto|]. constructor; [apply eoc_above; auto|exact IH].
Qed.

Lemma document_above : forall c, g_document c -> forall after, spans_ok c after -> above (leaf_toks c) (bdepth c) after.
Proof.
  intros c (ps & last & ns & le & l & -> & P & La & N) after Sp. apply spans_inner in Sp as [_ Sp].
  apply (above_list (ps ++ last ++ ns ++ [CLeaf LEOF None le]) after Sp).
  assert (Nl : forall ns, Forall is_newline ns -> Forall (fun c => forall after, spans_ok c after -> above (leaf_toks c) (bdepth c) after) ns).
  { intros ns0 F. eapply Forall_impl; [|exact F]. intros x Hx. apply eoc_above. auto. }
  apply Forall_app. split; [|apply Forall_app; split; [|apply Forall_app; split]].
  - induction P as [|s n1 n2 ns1 cs G N1 N2 Ns P IH]; [constructor|]. constructor; [apply stmt_above; exact G|].
    constructor; [apply eoc_above; auto|]. constructor; [apply eoc_above; auto|]. apply Forall_app. split; [auto|].
    apply IH. clear -Sp Ns. cbn [app spans_list] in Sp. destruct Sp as (_ & _ & _ & Sp).
    induction ns1 as [|n ns1 IHn]; [exact Sp|]. cbn [app spans_list] in Sp. inversion Ns; subst. apply IHn; [assumption|apply Sp].
  - destruct La as [->|(s & -> & G)]; constructor; [apply stmt_above; exact G|constructor].
  - auto.
  - constructor; [|constructor]. intros af _ d. exists d. cbn. split; lia.
Qed.

(** The AST of a document whose brackets nest [n] deep is at most [2n + 4] tall. *)
Lemma parse_depth : forall ts c, parse ts = Ok c -> bdepth c <= deepest 0 (map tk ts).
Proof.
  intros ts c H. destruct (C14_spans ts c H) as (rest & E & Sp). pose proof (C12_cst_grammar ts c H) as G.
  destruct (document_above c G rest Sp 0) as (d' & B & _). rewrite E. exact B.
Qed.

Lemma transform_height : forall uuid ts c a es, parse ts = Ok c -> transform uuid c = Ok (a, es) ->
  height a <= 2 * deepest 0 (map tk ts) + 4.
Proof.
  intros uuid ts c a es P T. unfold transform in T. apply bind_ok in T as ([c' es'] & S & T).
  apply bind_ok in T as ([a' n] & A & T). cbn in T. injection T as <- <-.
  rewrite (aux_height _ _ _ _ _ A). pose proof (parse_depth ts c P).
  pose proof (document_low c c' es' (C12_cst_grammar ts c P) S) as L. unfold low in L. lia.
Qed.
