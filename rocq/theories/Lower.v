(** The same tokens further down: the same tree and the same errors, further down. *)
From Coq Require Import String List NArith Arith Bool Lia.
From Verif Require Import Base Tokens CST SpecTok SpecCST Parser ParserProofs ParserTotal ParserAccepts ParserProofs2
  ParserLocations SpecTree ParserTree AST TransformError SpecTransform SpecReads SpecStrip
  SpecJoin Transform TransformProofs TransformErrors TransformKinds ReadsProofs Relocate StripProofs.
Import ListNotations.

Section Lower.
  Variable n : nat.
  Notation sl := (lower_loc n).
  Definition st (t : token) : token := shift_tok n 0 t.
  Notation se := (lower_error n).
  Definition near (a b : list terror) : Prop := map sight a = map sight (map se b).

  Lemma st_kind : forall ts, map tk (map st ts) = map tk ts.
  Proof. intro ts. rewrite map_map. reflexivity. Qed.

  Lemma shift_pos_eq : forall p, shift_pos n 0 p = mkpos (pline p + n) (pchar p).
  Proof. intros [a b]. unfold shift_pos. cbn. destruct (a =? 0); [rewrite Nat.add_0_r|]; reflexivity. Qed.

  Lemma compare_shift : forall a b, Nat.compare (a + n) (b + n) = Nat.compare a b.
  Proof.
    intros a b. destruct (Nat.compare a b) eqn:E; [apply Nat.compare_eq_iff in E; apply Nat.compare_eq_iff
      |apply Nat.compare_lt_iff in E; apply Nat.compare_lt_iff|apply Nat.compare_gt_iff in E; apply Nat.compare_gt_iff]; lia.
  Qed.

  Lemma merge_shift : forall a b, lstart (merge_location (sl a) (sl b)) = lstart (sl (merge_location a b)).
  Proof.
    intros [[a1 a2] [a3 a4]] [[b1 b2] [b3 b4]]. unfold merge_location, lower_loc. rewrite !shift_pos_eq. cbn [lstart lend pline pchar].
    rewrite !compare_shift. destruct (Nat.compare a1 b1); [destruct (Nat.compare a2 b2)|..]; reflexivity.
  Qed.

  Lemma near_eq : forall a b, a = map se b -> near a b.
  Proof. intros a b ->. reflexivity. Qed.
  Lemma near_app : forall a b c d, near a b -> near c d -> near (a ++ c) (b ++ d).
  Proof. unfold near. intros a b c d H1 H2. rewrite !map_app, H1, H2. reflexivity. Qed.

  Fixpoint low (c : cst) : cst :=
    match c with
    | CInner k cs l => CInner k (map low cs) (sl l)
    | CLeaf k v l => CLeaf k v (sl l)
    end.

  Lemma low_location : forall c, cst_location (low c) = sl (cst_location c).
  Proof. intros []; reflexivity. Qed.

  Lemma flat_map_low : forall cs, Forall (fun c => leaf_toks (low c) = map st (leaf_toks c)) cs ->
    flat_map leaf_toks (map low cs) = map st (flat_map leaf_toks cs).
  Proof.
    intros cs H. induction H as [|x cs Hx _ IH]; [reflexivity|]. cbn. rewrite map_app, Hx, IH. reflexivity.
  Qed.

  Lemma low_toks : forall c, leaf_toks (low c) = map st (leaf_toks c).
  Proof.
    induction c as [k v l|k cs l IH] using cst_ind'; [reflexivity|].
    destruct k; cbn [low leaf_toks]; try (apply flat_map_low; exact IH).
    cbn [map]. f_equal. destruct cs as [|[k cs' l'|[] [s|] l'] [|y cs]]; reflexivity.
  Qed.

  Lemma low_list_toks : forall cs, flat_map leaf_toks (map low cs) = map st (flat_map leaf_toks cs).
  Proof. intro cs. apply flat_map_low. rewrite Forall_forall. intros c _. apply low_toks. Qed.

  Lemma low_newline : forall c, is_newline c -> is_newline (low c).
  Proof. intros c [l ->]. eexists. reflexivity. Qed.

  Lemma low_newlines : forall cs, Forall is_newline cs -> Forall is_newline (map low cs).
  Proof. intros cs H. rewrite Forall_map. eapply Forall_impl; [|exact H]. apply low_newline. Qed.

  Lemma low_g : forall c, (g_item c -> g_item (low c)) /\ (g_expr c -> g_expr (low c)).
  Proof.
    induction c as [k v l|k cs l IH] using cst_ind'.
    - split; intro G; [|inversion G]. inversion G; subst; constructor; assumption.
    - rewrite Forall_forall in IH. split; intro G.
      + inversion G as [l0|s k0 l0 l' H1| | |k0 o cl lo body close l0 H1 H2 H3]; subst.
        * constructor.
        * eapply G_escaped1. exact H1.
        * cbn [low map]. rewrite map_app. eapply G_bracket; [exact H1| |].
          -- rewrite Forall_forall in *. intros y Y. apply in_map_iff in Y as (x & <- & I).
             destruct (H2 x I) as [G2|N]; [left|right; apply low_newline; exact N].
             apply IH; [|exact G2]. right. apply in_or_app. auto.
          -- destruct H3 as [->|[lc ->]]; [left; reflexivity|right; eexists; reflexivity].
      + inversion G as [items l0 NE HF]; subst. cbn [low]. constructor.
        * destruct cs; [congruence|discriminate].
        * rewrite Forall_forall in *. intros y Y. apply in_map_iff in Y as (x & <- & I). apply IH; auto.
  Qed.

  Lemma low_eoc : forall c, g_expr_or_close c -> g_expr_or_close (low c).
  Proof.
    intros c [G|(k & l & -> & H)]; [left; apply low_g; exact G|right]. eexists _, _. split; [reflexivity|exact H].
  Qed.

  Lemma low_tail : forall cs, g_stmt_tail cs -> g_stmt_tail (map low cs).
  Proof. intros cs T. induction T as [|m y cs N Y _ IH]; constructor; auto using low_newline, low_eoc. Qed.

  Lemma low_two : forall cs, two_exprs (map low cs) = two_exprs cs.
  Proof.
    assert (E : forall c, is_expr (low c) = is_expr c) by (intros [[]|]; reflexivity).
    induction cs as [|a [|b r] IH]; [reflexivity|reflexivity|].
    cbn [map two_exprs] in *. rewrite IH, !E. reflexivity.
  Qed.

  Lemma node_low : forall c m, node_of m (low c) -> exists m0, node_of m0 c /\ m = low m0.
  Proof.
    induction c as [k v l|k cs l IH] using cst_ind'; intros m N.
    - inversion N; subst. exists (CLeaf k v l). split; [apply N_self|reflexivity].
    - inversion N as [|? x ? ? ? I N']; subst; [exists (CInner k cs l); split; [apply N_self|reflexivity]|].
      apply in_map_iff in I as (y & <- & I). rewrite Forall_forall in IH.
      destruct (IH y I m N') as (m0 & N0 & ->). exists m0. split; [eapply N_child; eauto|reflexivity].
  Qed.

  Lemma low_apart : forall c, apart c -> apart (low c).
  Proof.
    intros c A k cs l N B. apply node_low in N as ([k0 cs0 l0|] & N & E); [|discriminate]. injection E as -> -> ->.
    rewrite low_two. exact (A _ _ _ N B).
  Qed.

  Lemma low_spans : forall c after, spans_ok c after -> spans_ok (low c) (map st after).
  Proof.
    induction c as [k v l|k cs l IH] using cst_ind'; intros after S; [exact I|].
    destruct S as [S SL]. cbn [low spans_ok]. split.
    - assert (N0 : forall i x, nth_error cs i = Some x -> nth_error (map low cs) i = Some (low x)).
      { intros i x E. rewrite nth_error_map, E. reflexivity. }
      assert (U : forall cl, unclosed_end cl l after -> unclosed_end cl (sl l) (map st after)).
      { intros cl (t & r & -> & EL & K & E). exists (st t), (map st r). split; [reflexivity|].
        split; [cbn; rewrite EL; reflexivity|]. split; [exact K|].
        intro HE. apply E. rewrite st_kind in HE. exact HE. }
      assert (BR : bracket_of k <> None -> span_ok k (map low cs) (sl l) (map st after)).
      { intro B. destruct k; try (exfalso; apply B; reflexivity);
          (destruct S as (o & cl & a & z & E & A & Z & EL & R); exists o, cl, (low a), (low z);
           rewrite map_length, low_location; do 3 (split; [auto|]); split; [cbn; rewrite EL; reflexivity|];
           destruct z as [kz cz lz|kz vz lz]; cbn [low]; [auto|]; 
           destruct kz, cl; auto; cbn; rewrite R; reflexivity). }
      destruct k; try (apply BR; discriminate); try exact I.
      + destruct S as (a & z & A & Z & EL). exists (low a), (low z). rewrite map_length, !low_location.
        split; [auto|]. split; [auto|]. rewrite EL. reflexivity.
      + intros E t r E2. cbn [span_ok] in S. destruct cs; [|discriminate]. destruct after as [|t0 r0]; [discriminate|].
        injection E2 as <- <-. exact (S eq_refl t0 r0 eq_refl).
    - fold (spans_list cs after) in SL. change (spans_list (map low cs) (map st after)).
      clear S. induction IH as [|x cs Hx _ IHc]; [exact I|]. destruct SL as [S1 S2]. split; [|apply IHc; exact S2].
      rewrite low_list_toks, <- map_app. apply Hx. exact S1.
  Qed.

  (** ** Statements and documents: their location is made anew *)
  Definition refold (k : ckind) (cs : list cst) : cst :=
    CInner k cs (fold_left merge_location (map cst_location cs) mock_location).
  Definition low_stmt (c : cst) : cst := match c with CInner CStmt cs _ => refold CStmt (map low cs) | _ => low c end.
  Definition low_doc (c : cst) : cst := match c with CInner k cs _ => refold k (map low_stmt cs) | _ => low c end.

  Lemma low_stmt_toks : forall c, leaf_toks (low_stmt c) = map st (leaf_toks c).
  Proof. intro c. rewrite <- low_toks. destruct c as [[]|]; reflexivity. Qed.

  Lemma low_stmts_toks : forall cs, flat_map leaf_toks (map low_stmt cs) = map st (flat_map leaf_toks cs).
  Proof. induction cs as [|x cs IH]; [reflexivity|]. cbn. rewrite map_app, low_stmt_toks, IH. reflexivity. Qed.

  Lemma low_stmt_g : forall c, g_stmt c -> g_stmt (low_stmt c).
  Proof.
    intros c (x & cs & l & -> & G & T). eexists (low x), (map low cs), _.
    split; [reflexivity|]. split; [apply low_eoc; exact G|apply low_tail; exact T].
  Qed.

  Lemma low_stmt_newline : forall c, is_newline c -> is_newline (low_stmt c).
  Proof. intros c [l ->]. eexists. reflexivity. Qed.

  Lemma low_stmt_newlines : forall cs, Forall is_newline cs -> Forall is_newline (map low_stmt cs).
  Proof. intros cs H. rewrite Forall_map. eapply Forall_impl; [|exact H]. apply low_stmt_newline. Qed.

  Lemma low_doc_g : forall c, g_document c -> g_document (low_doc c).
  Proof.
    intros c (ps & lst & ns & le & l & -> & GP & GL & GN).
    eexists (map low_stmt ps), (map low_stmt lst), (map low_stmt ns), (sl le), _.
    split; [cbn; rewrite !map_app; reflexivity|]. split; [|split].
    - induction GP as [|s n1 n2 ms cs HS H1 H2 H3 H4 IH]; [constructor|]. cbn [map]. rewrite map_app.
      constructor; auto using low_stmt_newline, low_stmt_g, low_stmt_newlines.
    - destruct GL as [->|(s & -> & HS)]; [left; reflexivity|right; eexists; split; [reflexivity|apply low_stmt_g; exact HS]].
    - apply low_stmt_newlines; exact GN.
  Qed.

  Lemma low_stmt_apart : forall c, apart c -> apart (low_stmt c).
  Proof.
    intros c A. destruct c as [[] cs l|k v l]; try (apply low_apart; exact A).
    apply not_bracket; [reflexivity|]. apply apart_children in A. rewrite Forall_map. eapply Forall_impl; [|exact A].
    exact low_apart.
  Qed.

  Lemma low_small : forall c, small c -> small (low c).
  Proof.
    intros c S k cs l N. apply node_low in N as ([k0 cs0 l0|] & N & E); [|discriminate]. injection E as -> -> ->.
    exact (S _ _ _ N).
  Qed.

  Lemma low_stmt_merged : forall c, g_stmt c \/ small c -> merged (low_stmt c).
  Proof.
    intros c [(x & cs & l & -> & G & T)|S].
    - apply merged_inner; [auto|]. 
      assert (F : Forall small (x :: cs)) by (constructor; [apply eoc_small; exact G|apply tail_small; exact T]).
      rewrite Forall_map. eapply Forall_impl; [|exact F]. intros y Y. apply small_merged, low_small; exact Y.
    - destruct c as [[] cs l|k v l]; try (apply small_merged, low_small; exact S).
      destruct (S _ _ _ (N_self _)) as [X _]. congruence.
  Qed.

  Lemma low_stmt_spans : forall c after, spans_ok c after -> spans_ok (low_stmt c) (map st after).
  Proof.
    intros c after S. apply low_spans in S. destruct c as [[] cs l|k v l]; exact S.
  Qed.

  Lemma paragraphs_parts : forall ps, g_paragraphs ps -> Forall (fun c => g_stmt c \/ small c) ps.
  Proof.
    assert (NL : forall c, is_newline c -> g_stmt c \/ small c) by (intros c [l ->]; right; apply small_leaf).
    intros ps H. induction H as [|s n1 n2 ms cs HS H1 H2 H3 H4 IH]; [constructor|].
    constructor; [auto|]. constructor; [auto|]. constructor; [auto|]. apply Forall_app. split; [|exact IH].
    eapply Forall_impl; [|exact H3]. exact NL.
  Qed.

  Lemma document_parts : forall k cs l, g_document (CInner k cs l) -> k = CDocument /\ Forall (fun c => g_stmt c \/ small c) cs.
  Proof.
    intros k cs l (ps & lst & ns & le & l' & E & GP & GL & GN). injection E as -> -> ->. split; [reflexivity|].
    apply Forall_app. split; [apply paragraphs_parts; exact GP|]. apply Forall_app. split.
    - destruct GL as [->|(s & -> & HS)]; repeat constructor. exact HS.
    - apply Forall_app. split; [|constructor; [right; apply small_leaf|constructor]].
      eapply Forall_impl; [|exact GN]. intros c [lc ->]. right. apply small_leaf.
  Qed.

  Theorem low_tree : forall ts c, tree_of ts c -> tree_of (map st ts) (low_doc c).
  Proof.
    intros ts c (G & A & M & rest & -> & S). split; [apply low_doc_g; exact G|].
    destruct c as [k cs l|k v l]; [|destruct G as (? & ? & ? & ? & ? & E & _); discriminate E].
    destruct (document_parts _ _ _ G) as [-> P]. split; [|split].
    - apply not_bracket; [reflexivity|]. apply apart_children in A. rewrite Forall_map. eapply Forall_impl; [|exact A].
      exact low_stmt_apart.
    - apply merged_inner; [auto|]. rewrite Forall_map. eapply Forall_impl; [|exact P]. exact low_stmt_merged.
    - exists (map st rest). rewrite map_app. split.
      + f_equal. symmetry. apply low_stmts_toks.
      + split; [exact I|]. destruct S as [_ S]. change (spans_list cs rest) in S. change (spans_list (map low_stmt cs) (map st rest)).
        clear - S. induction cs as [|x cs IH]; [exact I|]. destruct S as [S1 S2]. split; [|apply IH; exact S2].
        rewrite low_stmts_toks, <- map_app. apply low_stmt_spans. exact S1.
  Qed.

  (** ** Errors *)
  Lemma low_flat : forall cs, flat (map low cs) = map low (flat cs).
  Proof.
    induction cs as [|x cs IH]; [reflexivity|]. unfold flat in *. cbn [map flat_map]. rewrite map_app, <- IH. f_equal.
    destruct x as [[]|]; reflexivity.
  Qed.

  Lemma low_face : forall c, face (low c) = low (face c).
  Proof. intros [[] [|x cs] l|k v l]; reflexivity. Qed.

  Lemma low_faces : forall cs, map face (map low cs) = map low (map face cs).
  Proof. intro cs. rewrite !map_map. apply map_ext. exact low_face. Qed.

  Lemma low_item_loc : forall c, item_loc (low c) = sl (item_loc c).
  Proof. intro c. rewrite <- !face_loc, low_face, low_location. reflexivity. Qed.

  Lemma low_unclosed : forall c, near (unclosed (low c)) (unclosed c).
  Proof.
    intros [k cs l|k v l]; [|reflexivity]. cbn [unclosed low]. rewrite low_flat.
    destruct (not_closed k) as [e|] eqn:E; [|reflexivity]. destruct (flat cs) as [|o r]; [reflexivity|].
    change (map low (o :: r)) with (low o :: map low r). cbv iota beta.
    replace (last (low o :: map low r) (low o)) with (low (last (o :: r) o)) by (symmetry; exact (TransformErrors.last_map _ _ low (o :: r) o)).
    assert (C : forall x, closes k (low x) = closes k x) by (intros [[]|[]]; reflexivity).
    rewrite C, low_location, low_item_loc. destruct (closes k (last (o :: r) o)) eqn:EC; [reflexivity|].
    unfold near. cbn [map]. f_equal. unfold sight, lower_error. cbn [fst snd]. rewrite merge_shift. f_equal.
    destruct k; try discriminate; injection E as <-; reflexivity.
  Qed.

  Lemma low_head : forall cs, head_errors (map low cs) = map se (head_errors cs).
  Proof.
    intro cs. unfold head_errors. rewrite !map_app.
    unfold check_if_module_or_angle_bracket, check_if_dot, check_if_ident_or_angle_bracket, check_unexpected_dot.
    rewrite !nth_error_map. f_equal; [|f_equal; [|f_equal]].
    - destruct (nth_error cs 1) as [[[]|[]]|]; reflexivity.
    - destruct (nth_error cs 2) as [[[]|[]]|]; reflexivity.
    - destruct (nth_error cs 3) as [[[]|[]]|]; reflexivity.
    - rewrite skipn_map. induction (skipn 3 cs) as [|x xs IH]; [reflexivity|]. cbn [map flat_map]. rewrite IH, map_app. f_equal.
      destruct x as [[]|[]]; reflexivity.
  Qed.

  Lemma low_strip : forall cs, TransformProofs.strip (map low cs) = map low (TransformProofs.strip cs).
  Proof.
    unfold TransformProofs.strip. induction cs as [|x cs IH]; [reflexivity|].
    destruct x as [[]|[]]; cbn; rewrite IH; reflexivity.
  Qed.

  Lemma low_args : forall rest p es es' l l' pc, (es = [] <-> es' = []) ->
    snd (args_pure (low p) (map low rest) es' l' pc) = map se (snd (args_pure p rest es l pc)).
  Proof.
    assert (AP : forall (xs ys : list cst) x y, xs ++ [x] = [] <-> ys ++ [y] = []).
    { intros xs ys x y. split; intro H; apply app_eq_nil in H as [_ H]; discriminate. }
    induction rest as [|c rest IH]; intros p es es' l l' pc H; [reflexivity|]. cbn [map].
    destruct c as [k cs lc|k v lc].
    - cbn [low args_pure]. apply (IH (CInner k cs lc)). apply AP.
    - destruct k; cbn [low args_pure]; try (apply (IH (CLeaf _ v lc)); apply AP).
      + destruct es, es'; try (pose proof (proj1 H eq_refl); discriminate); try (pose proof (proj2 H eq_refl); discriminate);
          destruct pc; cbn [snd map]; rewrite ?low_location; reflexivity.
      + destruct es, es'; try (pose proof (proj1 H eq_refl); discriminate); try (pose proof (proj2 H eq_refl); discriminate);
          destruct pc; cbn [snd map]; rewrite ?low_location; reflexivity.
      + destruct es, es'; try (pose proof (proj1 H eq_refl); discriminate); try (pose proof (proj2 H eq_refl); discriminate);
          destruct pc; cbn [snd map]; rewrite ?low_location; reflexivity.
      + specialize (IH (CLeaf LDot v lc) es es' l l' pc H). cbn [low] in IH.
        destruct (args_pure (CLeaf LDot v (sl lc)) (map low rest) es' l' pc), (args_pure (CLeaf LDot v lc) rest es l pc).
        cbn [snd map] in IH |- *. rewrite IH. reflexivity.
      + destruct es as [|e0 es], es' as [|e1 es']; try (pose proof (proj1 H eq_refl); discriminate); try (pose proof (proj2 H eq_refl); discriminate).
        * specialize (IH (CLeaf LComma v lc) [] [] l l' pc H). cbn [low] in IH.
          destruct (args_pure (CLeaf LComma v (sl lc)) (map low rest) [] l' pc), (args_pure (CLeaf LComma v lc) rest [] l pc).
          cbn [snd map] in IH |- *. rewrite IH. reflexivity.
        * specialize (IH (CLeaf LComma v lc) [] [] mock_location mock_location true (conj (fun x => x) (fun x => x))). cbn [low] in IH.
          destruct (args_pure (CLeaf LComma v (sl lc)) (map low rest) [] mock_location true), (args_pure (CLeaf LComma v lc) rest [] mock_location true).
          cbn [snd map] in IH |- *. exact IH.
  Qed.

  Lemma low_cva : forall cs, snd (cva (map low cs)) = map se (snd (cva cs)).
  Proof.
    intros [|c0 [|c1 [|c2 [|c3 rest]]]]; try reflexivity. cbn [map cva].
    pose proof (low_args rest c3 [] [] mock_location mock_location false (conj (fun x => x) (fun x => x))) as E.
    destruct (args_pure (low c3) (map low rest) [] mock_location false), (args_pure c3 rest [] mock_location false). exact E.
  Qed.

  Lemma low_own : forall c, near (own (low c)) (own c).
  Proof.
    intros [k cs l|k v l]; [|reflexivity]. unfold own. cbn [low].
    destruct (not_closed k) eqn:E.
    - change (CInner k (map low cs) (sl l)) with (low (CInner k cs l)).
      rewrite low_flat, low_faces, low_head, low_strip, low_cva.
      apply near_app; [apply low_unclosed|]. rewrite <- map_app. apply near_eq. reflexivity.
    - destruct k, cs; reflexivity.
  Qed.

  Definition errors_of (c : cst) : list terror := flat_map own (cst_nodes c).

  Lemma low_errors : forall c, near (errors_of (low c)) (errors_of c).
  Proof.
    unfold errors_of. induction c as [k v l|k cs l IH] using cst_ind'; [reflexivity|].
    change (cst_nodes (low (CInner k cs l))) with (flat_map cst_nodes (map low cs) ++ [low (CInner k cs l)]).
    change (cst_nodes (CInner k cs l)) with (flat_map cst_nodes cs ++ [CInner k cs l]).
    rewrite !flat_map_app. apply near_app.
    - induction IH as [|x cs Hx _ IHc]; [reflexivity|]. cbn [map flat_map]. rewrite !flat_map_app. apply near_app; assumption.
    - cbn [flat_map]. rewrite !app_nil_r. apply low_own.
  Qed.

  Lemma low_stmt_errors : forall c, near (errors_of (low_stmt c)) (errors_of c).
  Proof.
    intro c. pose proof (low_errors c) as H. destruct c as [[] cs l|k v l]; try exact H.
    unfold errors_of in *. cbn [low_stmt refold low cst_nodes] in *. rewrite !flat_map_app in *. exact H.
  Qed.

  Lemma errors_list : forall k cs l, k = CDocument -> errors_of (CInner k cs l) = flat_map errors_of cs.
  Proof.
    intros k cs l ->. unfold errors_of. cbn [cst_nodes]. rewrite flat_map_app. cbn [flat_map own not_closed bad_escape app].
    rewrite app_nil_r. induction cs as [|x cs IH]; [reflexivity|]. cbn [flat_map]. rewrite flat_map_app, IH. reflexivity.
  Qed.

  Theorem low_doc_errors : forall c, g_document c -> near (errors_of (low_doc c)) (errors_of c).
  Proof.
    intros c G. destruct c as [k cs l|k v l]; [|destruct G as (? & ? & ? & ? & ? & E & _); discriminate E].
    destruct (document_parts _ _ _ G) as [-> _]. cbn [low_doc]. unfold refold. rewrite !errors_list by reflexivity.
    clear G. induction cs as [|x cs IH]; [reflexivity|]. cbn [map flat_map]. apply near_app; [apply low_stmt_errors|exact IH].
  Qed.
End Lower.
