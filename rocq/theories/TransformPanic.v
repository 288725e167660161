(** Which token lists make the transformer panic. *)
From Coq Require Import String List NArith ZArith Arith Bool Lia.
From Verif Require Import Base Tokens Graphemes Tokenizer TokenizerRun SpecTok TokenizerProofs
  CST SpecCST Parser ParserProofs ParserTotal ParserAccepts ParserProofs2 ParserWitness
  AST TransformError Transform SpecTransform TransformMeans.
Import ListNotations.

Definition markb (c : cst) : bool :=
  match c with CLeaf (LDot | LComma | LWhitespace) _ _ => true | _ => false end.

Lemma markb_spec : forall c, markb c = true <-> mark c.
Proof.
  intro c. unfold mark, is_leaf. split.
  - destruct c as [k cs l|[] v l]; cbn; try discriminate; eauto 8.
  - intros [(v & l & ->)|[(v & l & ->)|(v & l & ->)]]; reflexivity.
Qed.

Definition at_top (open : list tkind) (b : bool) : bool := match open with [] => b | _ => false end.

(** What follows an unclosed bracket is judged as if the bracket had ended. *)
Lemma outside_unclosed : forall k o cl open t ts, bracket_of k = Some (o, cl) -> tk t <> leaf_kind cl None ->
  In (tk t) [TkAngleClose; TkSquareClose; TkCurlyClose; TkEOF; TkEmpty] ->
  outside (leaf_kind o None :: open) (map tk (t :: ts)) = outside open (map tk (t :: ts)).
Proof.
  intros k o cl open [kt l] ts B N H. cbn in N, H. cbn [map tk].
  destruct k; try discriminate; injection B as <- <-; cbn in N;
    destruct H as [<-|[<-|[<-|[<-|[<-|[]]]]]]; try congruence; reflexivity.
Qed.

Lemma has_eof_app : forall a b, In TkEOF (map tk b) -> In TkEOF (map tk (a ++ b)).
Proof. intros a b H. rewrite map_app. apply in_or_app. right; exact H. Qed.

Lemma outside_walk : forall c,
  (g_item c -> forall after open, spans_ok c after -> In TkEOF (map tk after) ->
     outside open (map tk (leaf_toks c ++ after)) = at_top open (markb c) || outside open (map tk after)) /\
  (g_expr c -> forall after open, spans_ok c after -> In TkEOF (map tk after) ->
     outside open (map tk (leaf_toks c ++ after)) =
     at_top open (match c with CInner _ xs _ => existsb markb xs | _ => false end) || outside open (map tk after)).
Proof.
  induction c as [k v l|k cs l IH] using cst_ind'.
  - split; intro G; [|inversion G]. intros after open _ _.
    inversion G as [| |k' s l' H1|k' l' H1|]; subst;
      destruct H1 as [<-|[<-|[<-|[]]]]; destruct open; reflexivity.
  - split; intro G.
    + inversion G as [l0|s k0 l0 l' H1| | |k0 o cl lo body close l0 H1 H2 H3]; subst; intros after open S HE.
      * destruct S as [S _]. destruct after as [|t ts]; [destruct HE|].
        specialize (S eq_refl t ts eq_refl). cbn [leaf_toks app map tk outside].
        assert (X : existsb (fun e : str * tkind => if tkind_eq_dec (snd e) (tk t) then true else false) escapes = false).
        { rewrite escape_iff. destruct (escapable (tk t)) as [s|] eqn:E; [|reflexivity].
          apply escapable_in in E as [E _]. exfalso. apply S.
          exact (in_map snd _ _ E). }
        rewrite X. destruct open; reflexivity.
      * cbn [leaf_toks app map tk outside].
        assert (X : existsb (fun e : str * tkind => if tkind_eq_dec (snd e) (unescape s) then true else false) escapes = true).
        { cbn in H1. repeat (destruct H1 as [H1|H1]; [injection H1 as <- <-; reflexivity|]). destruct H1. }
        rewrite X. destruct open; reflexivity.
      * assert (LT : leaf_toks (CInner k (CLeaf o None lo :: body ++ close) l) =
                 mktok (leaf_kind o None) lo :: flat_map leaf_toks body ++ flat_map leaf_toks close).
        { rewrite <- flat_map_app. destruct k; try discriminate; reflexivity. }
        rewrite LT. cbn [app map tk].
        assert (OP : outside open (leaf_kind o None :: map tk ((flat_map leaf_toks body ++ flat_map leaf_toks close) ++ after)) =
                outside (leaf_kind o None :: open) (map tk (flat_map leaf_toks body ++ flat_map leaf_toks close ++ after))).
        { rewrite <- app_assoc. destruct k; try discriminate; injection H1 as <- <-; reflexivity. }
        rewrite OP.
        assert (MB : at_top open (markb (CInner k (CLeaf o None lo :: body ++ close) l)) = false) by (destruct open; reflexivity).
        rewrite MB. cbn [orb].
        destruct S as [S SL]. fold (spans_list (CLeaf o None lo :: body ++ close) after) in SL.
        destruct SL as [_ SL]. fold (spans_list (body ++ close) after) in SL.
        assert (BW : outside (leaf_kind o None :: open) (map tk (flat_map leaf_toks body ++ flat_map leaf_toks close ++ after))
                = outside (leaf_kind o None :: open) (map tk (flat_map leaf_toks close ++ after))).
        { apply Forall_inv_tail in IH. apply Forall_app in IH as [IH _].
          clear -IH H2 SL HE. revert IH SL. induction H2 as [|x body Hx H2 IHb]; intros IH SL; [reflexivity|].
          destruct SL as [Sx SL]. fold (spans_list (body ++ close) after) in SL.
          rewrite flat_map_app, <- app_assoc in Sx. cbn [flat_map]. rewrite <- app_assoc.
          destruct Hx as [Hx|[lx ->]].
          - rewrite (proj2 (Forall_inv IH) Hx _ _ Sx); [|do 2 apply has_eof_app; exact HE].
            exact (IHb (Forall_inv_tail IH) SL).
          - exact (IHb (Forall_inv_tail IH) SL). }
        rewrite BW. destruct H3 as [->|[lc ->]].
        -- assert (U : unclosed_end cl l after).
           { destruct k; try discriminate; injection H1 as <- <-; cbn [span_ok] in S;
               destruct S as (o' & c' & a & z & E1 & E2 & E3 & _ & S); injection E1 as <- <-;
               rewrite app_nil_r in E3;
               (destruct body as [|x body] using rev_ind;
                [cbn in E3; injection E3 as <-; exact S|]);
               clear IHbody;
               apply Forall_app in H2 as [_ H2]; apply Forall_inv in H2;
               rewrite app_comm_cons in E3;
               (replace (length ((CLeaf _ None lo :: body) ++ [x]) - 1) with (length (CLeaf LText None lo :: body) + 0)
                  in E3 by (rewrite app_length; cbn; lia));
               rewrite nth_error_app2 in E3 by (cbn; lia);
               (replace (length (CLeaf LText None lo :: body) + 0 - _) with 0 in E3 by (cbn; lia));
               injection E3 as <-;
               (destruct H2 as [H2|[lx ->]]; [inversion H2; subst|]; exact S). }
           destruct U as (t & r & -> & _ & N & U). cbn [flat_map app].
           apply (outside_unclosed k o cl); auto.
        -- cbn [flat_map app leaf_toks map tk].
           destruct k; try discriminate; injection H1 as <- <-; reflexivity.
    + inversion G as [items l0 NE HF]; subst. intros after open S HE.
      destruct S as [_ S]. fold (spans_list cs after) in S. cbn [leaf_toks]. clear NE G.
      induction HF as [|x cs Hx HF IHx]; [destruct open; reflexivity|].
      destruct S as [Sx S]. fold (spans_list cs after) in S.
      cbn [flat_map existsb]. rewrite <- app_assoc.
      rewrite (proj1 (Forall_inv IH) Hx _ _ Sx) by (apply has_eof_app; exact HE).
      rewrite (IHx (Forall_inv_tail IH) S). destruct open, (markb x); reflexivity.
Qed.

(** ** Documents *)
Definition line_marks (e : cst) : bool :=
  match e with CInner CExpr xs _ => existsb markb xs | _ => false end.
Definition stmt_marks (s : cst) : bool :=
  match s with CInner CStmt es _ => existsb line_marks es | _ => false end.

Definition walks (f : cst -> bool) (x : cst) : Prop := forall after,
  spans_ok x after -> In TkEOF (map tk after) ->
  outside [] (map tk (leaf_toks x ++ after)) = f x || outside [] (map tk after).

Lemma walks_list : forall f xs, Forall (walks f) xs -> forall after,
  spans_list xs after -> In TkEOF (map tk after) ->
  outside [] (map tk (flat_map leaf_toks xs ++ after)) = existsb f xs || outside [] (map tk after).
Proof.
  intros f xs H after. induction H as [|x xs Hx H IH]; intros S HE; [reflexivity|].
  destruct S as [Sx S]. fold (spans_list xs after) in S. cbn [flat_map existsb]. rewrite <- app_assoc.
  rewrite Hx, IH; auto using has_eof_app. apply orb_assoc.
Qed.

Lemma newline_walks : forall f x, is_newline x -> f x = false -> walks f x.
Proof. intros f x [l ->] E after _ _. rewrite E. reflexivity. Qed.

Lemma line_walks : forall x, g_expr_or_close x -> walks line_marks x.
Proof.
  intros x [H|(k & l & -> & H)] after S HE.
  - pose proof H as H'. inversion H'; subst. exact (proj2 (outside_walk _) H after [] S HE).
  - destruct H as [<-|[<-|[<-|[]]]]; reflexivity.
Qed.

Lemma stmt_walks : forall s, g_stmt s -> walks stmt_marks s.
Proof.
  intros s (x & cs & l & -> & Hx & Hcs) after [_ S] HE. fold (spans_list (x :: cs) after) in S.
  cbn [leaf_toks stmt_marks]. apply walks_list; auto. constructor; [apply line_walks; exact Hx|].
  clear -Hcs. induction Hcs as [|n y cs Hn Hy _ IH]; constructor;
    [destruct Hn as [l ->]; apply newline_walks; [eexists; reflexivity|reflexivity]|].
  constructor; [apply line_walks; exact Hy|exact IH].
Qed.

Lemma newlines_walk : forall ns, Forall is_newline ns -> Forall (walks stmt_marks) ns.
Proof.
  intros ns H. eapply Forall_impl; [|exact H]. intros x [l ->]. apply newline_walks; [eexists; reflexivity|reflexivity].
Qed.

Lemma existsb_flat_map : forall (A B : Type) (p : B -> bool) (f : A -> list B) l,
  existsb p (flat_map f l) = existsb (fun x => existsb p (f x)) l.
Proof. intros A B p f l. induction l as [|x l IH]; [reflexivity|]. cbn. rewrite existsb_app, IH. reflexivity. Qed.

Lemma doc_marks : forall cs l, existsb markb (top_items (CInner CDocument cs l)) = existsb stmt_marks cs.
Proof.
  intros cs l. unfold top_items, lines. rewrite !existsb_flat_map.
  induction cs as [|s cs IH]; [reflexivity|]. cbn [existsb]. rewrite IH. f_equal.
  destruct s as [[] es ls|k v ls]; try reflexivity. cbn [stmt_marks].
  induction es as [|e es IHe]; [reflexivity|]. cbn [existsb]. rewrite IHe. f_equal.
  destruct e as [[] xs le|k v le]; reflexivity.
Qed.

Theorem parse_outside : forall ts c, parse ts = Ok c ->
  existsb markb (top_items c) = outside [] (map tk ts).
Proof.
  intros ts c H. destruct (parse_sound _ _ H) as (G & rest & -> & S).
  destruct G as (ps & lst & ns & le & l & -> & P & L & N).
  rewrite doc_marks. destruct S as [_ S].
  fold (spans_list (ps ++ lst ++ ns ++ [CLeaf LEOF None le]) rest) in S. cbn [leaf_toks].
  set (xs := ps ++ lst ++ ns).
  assert (E : ps ++ lst ++ ns ++ [CLeaf LEOF None le] = xs ++ [CLeaf LEOF None le]) by (unfold xs; rewrite <- !app_assoc; reflexivity).
  rewrite E in *. rewrite flat_map_app, <- app_assoc. cbn [flat_map leaf_toks app leaf_kind].
  assert (W : Forall (walks stmt_marks) xs).
  { unfold xs. apply Forall_app. split; [|apply Forall_app; split].
    - clear -P. induction P as [|s n1 n2 ns cs Hs H1 H2 Hn _ IH]; [constructor|].
      constructor; [apply stmt_walks; exact Hs|].
      assert (NW : Forall (walks stmt_marks) (n1 :: n2 :: ns)) by (apply newlines_walk; repeat (constructor; auto)).
      inversion NW as [|? ? A B]; subst. inversion B as [|? ? A' B']; subst.
      constructor; [exact A|]. constructor; [exact A'|]. apply Forall_app. split; assumption.
    - destruct L as [->|(s & -> & Hs)]; [constructor|]. constructor; [apply stmt_walks; exact Hs|constructor].
    - apply newlines_walk; exact N. }
  assert (S' : spans_list xs (mktok TkEOF le :: rest)).
  { clear -S. induction xs as [|x xs IH]; [exact I|]. destruct S as [Sx S].
    fold (spans_list (xs ++ [CLeaf LEOF None le]) rest) in S. split; [|apply IH; exact S].
    rewrite flat_map_app, <- app_assoc in Sx. exact Sx. }
  rewrite (walks_list _ _ W _ S') by (left; reflexivity).
  rewrite existsb_app. reflexivity.
Qed.

Theorem panics_outside : forall uuid ts c, parse ts = Ok c ->
  (outside [] (map tk ts) = true /\ exists e, transform uuid c = Panic e) \/
  (outside [] (map tk ts) = false /\ exists a es, transform uuid c = Ok (a, es)).
Proof.
  intros uuid ts c H. rewrite <- (parse_outside _ _ H).
  assert (M : existsb markb (top_items c) = true <-> exists x, In x (top_items c) /\ mark x).
  { rewrite existsb_exists. split; intros (x & A & B); exists x; (split; [exact A|apply markb_spec; exact B]). }
  destruct (transform_panics uuid c (proj1 (parse_sound _ _ H))) as [[X E]|[X E]].
  - left. split; [apply M; exact X|exact E].
  - right. split; [|exact E]. destruct (existsb markb (top_items c)); [exfalso; tauto|reflexivity].
Qed.

(** ** Texts *)
Definition kind_sum (k : tkind) : Z :=
  match k with
  | TkAngleOpen | TkCurlyOpen | TkSquareOpen => 1
  | TkAngleClose | TkCurlyClose | TkSquareClose => -1
  | _ => 0
  end.

(** Marks are cut only while the opening brackets outnumber the closing ones, escaped or not. *)
Fixpoint marks_nested (n : Z) (ks : list tkind) : Prop :=
  match ks with
  | [] => True
  | k :: ks' => (In k [TkDot; TkComma; TkWhiteSpace] -> (n > 0)%Z) /\ marks_nested (n + kind_sum k) ks'
  end.

Lemma choose_mark : forall c c2 look nested,
  In (choose c c2 look nested) [ADot; AComma; ASpace] -> nested = true.
Proof. intros [] [] [] []; vm_compute; intros H; try reflexivity; repeat (destruct H as [H|H]; try discriminate); destruct H. Qed.

Lemma run_marks : forall gs st, marks_nested (g_a st + g_c st + g_s st) (map tk (run gs st)).
Proof.
  induction gs as [|g gs IH]; intro st; cbn [run].
  - cbn. split; [|exact I]. intros H; repeat (destruct H as [H|H]; try discriminate); destruct H.
  - destruct (gcls_eqb (cls g) GNul).
    { cbn. split; [|exact I]. intros H; repeat (destruct H as [H|H]; try discriminate); destruct H. }
    unfold st_arm. destruct (choose (cls g) (cls (hd2 gs)) (g_look st) (g_nested st)) eqn:E; cbn [apply_arm app map];
      try (match goal with |- marks_nested _ (map tk (run gs ?st')) => exact (IH st') end);
      (split; [intro H|match goal with |- marks_nested ?n (map tk (run gs ?st')) =>
          replace n with (g_a st' + g_c st' + g_s st')%Z by (cbn; lia); exact (IH st') end]);
      try (exfalso; cbn in H; repeat (destruct H as [H|H]; try discriminate); exact H);
      assert (X : g_nested st = true) by (eapply choose_mark; rewrite E; cbn; tauto);
      unfold g_nested in X; rewrite Z.gtb_ltb in X; apply Z.ltb_lt in X; lia.
Qed.

Lemma tame_inside : forall ks n open, marks_nested n ks -> tame open ks = true ->
  (n <= Z.of_nat (length open))%Z -> outside open ks = false.
Proof.
  induction ks as [ks IH] using (induction_ltof1 _ (@length tkind)); unfold ltof in IH.
  intros n open M T LE. destruct ks as [|k ks]; [reflexivity|]. destruct M as [MK M].
  assert (ST : forall m open', m = (n + kind_sum k)%Z -> tame open' ks = true ->
                 (m <= Z.of_nat (length open'))%Z -> outside open' ks = false).
  { intros m open' -> T' LE'. eapply IH; [cbn; lia|exact M|exact T'|exact LE']. }
  destruct k; cbn [kind_sum] in *; cbn [outside tame] in *; try reflexivity;
    try (eapply ST; [reflexivity|exact T|cbn [length]; lia]);
    try (destruct open as [|o open]; [exfalso; assert (n > 0)%Z by (apply MK; cbn; tauto); cbn in LE; lia|
         eapply ST; [reflexivity|exact T|lia]]);
    try (destruct open as [|o open]; [cbn in LE; cbn [pop_to]; eapply ST; [reflexivity|exact T|cbn; lia]|];
         destruct o; try discriminate; cbn [pop_to]; eapply ST; [reflexivity|exact T|cbn [length] in LE; lia]).
  destruct ks as [|k ks]; [reflexivity|]. destruct (existsb _ escapes) eqn:X.
  - apply andb_true_iff in T as [T1 T2]. destruct M as [_ M]. eapply IH; [cbn; lia|exact M|exact T2|].
    rewrite escape_iff in X. destruct k; cbn in *; try discriminate; lia.
  - eapply ST; [reflexivity|exact T|lia].
Qed.

Theorem tame_no_panic : forall seg, seg_laws seg -> forall uuid s ts c,
  tokenize_str seg s = Ok ts -> parse ts = Ok c -> tame [] (map tk ts) = true ->
  exists a es, transform uuid c = Ok (a, es).
Proof.
  intros seg L uuid s ts c ET EP T.
  destruct (panics_outside uuid ts c EP) as [[X _]|[_ X]]; [exfalso|exact X].
  rewrite (tokenize_run seg L) in ET. injection ET as <-.
  pose proof (run_marks (seg s) g_init) as M.
  rewrite (tame_inside _ _ _ M T) in X; [discriminate|cbn; lia].
Qed.
