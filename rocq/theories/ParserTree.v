(** The parser finds the one tree of the tokens. *)
From Coq Require Import String List NArith Arith Bool Lia.
From Verif Require Import Base Tokens CST SpecTok SpecCST Parser ParserProofs ParserTotal ParserAccepts ParserProofs2
  ParserLocations SpecTree.
Import ListNotations.

Lemma apart_child : forall k cs l x, apart (CInner k cs l) -> In x cs -> apart x.
Proof. intros k cs l x H I k' cs' l' N. apply (H k' cs' l'). eapply N_child; eauto. Qed.

Lemma apart_children : forall k cs l, apart (CInner k cs l) -> Forall apart cs.
Proof. intros k cs l H. rewrite Forall_forall. intros x I. eapply apart_child; eauto. Qed.

Lemma apart_leaf : forall k v l, apart (CLeaf k v l).
Proof. intros k v l k' cs l' N. inversion N. Qed.

Lemma has_eof_app : forall a b, has_eof b -> has_eof (a ++ b).
Proof. intros a b H. unfold has_eof. rewrite map_app. apply in_or_app. right. exact H. Qed.

Lemma bstop_stop : forall ts, bstop ts -> stop ts.
Proof. intros [|t ts]; [auto|]. cbn. tauto. Qed.

Lemma stop_item : forall n ts, stop ts -> item_parse (S (S n)) ts = Err [].
Proof.
  intros n [|[k l] ts] H; [destruct H|]. rewrite item_parse_eq. cbn in H.
  destruct H as [<-|[<-|[<-|[<-|[<-|[<-|[]]]]]]]; reflexivity.
Qed.

Lemma stop_loop : forall n e ts, stop ts -> expr_loop (S (S (S n))) e ts = Ok (e, ts).
Proof. intros n e ts H. rewrite expr_loop_S, stop_item by exact H. reflexivity. Qed.

Lemma escapable_of : forall s k, In (s, k) escapes -> escapable (unescape s) = Some s.
Proof.
  intros s k H. cbn in H. repeat (destruct H as [H|H]; [injection H as <- <-; reflexivity|]). destruct H.
Qed.

Lemma not_escapable : forall k, ~ In k (map snd escapes) -> escapable k = None.
Proof. intros k H. destruct k; try reflexivity; exfalso; apply H; cbn; tauto. Qed.

Lemma bk_of : forall k o c, bracket_of k = Some (o, c) ->
  exists b, k = nkind b /\ o = oleaf b /\ c = zleaf b.
Proof.
  intros k o c H. destruct k; try discriminate; injection H as <- <-;
    [exists KAngle|exists KCurly|exists KSquare]; auto.
Qed.

Lemma b_toks : forall b cs l, leaf_toks (CInner (nkind b) cs l) = flat_map leaf_toks cs.
Proof. intros [] cs l; reflexivity. Qed.

Lemma o_kind : forall b, leaf_kind (oleaf b) None = okind b.
Proof. intros []; reflexivity. Qed.
Lemma z_kind : forall b, leaf_kind (zleaf b) None = zkind b.
Proof. intros []; reflexivity. Qed.

Lemma spans_split : forall a b after, spans_list (a ++ b) after ->
  spans_list a (flat_map leaf_toks b ++ after) /\ spans_list b after.
Proof.
  induction a as [|x a IH]; intros b after H; [split; [exact I|exact H]|].
  destruct H as [H1 H2]. destruct (IH _ _ H2) as [A B]. split; [|exact B]. split; [|exact A].
  rewrite flat_map_app, <- app_assoc in H1. exact H1.
Qed.

Lemma last_snoc : forall (A : Type) (a : list A) z, nth_error (a ++ [z]) (length (a ++ [z]) - 1) = Some z.
Proof.
  intros A a z. rewrite app_length. cbn [length]. rewrite Nat.add_sub, nth_error_app2 by lia.
  rewrite Nat.sub_diag. reflexivity.
Qed.

Lemma two_tail : forall a r, two_exprs (a :: r) = false -> two_exprs r = false.
Proof. intros a r H. cbn in H. apply orb_false_iff in H. tauto. Qed.

Lemma two_app : forall a b, two_exprs (a ++ b) = false -> two_exprs a = false.
Proof.
  induction a as [|x a IH]; intros b H; [reflexivity|]. destruct a as [|y a]; [reflexivity|].
  cbn [app two_exprs] in *. apply orb_false_iff in H as [H1 H2]. rewrite H1. cbn [orb].
  exact (IH b H2).
Qed.

(** What a closing span says about the end of a bracket node. *)
Lemma span_closed : forall b cs lc l after,
  span_ok (nkind b) (cs ++ [CLeaf (zleaf b) None lc]) l after ->
  exists a, nth_error (cs ++ [CLeaf (zleaf b) None lc]) 0 = Some a /\ l = mkloc (lstart (cst_location a)) (lend lc).
Proof.
  intros b cs lc [sl el] after H.
  assert (X : exists o cl a z, bracket_of (nkind b) = Some (o, cl) /\
    nth_error (cs ++ [CLeaf (zleaf b) None lc]) 0 = Some a /\
    nth_error (cs ++ [CLeaf (zleaf b) None lc]) (length (cs ++ [CLeaf (zleaf b) None lc]) - 1) = Some z /\
    lstart (mkloc sl el) = lstart (cst_location a) /\
    match z with
    | CLeaf kz _ lz => if match kz, cl with
                          | LAngleClose, LAngleClose | LCurlyClose, LCurlyClose
                          | LSquareClose, LSquareClose => true | _, _ => false end
                       then lend (mkloc sl el) = lend lz
                       else unclosed_end cl (mkloc sl el) after
    | _ => unclosed_end cl (mkloc sl el) after
    end) by (destruct b; exact H).
  destruct X as (o & cl & a & z & B & A & Z & S & E). rewrite last_snoc in Z. injection Z as <-.
  exists a. split; [exact A|]. cbn in S. subst sl.
  destruct b; injection B as <- <-; cbn in E; subst el; reflexivity.
Qed.

Lemma span_open : forall b lo body l after, Forall body_elem body ->
  span_ok (nkind b) (CLeaf (oleaf b) None lo :: body) l after ->
  lstart l = lstart lo /\ unclosed_end (zleaf b) l after.
Proof.
  intros b lo body l after F H.
  assert (X : exists o cl a z, bracket_of (nkind b) = Some (o, cl) /\
    nth_error (CLeaf (oleaf b) None lo :: body) 0 = Some a /\
    nth_error (CLeaf (oleaf b) None lo :: body) (length (CLeaf (oleaf b) None lo :: body) - 1) = Some z /\
    lstart l = lstart (cst_location a) /\
    match z with
    | CLeaf kz _ lz => if match kz, cl with
                          | LAngleClose, LAngleClose | LCurlyClose, LCurlyClose
                          | LSquareClose, LSquareClose => true | _, _ => false end
                       then lend l = lend lz
                       else unclosed_end cl l after
    | _ => unclosed_end cl l after
    end) by (destruct b; exact H).
  destruct X as (o & cl & a & z & B & A & Z & S & E). injection A as <-. split; [exact S|].
  assert (EC : cl = zleaf b) by (destruct b; injection B as _ <-; reflexivity). subst cl.
  assert (K : z = CLeaf (oleaf b) None lo \/ body_elem z).
  { apply nth_error_In in Z. destruct Z as [<-|Z]; [auto|]. rewrite Forall_forall in F. auto. }
  destruct K as [->|[K|[lz ->]]].
  - destruct b; exact E.
  - inversion K; subst. exact E.
  - destruct b; exact E.
Qed.

Lemma span_expr : forall c cs l after, span_ok CExpr (c :: cs) l after ->
  l = mkloc (lstart (cst_location c)) (lend (cst_location (last (c :: cs) c))).
Proof.
  intros c cs l after (a & z & A & Z & ->). injection A as <-.
  replace (length (c :: cs) - 1) with (length cs) in Z by (cbn; lia).
  rewrite (nth_error_last _ c c cs) in Z. injection Z as <-. reflexivity.
Qed.

(** ** Completeness inside expressions *)
Lemma complete : forall n,
  (forall items cs l rest, 4 * length (flat_map leaf_toks items ++ rest) + 3 <= n -> has_eof rest -> stop rest ->
     Forall g_item items -> Forall apart items -> spans_list items rest ->
     exists l', expr_loop n (CInner CExpr cs l) (flat_map leaf_toks items ++ rest) = Ok (CInner CExpr (cs ++ items) l', rest)) /\
  (forall b cs l rest, 4 * length (leaf_toks (CInner (nkind b) cs l) ++ rest) + 1 <= n -> has_eof rest ->
     g_item (CInner (nkind b) cs l) -> apart (CInner (nkind b) cs l) -> spans_ok (CInner (nkind b) cs l) rest ->
     b_parse n b (leaf_toks (CInner (nkind b) cs l) ++ rest) = Ok (CInner (nkind b) cs l, rest)) /\
  (forall body k cs l rest, 4 * length (flat_map leaf_toks body ++ rest) + 4 <= n -> has_eof rest -> bstop rest ->
     Forall body_elem body -> Forall apart body -> two_exprs body = false -> spans_list body rest ->
     exists l', b_loop n (CInner k cs l) (flat_map leaf_toks body ++ rest) = Ok (CInner k (cs ++ body) l', rest)).
Proof.
  induction n as [n IH] using lt_wf_ind. destruct n as [|n].
  { repeat split; intros; lia. }
  split; [|split].
  - intros [|c items] cs l rest L HE ST G A S.
    + cbn [flat_map app]. destruct n as [|[|n]]; try lia. exists l. rewrite app_nil_r. apply stop_loop. exact ST.
    + inversion G as [|? ? G1 G2]; subst. inversion A as [|? ? A1 A2]; subst. destruct S as [S1 S2].
      cbn [flat_map] in *. rewrite <- app_assoc in *.
      set (rest1 := flat_map leaf_toks items ++ rest) in *.
      assert (HE1 : has_eof rest1) by (apply has_eof_app; exact HE).
      destruct n as [|[|n]]; try lia.
      assert (EI : item_parse (S (S n)) (leaf_toks c ++ rest1) = Ok (c, rest1)).
      { rewrite item_parse_eq. inversion G1 as [l0|s k l0 l1 H|k s l0 H|k l0 H|k o cl lo body close l0 H1 H2 H3]; subst c.
        - cbn [leaf_toks app tk escaped_parse]. destruct rest1 as [|t r]; [destruct HE1|].
          destruct S1 as [S1 _]. rewrite (not_escapable (tk t)); [reflexivity|]. exact (S1 eq_refl t r eq_refl).
        - cbn [leaf_toks app tk escaped_parse]. rewrite (escapable_of s k H). reflexivity.
        - destruct H as [<-|[<-|[<-|[]]]]; reflexivity.
        - destruct H as [<-|[<-|[<-|[]]]]; reflexivity.
        - destruct (bk_of _ _ _ H1) as (b & -> & -> & ->).
          assert (EB := proj1 (proj2 (IH (S n) ltac:(lia))) b (CLeaf (oleaf b) None lo :: body ++ close) l0 rest1 ltac:(lia) HE1 G1 A1 S1).
          rewrite b_toks in *. cbn [flat_map leaf_toks app] in *. rewrite o_kind in *.
          destruct b; cbn [tk okind bk]; cbn [okind] in EB; rewrite EB; reflexivity. }
      rewrite expr_loop_S, EI. cbn [cst_add cst_add_opt bind].
      destruct (proj1 (IH (S (S n)) ltac:(lia)) items (cs ++ [c]) (merge_location l (cst_location c)) rest)
        as [l' E]; try assumption.
      { pose proof (g_item_toks _ G1) as NT. unfold rest1 in L. rewrite app_length in L.
        destruct (leaf_toks c); [congruence|]. cbn [length] in L. lia. }
      exists l'. unfold rest1. rewrite E, <- app_assoc. reflexivity.
  - intros b cs l rest L HE G A S.
    inversion G as [l0|s k l0 l1 H|k s l0 H|k l0 H|k o cl lo body close l0 H1 H2 H3]; subst;
      try (destruct b; discriminate).
    destruct (bk_of _ _ _ H1) as (b' & E & -> & ->).
    assert (b' = b) by (destruct b, b'; try discriminate; reflexivity). subst b'. clear E.
    rewrite b_toks in *. cbn [flat_map leaf_toks app] in *. rewrite o_kind in *.
    cbn [b_parse].
    assert (HO : forall ts, b_open_parse b (mktok (okind b) lo :: ts) = Ok (CLeaf (oleaf b) None lo, ts)) by (destruct b; reflexivity).
    rewrite HO. cbn [bind].
    assert (ER : exists l1, cst_add (b_node b) (CLeaf (oleaf b) None lo) =
             Ok (CInner (nkind b) [CLeaf (oleaf b) None lo] l1)) by (destruct b; eexists; reflexivity).
    destruct ER as [l1 ->]. cbn [bind].
    assert (AB : Forall apart body).
    { apply apart_children in A. inversion A as [|? ? _ A']; subst. apply Forall_app in A'. tauto. }
    assert (TB : two_exprs body = false).
    { pose proof (A _ _ _ (N_self _) ltac:(rewrite H1; discriminate)) as T. apply two_tail in T. apply two_app in T. exact T. }
    destruct S as [SP SL]. change (spans_list (CLeaf (oleaf b) None lo :: body ++ close) rest) in SL.
    destruct SL as [_ SL]. change (spans_list (body ++ close) rest) in SL.
    apply spans_split in SL as [SB _]. rewrite flat_map_app, <- app_assoc in *.
    destruct H3 as [->|[lc ->]].
    + cbn [flat_map app] in *. rewrite app_nil_r in *.
      destruct (span_open _ _ _ _ _ H2 SP) as [SS (t & r & -> & SE & SK & SN)]. specialize (SN HE).
      destruct (proj2 (proj2 (IH n ltac:(lia))) body (nkind b) [CLeaf (oleaf b) None lo] l1 (t :: r)) as [l2 E];
        try assumption; [cbn [length] in L; lia|].
      rewrite E. cbn [bind]. rewrite z_kind in SK.
      assert (EZ : exists e, b_close_parse b (t :: r) = Err e).
      { destruct t as [kt lt]. cbn in SN, SK. destruct SN as [<-|[<-|[<-|[<-|[<-|[]]]]]], b; cbn in *; try congruence; eexists; reflexivity. }
      destruct EZ as [e ->]. cbn [bind cst_set_location app]. do 3 f_equal.
      destruct l as [sl el]. cbn in SS, SE. subst. reflexivity.
    + cbn [flat_map leaf_toks app] in *. rewrite z_kind in *.
      destruct (proj2 (proj2 (IH n ltac:(lia))) body (nkind b) [CLeaf (oleaf b) None lo] l1 (mktok (zkind b) lc :: rest)) as [l2 E];
        try assumption; [cbn [length] in L; lia|right; exact HE|destruct b; cbn; tauto|].
      rewrite E. cbn [bind].
      assert (EZ : b_close_parse b (mktok (zkind b) lc :: rest) = Ok (CLeaf (zleaf b) None lc, rest)) by (destruct b; reflexivity).
      rewrite EZ. cbn [cst_add cst_add_opt bind cst_set_location app].
      change (CLeaf (oleaf b) None lo :: body ++ [CLeaf (zleaf b) None lc])
        with ((CLeaf (oleaf b) None lo :: body) ++ [CLeaf (zleaf b) None lc]) in SP.
      destruct (span_closed _ _ _ _ _ SP) as (a & EA & ->). injection EA as <-. reflexivity.
  - intros [|x body] k cs l rest L HE ST G A T S.
    + cbn [flat_map app b_loop] in *. destruct n as [|[|[|n]]]; try lia.
      rewrite stop_loop by (apply bstop_stop; exact ST). cbn [bind expr_finish cst_children new_expr].
      assert (EN : exists e, newline_parse rest = Err e).
      { destruct rest as [|[kt lt] r]; [destruct ST|]. cbn in ST.
        destruct ST as [<-|[<-|[<-|[<-|[<-|[]]]]]]; eexists; reflexivity. }
      destruct EN as [e ->]. exists l. rewrite app_nil_r. reflexivity.
    + inversion G as [|? ? G1 G2]; subst. inversion A as [|? ? A1 A2]; subst. destruct S as [S1 S2].
      change (spans_list body rest) in S2.
      cbn [flat_map] in *. rewrite <- app_assoc in *. set (rest1 := flat_map leaf_toks body ++ rest) in *.
      assert (HE1 : has_eof rest1) by (apply has_eof_app; exact HE).
      cbn [b_loop].
      assert (LT : length rest1 < length (leaf_toks x ++ rest1)).
      { rewrite app_length. assert (leaf_toks x <> []).
        { destruct G1 as [G1|[lx ->]]; [apply g_expr_toks; exact G1|discriminate]. }
        destruct (leaf_toks x); [congruence|]. cbn [length]. lia. }
      destruct G1 as [G1|[lx ->]].
      * destruct G1 as [items lx NE GI].
        assert (ST1 : stop rest1).
        { unfold rest1. destruct body as [|y body]; [apply bstop_stop; exact ST|].
          cbn [two_exprs is_expr andb] in T. apply orb_false_iff in T as [T _].
          inversion G2 as [|? ? [Gy|[ly ->]] _]; subst; [inversion Gy; subst; discriminate T|]. cbn. tauto. }
        destruct S1 as [SP SI]. change (spans_list items rest1) in SI. cbn [leaf_toks] in L, LT |- *.
        destruct (proj1 (IH n ltac:(lia)) items [] mock_location rest1) as [l2 E]; try assumption;
          [lia|eapply apart_children; exact A1|].
        unfold new_expr. rewrite E. cbn [bind app]. unfold expr_finish. cbn [cst_children bind].
        destruct items as [|i0 items]; [congruence|]. cbn [cst_set_location].
        rewrite <- (span_expr _ _ _ _ SP). cbn [cst_add cst_add_opt bind].
        destruct (proj2 (proj2 (IH n ltac:(lia))) body k (cs ++ [CInner CExpr (i0 :: items) lx])
          (merge_location l (cst_location (CInner CExpr (i0 :: items) lx))) rest) as [l3 E3]; try assumption;
          [fold rest1; lia|eapply two_tail; exact T|].
        exists l3. unfold rest1. rewrite E3, <- app_assoc. reflexivity.
      * cbn [leaf_toks app] in *.
        assert (EL : expr_loop n new_expr (mktok (leaf_kind LNewline None) lx :: rest1) = Ok (new_expr, mktok (leaf_kind LNewline None) lx :: rest1)).
        { destruct n as [|[|[|n]]]; try lia. apply stop_loop. cbn. tauto. }
        rewrite EL. cbn [bind expr_finish cst_children new_expr leaf_kind newline_parse cst_add cst_add_opt].
        destruct (proj2 (proj2 (IH n ltac:(lia))) body k (cs ++ [new_newline lx])
          (merge_location l (cst_location (new_newline lx))) rest) as [l3 E3]; try assumption;
          [fold rest1; cbn [length] in L; lia|eapply two_tail; exact T|].
        exists l3. unfold rest1. rewrite E3, <- app_assoc. reflexivity.
Qed.

(** ** Completeness of statements *)
Lemma expr_complete : forall e rest, has_eof rest -> stop rest -> g_expr e -> apart e -> spans_ok e rest ->
  expr_parse (leaf_toks e ++ rest) = Ok (e, rest).
Proof.
  intros e rest HE ST [items l NE GI] A [SP SI]. change (spans_list items rest) in SI.
  unfold expr_parse, fuel_for, new_expr. cbn [leaf_toks].
  destruct (proj1 (complete (4 * length (flat_map leaf_toks items ++ rest) + 4)) items [] mock_location rest)
    as [l2 E]; try assumption; [lia|eapply apart_children; exact A|].
  rewrite E. cbn [bind app]. unfold expr_finish. cbn [cst_children bind].
  destruct items as [|i0 items]; [congruence|]. cbn [cst_set_location].
  rewrite <- (span_expr _ _ _ _ SP). reflexivity.
Qed.

Lemma stop_expr : forall ts, stop ts -> exists e, expr_parse ts = Err e.
Proof.
  intros ts H. unfold expr_parse, fuel_for. rewrite Nat.add_comm. cbn [Nat.add].
  rewrite stop_loop by exact H. eexists. reflexivity.
Qed.

Lemma blocked_eoc : forall ts, blocked ts -> exists e, expr_or_close_parse ts = Err e.
Proof.
  intros ts H. unfold expr_or_close_parse.
  assert (ST : stop ts) by (destruct ts; [auto|]; cbn in *; tauto).
  destruct (stop_expr ts ST) as [e ->].
  destruct ts as [|[k l] ts]; [destruct H|]. cbn in H. destruct H as [<-|[<-|[<-|[]]]]; eexists; reflexivity.
Qed.

Lemma blocked_stmt : forall ts, blocked ts -> exists e, stmt_parse ts = Err e.
Proof. intros ts H. unfold stmt_parse. destruct (blocked_eoc ts H) as [e ->]. eexists; reflexivity. Qed.

Lemma eoc_complete : forall x rest, has_eof rest -> stop rest -> g_expr_or_close x -> apart x -> spans_ok x rest ->
  expr_or_close_parse (leaf_toks x ++ rest) = Ok (x, rest).
Proof.
  intros x rest HE ST [G|(k & l & -> & HK)] A S; unfold expr_or_close_parse.
  - rewrite expr_complete by assumption. reflexivity.
  - assert (X : stop (leaf_toks (CLeaf k None l) ++ rest)).
    { cbn. destruct HK as [<-|[<-|[<-|[]]]]; cbn; tauto. }
    destruct (stop_expr _ X) as [e ->]. destruct HK as [<-|[<-|[<-|[]]]]; reflexivity.
Qed.

(** What can follow a statement. *)
Definition after_stmt (rest : list token) : Prop :=
  (exists l r, rest = mktok TkEOF l :: r) \/ (exists l r, rest = mktok TkNewLine l :: r /\ blocked r).

Lemma after_stop : forall rest, after_stmt rest -> stop rest.
Proof. intros rest [(l & r & ->)|(l & r & -> & _)]; cbn; tauto. Qed.

Lemma tail_stop : forall cs rest, g_stmt_tail cs -> stop rest -> stop (flat_map leaf_toks cs ++ rest).
Proof. intros cs rest H ST. destruct H as [|n x cs [l ->] _ _]; [exact ST|]. cbn. tauto. Qed.

Lemma stmt_loop_complete : forall tail n cs rest, g_stmt_tail tail ->
  length (flat_map leaf_toks tail ++ rest) < n -> has_eof rest -> after_stmt rest ->
  Forall apart tail -> spans_list tail rest ->
  stmt_loop n (CInner CStmt cs (fold_loc cs)) (flat_map leaf_toks tail ++ rest)
  = Ok (CInner CStmt (cs ++ tail) (fold_loc (cs ++ tail)), rest).
Proof.
  intros tail n cs rest G. revert n cs. induction G as [|nl x tail [l ->] GX G IH]; intros n cs L HE AS A S.
  - destruct n as [|n]; [lia|]. cbn [flat_map app stmt_loop]. rewrite app_nil_r.
    destruct AS as [(l & r & ->)|(l & r & -> & B)]; [reflexivity|].
    cbn [newline_parse]. destruct (blocked_eoc r B) as [e ->]. reflexivity.
  - destruct n as [|n]; [lia|]. inversion A as [|? ? _ A']; subst. inversion A' as [|? ? AX A2]; subst.
    destruct S as (_ & SX & S2).
    change (spans_list tail rest) in S2.
    cbn [flat_map leaf_toks app leaf_kind stmt_loop newline_parse] in *. rewrite <- app_assoc in *.
    rewrite eoc_complete; [|apply has_eof_app; exact HE|apply tail_stop; [exact G|apply after_stop; exact AS]|assumption..].
    rewrite add_fold. cbn [bind]. rewrite add_fold. cbn [bind].
    rewrite IH; try assumption.
    + rewrite <- !app_assoc. reflexivity.
    + cbn [length] in L. rewrite app_length in L. lia.
Qed.

Definition stmt_fine (s : cst) : Prop := g_stmt s /\ apart s /\ stmt_folded s.

Lemma stmt_complete : forall s rest, stmt_fine s -> has_eof rest -> after_stmt rest -> spans_ok s rest ->
  stmt_parse (leaf_toks s ++ rest) = Ok (s, rest).
Proof.
  intros s rest ((x & cs & l & -> & GX & GT) & A & F) HE AS S. cbn in F. subst l.
  apply apart_children in A. inversion A as [|? ? AX AT]; subst.
  destruct S as [_ S]. change (spans_list (x :: cs) rest) in S. destruct S as [SX ST]. change (spans_list cs rest) in ST.
  unfold stmt_parse. cbn [leaf_toks flat_map]. rewrite <- app_assoc.
  rewrite eoc_complete; [|apply has_eof_app; exact HE|apply tail_stop; [exact GT|apply after_stop; exact AS]|assumption..].
  cbn [bind]. change new_stmt with (CInner CStmt [] (fold_loc [])). rewrite add_fold. cbn [bind app].
  rewrite (stmt_loop_complete cs _ [x] rest) by (assumption || lia). reflexivity.
Qed.

(** ** Completeness of documents *)
Lemma newlines_complete : forall ns rest, Forall is_newline ns -> not_nl rest ->
  newlines_loop (flat_map leaf_toks ns ++ rest) = (ns, rest).
Proof.
  intros ns rest H NN. induction H as [|x ns [l ->] _ IH].
  - cbn. destruct rest as [|[[] lk] rest]; try reflexivity. exfalso; eapply NN; reflexivity.
  - cbn [flat_map leaf_toks leaf_kind app newlines_loop]. rewrite IH. reflexivity.
Qed.

(** The children of a document before the EOF, in the order in which the parser takes them. *)
Inductive doc_body : bool -> list cst -> Prop :=
| DB_newlines : forall ns, Forall is_newline ns -> doc_body true ns
| DB_end : doc_body false []
| DB_last : forall f s ns, stmt_fine s -> Forall is_newline ns -> doc_body f (s :: ns)
| DB_paragraph : forall f s n1 n2 ns cs, stmt_fine s -> is_newline n1 -> is_newline n2 -> Forall is_newline ns ->
    doc_body false cs -> doc_body f (s :: n1 :: n2 :: ns ++ cs).

Lemma newlines_blocked : forall ns l rest, Forall is_newline ns -> blocked (flat_map leaf_toks ns ++ mktok TkEOF l :: rest).
Proof. intros ns l rest H. destruct H as [|x ns [lx ->] _]; cbn; tauto. Qed.

Lemma body_starts : forall s le rest, stmt_fine s -> not_nl (leaf_toks s ++ mktok TkEOF le :: rest).
Proof.
  intros s le rest ((x & cs & l & -> & GX & _) & _) l2 r E. cbn [leaf_toks flat_map] in E.
  assert (X : exists t ts, leaf_toks x = t :: ts /\ tk t <> TkNewLine).
  { destruct GX as [GX|(k & lk & -> & HK)].
    - destruct GX as [[|i items] l3 NE GI]; [congruence|]. inversion GI as [|? ? G1 _]; subst.
      cbn [leaf_toks flat_map].
      inversion G1 as [l0|sx k l0 l1 H|k sx l0 H|k l0 H|k o cl lo body close l0 H1 H2 H3]; subst.
      + eexists _, _. split; [reflexivity|discriminate].
      + eexists _, _. split; [reflexivity|discriminate].
      + eexists _, _. split; [reflexivity|]. destruct H as [<-|[<-|[<-|[]]]]; discriminate.
      + eexists _, _. split; [reflexivity|]. destruct H as [<-|[<-|[<-|[]]]]; discriminate.
      + destruct (bk_of _ _ _ H1) as (b & -> & -> & ->). rewrite b_toks. eexists _, _. split; [reflexivity|].
        destruct b; discriminate.
    - eexists _, _. split; [reflexivity|]. destruct HK as [<-|[<-|[<-|[]]]]; discriminate. }
  destruct X as (t & ts & X & NT). rewrite X in E. cbn [app] in E. injection E as E _. rewrite E in NT. apply NT. reflexivity.
Qed.

(** The end of [parse], after the loop over the paragraphs. *)
Definition finish (d : cst) (ts1 : list token) : res cst :=
  let! (d, ts2) :=
    (iflet (c1, ts2) := stmt_parse ts1 then let! d := cst_add d c1 in Ok (d, ts2) else Ok (d, ts1)) in
  let (cs, ts3) := newlines_loop ts2 in
  let! d := add_all d cs in
  let! (c, _) := eof_parse ts3 in
  cst_add d c.

Lemma parse_finish : forall ts,
  parse ts = let! (d, ts1) := document_loop (S (length ts)) new_document ts in finish d ts1.
Proof. reflexivity. Qed.

Lemma finish_newlines : forall ns cs le rest, Forall is_newline ns ->
  finish (CInner CDocument cs (fold_loc cs)) (flat_map leaf_toks ns ++ mktok TkEOF le :: rest)
  = Ok (CInner CDocument (cs ++ ns ++ [new_eof le]) (fold_loc (cs ++ ns ++ [new_eof le]))).
Proof.
  intros ns cs le rest H. unfold finish. destruct (blocked_stmt _ (newlines_blocked ns le rest H)) as [e ->].
  cbn [bind]. rewrite newlines_complete; [|exact H|intros l r E; discriminate].
  rewrite add_all_fold. cbn [bind eof_parse]. rewrite add_fold, <- app_assoc. reflexivity.
Qed.

Lemma body_not_nl : forall cs le rest, doc_body false cs -> not_nl (flat_map leaf_toks cs ++ mktok TkEOF le :: rest).
Proof.
  intros cs le rest H l r E. 
  assert (X : forall s tl, stmt_fine s -> not_nl (leaf_toks s ++ tl)).
  { intros s tl HS l2 r2 E2. pose proof (body_starts s le [] HS) as B.
    destruct (leaf_toks s) as [|t ts] eqn:ET.
    - destruct HS as ((x & cs0 & l0 & -> & GX & _) & _). cbn in ET.
      apply app_eq_nil in ET as [ET _]. destruct GX as [GX|(k & lk & -> & _)]; [|discriminate].
      apply (g_expr_toks _ GX ET).
    - cbn in E2. injection E2 as -> _. eapply B. reflexivity. }
  inversion H as [| |f s ns HS HN|f s n1 n2 ns cs' HS H1 H2 H3 H4]; subst.
  - discriminate.
  - cbn in E. rewrite <- app_assoc in E. eapply X; [exact HS|exact E].
  - cbn in E. rewrite <- app_assoc in E. eapply X; [exact HS|exact E].
Qed.

Lemma stmt_not_nil : forall s, stmt_fine s -> leaf_toks s <> [].
Proof.
  intros s ((x & cs0 & l0 & -> & GX & _) & _) ET. cbn in ET.
  apply app_eq_nil in ET as [ET _]. destruct GX as [GX|(k & lk & -> & _)]; [|discriminate].
  apply (g_expr_toks _ GX ET).
Qed.

Lemma document_complete : forall f ds, doc_body f ds -> forall n cs le rest,
  length (flat_map leaf_toks ds ++ mktok TkEOF le :: rest) < n ->
  spans_list ds (mktok TkEOF le :: rest) ->
  (let! (d, ts1) := document_loop n (CInner CDocument cs (fold_loc cs)) (flat_map leaf_toks ds ++ mktok TkEOF le :: rest) in
   finish d ts1) = Ok (CInner CDocument (cs ++ ds ++ [new_eof le]) (fold_loc (cs ++ ds ++ [new_eof le]))).
Proof.
  assert (EMPTY : forall n ns cs le rest, Forall is_newline ns -> 0 < n ->
    (let! (d, ts1) := document_loop n (CInner CDocument cs (fold_loc cs)) (flat_map leaf_toks ns ++ mktok TkEOF le :: rest) in
     finish d ts1) = Ok (CInner CDocument (cs ++ ns ++ [new_eof le]) (fold_loc (cs ++ ns ++ [new_eof le])))).
  { intros n ns cs le rest H L. destruct n as [|n]; [lia|]. cbn [document_loop].
    destruct (blocked_stmt _ (newlines_blocked ns le rest H)) as [e ->]. cbn [bind]. apply finish_newlines. exact H. }
  intros f ds H. induction H as [ns H| |f s ns HS HN|f s n1 n2 ns cs' HS [l1 ->] [l2 ->] H3 H4 IH]; intros n cs le rest L SP.
  - apply EMPTY; [exact H|lia].
  - apply (EMPTY n []); [constructor|lia].
  - destruct SP as [SS SN]. destruct n as [|n]; [lia|].
    assert (HE : forall xs, has_eof (flat_map leaf_toks xs ++ mktok TkEOF le :: rest)).
    { intro xs. apply has_eof_app. left. reflexivity. }
    assert (AS : after_stmt (flat_map leaf_toks ns ++ mktok TkEOF le :: rest)).
    { destruct HN as [|y ns [ly ->] HN]; [left; eexists _, _; reflexivity|].
      right. eexists _, _. split; [reflexivity|]. apply newlines_blocked. exact HN. }
    cbn [flat_map] in *. rewrite <- app_assoc in *. cbn [document_loop].
    rewrite stmt_complete by (assumption || apply HE).
    destruct HN as [|y ns [ly ->] HN].
    + cbn [flat_map app newline_parse bind]. unfold finish.
      rewrite (stmt_complete s (mktok TkEOF le :: rest)) by (assumption || apply (HE [])).
      rewrite add_fold. cbn [bind newlines_loop add_all eof_parse]. rewrite add_fold, <- app_assoc. reflexivity.
    + cbn [flat_map leaf_toks leaf_kind app newline_parse].
      rewrite newlines_complete by (assumption || (intros ? ? Q; discriminate Q)).
      rewrite add_all_fold. cbn [bind].
      rewrite (EMPTY n [] _ le rest (Forall_nil _)).
      * rewrite <- app_assoc. reflexivity.
      * rewrite app_length in L. pose proof (stmt_not_nil s HS). destruct (leaf_toks s); [congruence|]. cbn [length] in L. lia.
  - destruct SP as [SS SN]. destruct n as [|n]; [lia|].
    change (spans_list ([CLeaf LNewline None l1; CLeaf LNewline None l2] ++ ns ++ cs') (mktok TkEOF le :: rest)) in SN.
    apply spans_split in SN as [_ SN]. apply spans_split in SN as [_ SN].
    assert (HE : forall xs, has_eof (flat_map leaf_toks xs ++ mktok TkEOF le :: rest)).
    { intro xs. apply has_eof_app. left. reflexivity. }
    change (s :: CLeaf LNewline None l1 :: CLeaf LNewline None l2 :: ns ++ cs') with
      ([s] ++ (CLeaf LNewline None l1 :: CLeaf LNewline None l2 :: ns ++ cs')) in L |- *.
    rewrite flat_map_app in *. cbn [flat_map] in L |- *. rewrite app_nil_r, <- app_assoc in *. cbn [document_loop].
    rewrite stmt_complete; [|exact HS|apply (HE (CLeaf LNewline None l1 :: CLeaf LNewline None l2 :: ns ++ cs'))| |exact SS].
    2:{ right. eexists _, _. split; [reflexivity|]. cbn. tauto. }
    cbn [leaf_toks leaf_kind app newline_parse].
    change (mktok TkNewLine l2 :: flat_map leaf_toks (ns ++ cs') ++ mktok TkEOF le :: rest)
      with (flat_map leaf_toks (CLeaf LNewline None l2 :: ns ++ cs') ++ mktok TkEOF le :: rest).
    change (CLeaf LNewline None l2 :: ns ++ cs') with ((CLeaf LNewline None l2 :: ns) ++ cs').
    rewrite flat_map_app, <- app_assoc.
    rewrite newlines_complete; [|constructor; [eexists; reflexivity|exact H3]|apply body_not_nl; exact H4].
    rewrite add_all_fold. cbn [bind]. rewrite IH.
    + rewrite <- !app_assoc. reflexivity.
    + rewrite app_length in L. cbn [leaf_toks app length] in L. rewrite flat_map_app, !app_length in L. rewrite app_length. lia.
    + exact SN.
Qed.

Lemma body_of : forall ps last ns, g_paragraphs ps -> (last = [] \/ exists s, last = [s] /\ g_stmt s) ->
  Forall is_newline ns -> Forall apart (ps ++ last ++ ns) -> Forall stmt_folded (ps ++ last ++ ns) ->
  doc_body true (ps ++ last ++ ns) /\ (ps ++ last <> [] -> doc_body false (ps ++ last ++ ns)).
Proof.
  intros ps last ns H HL HN. induction H as [|s n1 n2 ms cs HS H1 H2 H3 H4 IH]; intros A F.
  - destruct HL as [->|(s & -> & HS)]; cbn [app] in *.
    + split; [constructor; exact HN|congruence].
    + inversion A; inversion F; subst. split; [|intros _]; apply DB_last; try assumption; repeat split; assumption.
  - cbn [app] in A, F |- *. rewrite <- app_assoc in A, F |- *.
    inversion A as [|? ? A1 A2]; inversion F as [|? ? F1 F2]; subst.
    inversion A2 as [|? ? _ A3]; inversion F2 as [|? ? _ F3]; subst.
    inversion A3 as [|? ? _ A4]; inversion F3 as [|? ? _ F4]; subst.
    apply Forall_app in A4 as [_ A5]. apply Forall_app in F4 as [_ F5].
    destruct (IH A5 F5) as [_ IHf].
    assert (SF : stmt_fine s) by (repeat split; assumption).
    assert (X : forall f, doc_body f (s :: n1 :: n2 :: ms ++ cs ++ last ++ ns)).
    { intro f. destruct (cs ++ last) as [|z zs] eqn:EZ.
      - apply app_eq_nil in EZ as [-> ->]. cbn [app]. apply DB_last; [exact SF|].
        constructor; [exact H1|]. constructor; [exact H2|]. apply Forall_app. auto.
      - apply DB_paragraph; try assumption. apply IHf. discriminate. }
    split; [apply X|intros _; apply X].
Qed.

Theorem tree_parse : forall ts c, tree_of ts c -> parse ts = Ok c.
Proof.
  intros ts c (G & A & M & rest & -> & S).
  pose proof G as G0. destruct G as (ps & lst & ns & le & l & -> & GP & GL & GN).
  assert (El : l = fold_loc (ps ++ lst ++ ns ++ [new_eof le])) by (apply (M _ _ _ (N_self _)); auto).
  apply apart_children in A as AC.
  assert (F : Forall stmt_folded (ps ++ lst ++ ns ++ [new_eof le])).
  { rewrite Forall_forall. intros x I. destruct x as [[] xs lx|]; cbn; try exact Logic.I.
    apply (M CStmt xs lx); [|auto]. eapply N_child; [exact I|apply N_self]. }
  assert (R : forall X : Type, forall f : list cst -> X, f (ps ++ lst ++ ns ++ [new_eof le]) = f ((ps ++ lst ++ ns) ++ [new_eof le])).
  { intros X f. rewrite <- !app_assoc. reflexivity. }
  destruct S as [_ S]. change (spans_list (ps ++ lst ++ ns ++ [new_eof le]) rest) in S.
  rewrite (R _ (fun x => spans_list x rest)) in S. apply spans_split in S as [S _]. cbn [flat_map leaf_toks leaf_kind app] in S.
  change (CLeaf LEOF None le) with (new_eof le) in *.
  rewrite (R _ (Forall apart)) in AC. rewrite (R _ (Forall stmt_folded)) in F. apply Forall_app in AC as [AC _]. apply Forall_app in F as [F _].
  destruct (body_of ps lst ns GP GL GN AC F) as [DB _].
  rewrite parse_finish. cbn [leaf_toks].
  rewrite (R _ (fun x => flat_map leaf_toks x)), flat_map_app, <- app_assoc. cbn [flat_map leaf_toks new_eof leaf_kind app].
  change new_document with (CInner CDocument [] (fold_loc [])).
  rewrite (document_complete true _ DB _ [] le rest) by (assumption || lia).
  subst l. cbn [app]. rewrite <- (R _ (fun x => CInner CDocument x (fold_loc x))). reflexivity.
Qed.

(** ** Soundness: the parser's expressions are as long as possible *)
Lemma apart_inner : forall k cs l, Forall apart cs -> (bracket_of k <> None -> two_exprs cs = false) -> apart (CInner k cs l).
Proof.
  intros k cs l F T k' cs' l' N B. inversion N as [|? x ? ? ? I N']; subst; [auto|].
  rewrite Forall_forall in F. exact (F x I _ _ _ N' B).
Qed.

Lemma escaped_apart : forall ts c rest, escaped_parse ts = Ok (c, rest) -> apart c.
Proof.
  intros [|[k l] ts] c rest H; [discriminate|]. destruct k; try discriminate. cbn in H.
  destruct ts as [|t ts]; [discriminate|].
  destruct (escapable (tk t)); injection H as <- <-; apply apart_inner; try discriminate;
    try (intro X; exfalso; apply X; reflexivity); repeat constructor. apply apart_leaf.
Qed.

Lemma two_snoc : forall a z, two_exprs a = false -> is_expr z = false -> two_exprs (a ++ [z]) = false.
Proof.
  induction a as [|x a IH]; intros z H Z; [cbn; reflexivity|]. destruct a as [|y a].
  - cbn. rewrite Z, andb_false_r. reflexivity.
  - cbn [app two_exprs] in *. apply orb_false_iff in H as [H1 H2]. rewrite H1. cbn [orb]. apply (IH z H2 Z).
Qed.

Definition starts_expr (cs : list cst) : bool := match cs with x :: _ => is_expr x | [] => false end.

Lemma longest : forall n,
  (forall cs l ts e rest, 4 * length ts + 3 <= n -> has_eof ts -> expr_loop n (CInner CExpr cs l) ts = Ok (e, rest) ->
     exists new l', e = CInner CExpr (cs ++ new) l' /\ Forall apart new) /\
  (forall b ts c rest, 4 * length ts + 1 <= n -> has_eof ts -> b_parse n b ts = Ok (c, rest) -> apart c) /\
  (forall k cs l ts c rest, 4 * length ts + 4 <= n -> has_eof ts -> b_loop n (CInner k cs l) ts = Ok (c, rest) ->
     exists new l', c = CInner k (cs ++ new) l' /\ Forall apart new /\ two_exprs new = false /\
       (stop ts -> starts_expr new = false)).
Proof.
  induction n as [n IH] using lt_wf_ind. destruct n as [|n].
  { repeat split; intros; lia. }
  split; [|split].
  - intros cs l ts e rest L HE H. destruct n as [|[|n]]; try lia. rewrite expr_loop_S in H.
    destruct (item_parse (S (S n)) ts) as [[c ts']|?|?|] eqn:E; try discriminate.
    + assert (IA : apart c /\ g_item c /\ ts = leaf_toks c ++ ts').
      { rewrite item_parse_eq in E. destruct ts as [|[k lt] ts1]; [discriminate|].
        destruct k; cbn [tk bk leaf_item] in E; try discriminate;
          try (injection E as <- <-; split; [apply apart_leaf|split; [(apply G_named + apply G_mark); cbn; tauto | reflexivity]]).
        - split; [eapply escaped_apart; exact E|]. apply escaped_good in E as (? & ? & ?). auto.
        - destruct (b_parse (S n) KAngle _) as [[c1 r1]|?|?|] eqn:EB; try discriminate.
          injection E as <- <-. split; [eapply (proj1 (proj2 (IH (S n) ltac:(lia)))); [|exact HE|exact EB]; lia|].
          destruct (proj1 (proj2 (sound _)) _ _ _ _ EB) as (? & ? & ?); auto.
        - destruct (b_parse (S n) KSquare _) as [[c1 r1]|?|?|] eqn:EB; try discriminate.
          injection E as <- <-. split; [eapply (proj1 (proj2 (IH (S n) ltac:(lia)))); [|exact HE|exact EB]; lia|].
          destruct (proj1 (proj2 (sound _)) _ _ _ _ EB) as (? & ? & ?); auto.
        - destruct (b_parse (S n) KCurly _) as [[c1 r1]|?|?|] eqn:EB; try discriminate.
          injection E as <- <-. split; [eapply (proj1 (proj2 (IH (S n) ltac:(lia)))); [|exact HE|exact EB]; lia|].
          destruct (proj1 (proj2 (sound _)) _ _ _ _ EB) as (? & ? & ?); auto. }
      destruct IA as (A & G & ET). cbn [cst_add cst_add_opt bind] in H.
      assert (HE' : has_eof ts').
      { unfold has_eof in *. rewrite ET, map_app in HE. apply in_app_or in HE as [HE|HE]; [|exact HE].
        destruct (g_item_no_eof _ G HE). }
      pose proof (app_lt _ _ _ ET (g_item_toks _ G)) as LT.
      destruct (proj1 (IH (S (S n)) ltac:(lia)) (cs ++ [c]) _ ts' _ _ ltac:(lia) HE' H) as (new & l' & -> & F).
      exists (c :: new), l'. rewrite <- app_assoc. auto.
    + injection H as <- <-. exists [], l. rewrite app_nil_r. auto.
  - intros b ts c rest L HE H. cbn [b_parse] in H. destruct ts as [|t ts]; [discriminate|].
    apply bind_ok in H as ([o ts1] & HO & H).
    assert (EO : ts1 = ts /\ o = CLeaf (oleaf b) None (tl t) /\ tk t <> TkEOF).
    { destruct t as [[] l], b; cbn in HO; try discriminate; injection HO as <- <-; repeat split; discriminate. }
    destruct EO as (-> & -> & NE).
    assert (ER : exists l1, cst_add (b_node b) (CLeaf (oleaf b) None (tl t)) =
             Ok (CInner (nkind b) [CLeaf (oleaf b) None (tl t)] l1)) by (destruct b; eexists; reflexivity).
    destruct ER as [l1 ER]. rewrite ER in H. cbn [bind] in H.
    apply bind_ok in H as ([r1 ts2] & EL & H).
    destruct (proj2 (proj2 (IH n ltac:(lia))) _ _ _ ts _ _ ltac:(cbn [length] in L; lia) (has_eof_tail _ _ HE NE) EL)
      as (new & l' & -> & F & T & _).
    destruct ts2 as [|t2 ts2]; [discriminate|].
    assert (T' : two_exprs ([CLeaf (oleaf b) None (tl t)] ++ new) = false).
    { cbn [app two_exprs is_expr]. rewrite T. destruct new; reflexivity. }
    assert (F' : Forall apart ([CLeaf (oleaf b) None (tl t)] ++ new)) by (constructor; [apply apart_leaf|exact F]).
    destruct (b_close_parse b (t2 :: ts2)) as [[z ts4]|?|?|] eqn:EZ; try discriminate; cbn [cst_add cst_add_opt bind cst_set_location] in H;
      injection H as <- <-; apply apart_inner; auto.
    + rewrite app_comm_cons. apply Forall_app. split; [exact F'|]. repeat constructor.
      destruct t2 as [[] lz], b; cbn in EZ; try discriminate; injection EZ as <- <-; apply apart_leaf.
    + intros _. rewrite app_comm_cons. apply two_snoc; [exact T'|].
      destruct t2 as [[] lz], b; cbn in EZ; try discriminate; injection EZ as <- <-; reflexivity.
  - intros k cs l ts c rest L HE H. cbn [b_loop] in H.
    destruct (let! (e, ts') := expr_loop n new_expr ts in expr_finish e ts') as [[c1 ts1]|?|?|] eqn:E; try discriminate.
    + assert (NS : ~ stop ts).
      { intro ST. destruct n as [|[|[|n]]]; try lia. rewrite stop_loop in E by exact ST. discriminate. }
      apply bind_ok in E as ([e1 ts2] & E1 & E2).
      destruct (proj1 (acc n) [] mock_location ts ltac:(lia) HE) as (new0 & l0 & rest0 & E0 & HE0 & ST0 & _).
      unfold new_expr in E1. rewrite E0 in E1. injection E1 as <- <-.
      destruct (proj1 (IH n ltac:(lia)) _ _ ts _ _ ltac:(lia) HE E0) as (new & l' & EQ & F).
      injection EQ as EQ _. subst new0.
      destruct (proj1 (sound n) _ _ _ _ _ E0) as (new1 & l1 & EQ & G). cbn [app] in EQ. injection EQ as EQ _. subst new1.
      destruct (expr_finish_good _ _ _ _ _ _ E2 G) as (-> & G1 & G2 & G3).
      pose proof (app_lt _ _ _ G2 (g_expr_toks _ G1)) as LT.
      assert (A1 : apart c1 /\ is_expr c1 = true).
      { unfold expr_finish in E2. cbn in E2. destruct new as [|i new]; [discriminate|]. injection E2 as <-.
        split; [|reflexivity]. apply apart_inner; [exact F|]. intro X. exfalso. apply X. reflexivity. }
      cbn [cst_add cst_add_opt bind] in H.
      destruct (proj2 (proj2 (IH n ltac:(lia))) _ _ _ rest0 _ _ ltac:(lia) HE0 H) as (new' & l2 & -> & F' & T' & S').
      exists (c1 :: new'), l2. rewrite <- app_assoc. split; [reflexivity|]. split; [constructor; tauto|]. split.
      * cbn [two_exprs]. rewrite T'. specialize (S' ST0). destruct new' as [|y new']; [reflexivity|]. cbn in S'.
        rewrite S', andb_false_r. reflexivity.
      * intro ST. contradiction.
    + destruct (newline_parse ts) as [[c1 ts1]|?|?|] eqn:EN; try discriminate.
      * apply newline_good in EN as (ln & -> & ->). cbn [cst_add cst_add_opt bind] in H.
        destruct (proj2 (proj2 (IH n ltac:(lia))) _ _ _ ts1 _ _ ltac:(cbn [length] in L; lia)
          (has_eof_tail _ _ HE ltac:(discriminate)) H) as (new' & l2 & -> & F' & T' & _).
        exists (new_newline ln :: new'), l2. rewrite <- app_assoc. split; [reflexivity|].
        split; [constructor; [apply apart_leaf|exact F']|]. split; [|reflexivity].
        cbn [two_exprs is_expr new_newline]. rewrite T'. destruct new'; reflexivity.
      * injection H as <- <-. exists [], l. rewrite app_nil_r. auto.
Qed.

Lemma expr_longest : forall ts c rest, has_eof ts -> expr_parse ts = Ok (c, rest) -> apart c.
Proof.
  intros ts c rest HE H. unfold expr_parse, fuel_for in H. apply bind_ok in H as ([e ts1] & E1 & E2).
  unfold new_expr in E1. destruct (proj1 (longest (4 * length ts + 4)) _ _ ts _ _ ltac:(lia) HE E1) as (new & l' & -> & F).
  unfold expr_finish in E2. cbn in E2. destruct new as [|i new]; [discriminate|]. injection E2 as <- <-.
  apply apart_inner; [exact F|]. intro X. exfalso. apply X. reflexivity.
Qed.

Lemma eoc_longest : forall ts c rest, has_eof ts -> expr_or_close_parse ts = Ok (c, rest) -> apart c /\ has_eof rest.
Proof.
  intros ts c rest HE H. destruct (eoc_acc ts HE) as [[[e E] _]|(c' & r' & p' & E & HR & _)]; rewrite H in E; [discriminate|].
  injection E as <- <-. split; [|exact HR]. unfold expr_or_close_parse in H.
  destruct (expr_parse ts) as [[c1 r1]|?|?|] eqn:EE; try discriminate.
  - injection H as -> ->. exact (expr_longest _ _ _ HE EE).
  - destruct ts as [|[k l] ts]; [discriminate|]. destruct k; cbn in H; try discriminate; injection H as <- <-; apply apart_leaf.
Qed.

Lemma not_bracket : forall k cs l, bracket_of k = None -> Forall apart cs -> apart (CInner k cs l).
Proof. intros k cs l B F. apply apart_inner; [exact F|]. intro X. contradiction. Qed.

Lemma stmt_loop_longest : forall n cs l ts c rest, has_eof ts -> Forall apart cs ->
  stmt_loop n (CInner CStmt cs l) ts = Ok (c, rest) -> apart c.
Proof.
  induction n as [|n IH]; intros cs l ts c rest HE F H; [discriminate|]. cbn [stmt_loop] in H.
  assert (STOP : apart (CInner CStmt cs l)) by (apply not_bracket; auto).
  destruct (newline_parse ts) as [[c1 ts1]|?|?|] eqn:EN; try discriminate; [|injection H as <- _; exact STOP].
  destruct (expr_or_close_parse ts1) as [[c2 ts2]|?|?|] eqn:EE; try discriminate; [|injection H as <- _; exact STOP].
  apply newline_good in EN as (ln & -> & ->). apply has_eof_tail in HE; [|discriminate].
  destruct (eoc_longest _ _ _ HE EE) as [A2 HE2].
  cbn [cst_add cst_add_opt bind] in H. eapply IH; [exact HE2| |exact H].
  rewrite !Forall_app. repeat split; repeat constructor; auto. apply apart_leaf.
Qed.

Lemma stmt_longest : forall ts c rest, has_eof ts -> stmt_parse ts = Ok (c, rest) -> apart c /\ has_eof rest.
Proof.
  intros ts c rest HE H. split.
  - unfold stmt_parse in H. apply bind_ok in H as ([x ts1] & E & H).
    destruct (eoc_longest _ _ _ HE E) as [A HE1]. cbn [cst_add cst_add_opt new_stmt bind] in H.
    eapply stmt_loop_longest; [exact HE1| |exact H]. repeat constructor. exact A.
  - destruct (stmt_acc ts HE) as [[[e E] _]|(c' & r' & p' & E & HR & _)]; rewrite H in E; [discriminate|].
    injection E as <- <-. exact HR.
Qed.

Lemma newlines_apart : forall ns, Forall is_newline ns -> Forall apart ns.
Proof. intros ns H. eapply Forall_impl; [|exact H]. intros c [l ->]. apply apart_leaf. Qed.

Lemma document_loop_longest : forall n cs l ts c rest, has_eof ts -> Forall apart cs ->
  document_loop n (CInner CDocument cs l) ts = Ok (c, rest) ->
  has_eof rest /\ exists cs' l', c = CInner CDocument cs' l' /\ Forall apart cs'.
Proof.
  induction n as [|n IH]; intros cs l ts c rest HE F H; [discriminate|]. cbn [document_loop] in H.
  destruct (stmt_parse ts) as [[c1 ts1]|?|?|] eqn:ES; try discriminate; [|injection H as <- <-; eauto].
  destruct (newline_parse ts1) as [[c2 ts2]|?|?|] eqn:EN; try discriminate; [|injection H as <- <-; eauto].
  destruct (newlines_loop ts2) as [cs3 ts3] eqn:EL.
  destruct (stmt_longest _ _ _ HE ES) as [A1 HE1].
  apply newline_good in EN as (ln & -> & ->). apply has_eof_tail in HE1; [|discriminate].
  destruct (newlines_acc _ _ _ EL HE1) as (HE3 & _).
  destruct (add_all_eq (c1 :: new_newline ln :: cs3) CDocument cs l) as [l2 EA]. rewrite EA in H. cbn [bind] in H.
  eapply IH; [exact HE3| |exact H]. apply Forall_app. split; [exact F|].
  constructor; [exact A1|]. constructor; [apply apart_leaf|]. apply newlines_apart.
  exact (proj1 (newlines_loop_good _ _ _ EL)).
Qed.

Lemma parse_longest : forall ts c, parse ts = Ok c -> apart c.
Proof.
  intros ts c H. pose proof (parse_has_eof _ _ H) as HE. unfold parse in H. apply bind_ok in H as ([d ts1] & ED & H).
  destruct (document_loop_longest _ _ _ _ _ _ HE (Forall_nil _) ED) as (HE1 & cs & l & -> & F).
  apply bind_ok in H as ([d2 ts2] & E2 & H).
  assert (X : has_eof ts2 /\ exists cs2 l2, d2 = CInner CDocument cs2 l2 /\ Forall apart cs2).
  { destruct (stmt_parse ts1) as [[c1 r1]|?|?|] eqn:ES; try discriminate.
    - destruct (stmt_longest _ _ _ HE1 ES) as [A1 HE2]. cbn in E2. injection E2 as <- <-. split; [exact HE2|].
      eexists _, _. split; [reflexivity|]. apply Forall_app. auto.
    - injection E2 as <- <-. eauto. }
  destruct X as (HE2 & cs2 & l2 & -> & F2).
  destruct (newlines_loop ts2) as [ns ts3] eqn:EN.
  destruct (add_all_eq ns CDocument cs2 l2) as [l3 EA]. rewrite EA in H. cbn [bind] in H.
  apply bind_ok in H as ([ce r4] & EE & H). cbn in H. injection H as <-.
  apply not_bracket; [reflexivity|]. rewrite !Forall_app. repeat split.
  - exact F2.
  - apply newlines_apart. exact (proj1 (newlines_loop_good _ _ _ EN)).
  - destruct ts3 as [|[[] le] ts3]; try discriminate. injection EE as <- <-. repeat constructor. apply apart_leaf.
Qed.

Theorem parse_tree : forall ts c, parse ts = Ok c <-> tree_of ts c.
Proof.
  intros ts c. split; [|apply tree_parse]. intro H.
  destruct (parse_sound _ _ H) as (G & rest & E & S).
  split; [exact G|]. split; [exact (parse_longest _ _ H)|]. split; [|eauto].
  intros k cs l N K. destruct (parse_fold _ _ H) as (ds & -> & F).
  destruct (stmt_nodes _ G _ _ _ N K) as [Q|(cs0 & l0 & Q & I & (x & xs & lx & Q2 & _))].
  - injection Q as -> -> ->. reflexivity.
  - injection Q as <- _. injection Q2 as -> -> ->. rewrite Forall_forall in F. exact (F _ I).
Qed.
