(** The parser accepts exactly the token lists of the recognizer [acceptable] of SpecCST.v. *)
From Coq Require Import String List NArith Arith Bool Lia.
From Verif Require Import Base Tokens CST SpecTok SpecCST Parser ParserProofs ParserTotal.
Import ListNotations.

Definition has_eof (ts : list token) : Prop := In TkEOF (map tk ts).

(** A list on which no expression starts. *)
Definition stop (ts : list token) : Prop :=
  match ts with
  | [] => False
  | t :: _ => In (tk t) [TkNewLine; TkAngleClose; TkSquareClose; TkCurlyClose; TkEOF; TkEmpty]
  end.
Definition bstop (ts : list token) : Prop :=
  match ts with
  | [] => False
  | t :: _ => In (tk t) [TkAngleClose; TkSquareClose; TkCurlyClose; TkEOF; TkEmpty]
  end.

Lemma has_eof_tail : forall t ts, has_eof (t :: ts) -> tk t <> TkEOF -> has_eof ts.
Proof. intros t ts [H|H] N; [congruence|exact H]. Qed.

Lemma accepts_inside : forall ks o open p p', accepts (o :: open) p ks = accepts (o :: open) p' ks.
Proof.
  intros [|k ks] o open p p'; [reflexivity|]. destruct k; cbn [accepts]; try reflexivity;
    destruct (pop_to _ (o :: open)) as [?|]; reflexivity.
Qed.

Lemma content_after : forall open, content_ok open AfterExpr = true.
Proof. intros [|? ?]; reflexivity. Qed.

Lemma escape_iff : forall k,
  existsb (fun e : str * tkind => if tkind_eq_dec (snd e) k then true else false) escapes
  = match escapable k with Some _ => true | None => false end.
Proof. intro k; destruct k; reflexivity. Qed.

(** An unclosed bracket: what follows is judged as if the bracket had ended. *)
Lemma accepts_unclosed : forall b open p t ts, bstop (t :: ts) -> tk t <> zkind b ->
  accepts (okind b :: open) p (map tk (t :: ts)) = accepts open AfterExpr (map tk (t :: ts)).
Proof.
  intros b open p [k l] ts H N. cbn in H. cbn [map tk].
  destruct H as [<-|[<-|[<-|[<-|[<-|[]]]]]]; cbn [accepts]; try reflexivity;
    destruct b; cbn in N; try congruence; cbn [okind pop_to];
    destruct (pop_to _ open); destruct open; reflexivity.
Qed.

Lemma accepts_closed : forall b open p t ts, tk t = zkind b ->
  accepts (okind b :: open) p (map tk (t :: ts)) = accepts open AfterExpr (map tk ts).
Proof. intros b open p [k l] ts H. cbn in H. subst k. destruct b; reflexivity. Qed.

Lemma expr_finish_ok : forall c cs l ts, exists e, expr_finish (CInner CExpr (c :: cs) l) ts = Ok (e, ts).
Proof. intros; eexists; reflexivity. Qed.

Definition moved (cs : list cst) (ts rest : list token) : Prop :=
  (cs = [] /\ rest = ts) \/
  (cs <> [] /\ forall open p, content_ok open p = true ->
     accepts open p (map tk ts) = accepts open AfterExpr (map tk rest)).

Lemma acc : forall n,
  (forall cs l ts, 4 * length ts + 3 <= n -> has_eof ts ->
     exists new l' rest, expr_loop n (CInner CExpr cs l) ts = Ok (CInner CExpr (cs ++ new) l', rest) /\
       has_eof rest /\ stop rest /\ moved new ts rest) /\
  (forall b t ts, 4 * length (t :: ts) + 1 <= n -> has_eof ts -> tk t = okind b ->
     exists c rest, b_parse n b (t :: ts) = Ok (c, rest) /\ has_eof rest /\
       forall open p, accepts (okind b :: open) p (map tk ts) = accepts open AfterExpr (map tk rest)) /\
  (forall k cs l ts, 4 * length ts + 4 <= n -> has_eof ts ->
     exists cs' l' rest, b_loop n (CInner k cs l) ts = Ok (CInner k cs' l', rest) /\
       has_eof rest /\ bstop rest /\
       forall o open p, accepts (o :: open) p (map tk ts) = accepts (o :: open) p (map tk rest)).
Proof.
  induction n as [n IH] using lt_wf_ind. destruct n as [|n].
  { repeat split; intros; lia. }
  split; [|split].
  - intros cs l ts L HE.
    destruct n as [|[|n]]; try lia.
    assert (HI : (exists e, item_parse (S (S n)) ts = Err e) /\ stop ts \/
      exists c ts', item_parse (S (S n)) ts = Ok (c, ts') /\ has_eof ts' /\ length ts' < length ts /\
        forall open p, content_ok open p = true ->
          accepts open p (map tk ts) = accepts open AfterExpr (map tk ts')).
    { rewrite item_parse_eq. destruct ts as [|[k lt] ts1]; [destruct HE|].
      assert (HB : forall b, k = okind b ->
        exists c ts', match b_parse (S n) b (mktok k lt :: ts1) with Err _ => Err [] | x => x end
                      = Ok (c, ts') /\ has_eof ts' /\ length ts' < length (mktok k lt :: ts1) /\
        forall open p, content_ok open p = true ->
          accepts open p (map tk (mktok k lt :: ts1)) = accepts open AfterExpr (map tk ts')).
      { intros b ->. 
        destruct (proj1 (proj2 (IH (S n) ltac:(lia))) b (mktok (okind b) lt) ts1) as (c & rest & E & R1 & R2);
          [lia|eapply has_eof_tail; [exact HE|destruct b; discriminate]|reflexivity|].
        exists c, rest. rewrite E. split; [reflexivity|]. split; [exact R1|]. split.
        - destruct (proj1 (proj2 (sound _)) _ _ _ _ E) as (A & B & _).
          exact (app_lt _ _ _ B (g_item_toks _ A)).
        - intros open p C. rewrite <- (R2 open AfterExpr). destruct b; cbn [okind map tk accepts]; rewrite C; reflexivity. }
      destruct k; cbn [tk bk leaf_item];
        try (left; split; [eexists; reflexivity|cbn; tauto]);
        try (apply has_eof_tail in HE; [|discriminate]);
        try (right; eexists _, _; split; [reflexivity|]; split; [exact HE|]; split; [cbn; lia|];
             intros open p C; cbn [map tk accepts]; rewrite C; reflexivity).
      - (* backslash *) right. cbn [escaped_parse]. destruct ts1 as [|t ts2]; [destruct HE|].
        destruct (escapable (tk t)) as [s|] eqn:E.
        + eexists _, _. split; [reflexivity|]. split; [eapply has_eof_tail; [exact HE|intro X; rewrite X in E; discriminate]|].
          split; [cbn; lia|]. intros open p C. cbn [map tk accepts]. rewrite C, escape_iff, E. reflexivity.
        + eexists _, _. split; [reflexivity|]. split; [exact HE|]. split; [cbn; lia|].
          intros open p C. cbn [map tk accepts]. rewrite C, escape_iff, E. reflexivity.
      - right. apply (HB KAngle). reflexivity.
      - right. apply (HB KSquare). reflexivity.
      - right. apply (HB KCurly). reflexivity. }
    rewrite expr_loop_S. destruct HI as [[[e E] ST]|(c & ts' & E & HE' & LT & A)].
    + rewrite E. exists [], l, ts. rewrite app_nil_r. split; [reflexivity|]. split; [exact HE|].
      split; [exact ST|]. left; auto.
    + rewrite E. cbn [cst_add cst_add_opt bind].
      destruct (proj1 (IH (S (S n)) ltac:(lia)) (cs ++ [c]) (merge_location l (cst_location c)) ts' ltac:(lia) HE')
        as (new & l' & rest & E2 & R1 & R2 & R3).
      exists (c :: new), l', rest. rewrite E2, <- app_assoc. split; [reflexivity|]. split; [exact R1|].
      split; [exact R2|]. right. split; [discriminate|]. intros open p C. rewrite (A open p C).
      destruct R3 as [[_ ->]|[_ R3]]; [reflexivity|]. apply R3. apply content_after.
  - intros b t ts L HE Et. cbn [b_parse].
    assert (HO : b_open_parse b (t :: ts) = Ok (CLeaf (oleaf b) None (tl t), ts)).
    { destruct t as [k l]. cbn in Et. subst k. destruct b; reflexivity. }
    rewrite HO. cbn [bind].
    assert (ER : exists l0, cst_add (b_node b) (CLeaf (oleaf b) None (tl t)) =
             Ok (CInner (nkind b) [CLeaf (oleaf b) None (tl t)] l0)) by (destruct b; eexists; reflexivity).
    destruct ER as [l0 ->]. cbn [bind].
    destruct (proj2 (proj2 (IH n ltac:(lia))) (nkind b) [CLeaf (oleaf b) None (tl t)] l0 ts) as
      (cs' & l' & rest & E & R1 & R2 & R3); [cbn [length] in L; lia|exact HE|].
    rewrite E. cbn [bind]. destruct rest as [|t2 rest]; [destruct R2|].
    destruct (tkind_eq_dec (tk t2) (zkind b)) as [Ez|Nz].
    + assert (EZ : b_close_parse b (t2 :: rest) = Ok (CLeaf (zleaf b) None (tl t2), rest)).
      { destruct t2 as [k2 l2]. cbn in Ez. subst k2. destruct b; reflexivity. }
      rewrite EZ. cbn [cst_add cst_add_opt bind cst_set_location]. eexists _, rest. split; [reflexivity|].
      split.
      * apply has_eof_tail in R1; [exact R1|rewrite Ez; destruct b; discriminate].
      * intros open p. rewrite R3. apply accepts_closed. exact Ez.
    + assert (EZ : exists e, b_close_parse b (t2 :: rest) = Err e).
      { destruct t2 as [k2 l2]. cbn in R2, Nz. destruct R2 as [<-|[<-|[<-|[<-|[<-|[]]]]]], b; cbn in *; try congruence; eexists; reflexivity. }
      destruct EZ as [e ->]. cbn [bind cst_set_location]. eexists _, (t2 :: rest). split; [reflexivity|].
      split; [exact R1|]. intros open p. rewrite R3. apply accepts_unclosed; assumption.
  - intros k cs l ts L HE. cbn [b_loop].
    destruct (proj1 (IH n ltac:(lia)) [] mock_location ts ltac:(lia) HE) as (new & l' & rest & E & R1 & R2 & R3).
    unfold new_expr. rewrite E. cbn [bind app].
    destruct R3 as [[-> ->]|[NE R3]].
    + cbn [expr_finish cst_children bind].
      destruct ts as [|[kt lt] ts1]; [destruct R2|]. cbn in R2.
      destruct (tkind_eq_dec kt TkNewLine) as [->|NN].
      * cbn [newline_parse cst_add cst_add_opt bind].
        apply has_eof_tail in HE; [|discriminate].
        destruct (proj2 (proj2 (IH n ltac:(lia))) k (cs ++ [new_newline lt]) (merge_location l (cst_location (new_newline lt))) ts1)
          as (cs' & l2 & rest2 & E2 & S1 & S2 & S3); [cbn [length] in L; lia|exact HE|].
        exists cs', l2, rest2. rewrite E2. split; [reflexivity|]. split; [exact S1|]. split; [exact S2|].
        intros o open p. change (accepts (o :: open) p (map tk (mktok TkNewLine lt :: ts1)))
          with (accepts (o :: open) AtLineStart (map tk ts1)).
        rewrite (accepts_inside _ _ _ AtLineStart p). apply S3.
      * assert (EN : exists e, newline_parse (mktok kt lt :: ts1) = Err e).
        { destruct kt; try congruence; eexists; reflexivity. }
        destruct EN as [e ->]. eexists cs, l, _. split; [reflexivity|]. split; [exact HE|].
        split; [|reflexivity]. cbn. intuition congruence.
    + destruct new as [|c new]; [congruence|]. destruct (expr_finish_ok c new l' rest) as [e1 E1]. rewrite E1.
      cbn [cst_add cst_add_opt bind].
      assert (LT : length rest < length ts).
      { destruct (proj1 (sound _) _ _ _ _ _ E) as (new2 & l3 & EQ & G). injection EQ as EQ _. subst new2.
        destruct G as [G1 G2 _]. apply Forall_inv in G1 as G1a.
        apply (app_lt _ _ _ G2). cbn. apply g_item_toks in G1a. destruct (leaf_toks c); [congruence|discriminate]. }
      destruct (proj2 (proj2 (IH n ltac:(lia))) k (cs ++ [e1]) (merge_location l (cst_location e1)) rest)
        as (cs' & l2 & rest2 & E2 & S1 & S2 & S3); [lia|exact R1|].
      exists cs', l2, rest2. rewrite E2. split; [reflexivity|]. split; [exact S1|]. split; [exact S2|].
      intros o open p. rewrite (R3 (o :: open) p) by reflexivity.
      rewrite (accepts_inside _ _ _ AfterExpr p). apply S3.
Qed.

(** ** Statements *)
Lemma expr_acc : forall ts, has_eof ts ->
  ((exists e, expr_parse ts = Err e) /\ stop ts) \/
  exists c rest, expr_parse ts = Ok (c, rest) /\ has_eof rest /\ stop rest /\
    forall open p, content_ok open p = true ->
      accepts open p (map tk ts) = accepts open AfterExpr (map tk rest).
Proof.
  intros ts HE. unfold expr_parse, fuel_for, new_expr.
  destruct (proj1 (acc (4 * length ts + 4)) [] mock_location ts ltac:(lia) HE) as (new & l' & rest & E & R1 & R2 & R3).
  rewrite E. cbn [bind app]. destruct R3 as [[-> ->]|[NE R3]].
  - left. split; [eexists; reflexivity|exact R2].
  - right. destruct new as [|c new]; [congruence|]. destruct (expr_finish_ok c new l' rest) as [e1 E1].
    exists e1, rest. auto.
Qed.

(** After an expression, or after a lone closing bracket. *)
Definition ended (p : place) (rest : list token) : Prop :=
  (p = AfterExpr /\ stop rest) \/ p = AfterClose.

Definition blocked (ts : list token) : Prop :=
  match ts with
  | [] => False
  | t :: _ => In (tk t) [TkNewLine; TkEOF; TkEmpty]
  end.

Definition fresh (p : place) : Prop := p = AtDocStart \/ p = AtLineStart.

Lemma eoc_acc : forall ts, has_eof ts ->
  ((exists e, expr_or_close_parse ts = Err e) /\ blocked ts) \/
  exists c rest p', expr_or_close_parse ts = Ok (c, rest) /\ has_eof rest /\ ended p' rest /\
    forall p, fresh p -> accepts [] p (map tk ts) = accepts [] p' (map tk rest).
Proof.
  intros ts HE. unfold expr_or_close_parse.
  destruct (expr_acc ts HE) as [[[e E] ST]|(c & rest & E & R1 & R2 & R3)]; rewrite E.
  - destruct ts as [|[k l] ts]; [destruct ST|]. cbn in ST.
    destruct ST as [<-|[<-|[<-|[<-|[<-|[<-|[]]]]]]];
      try (left; split; [eexists; reflexivity|cbn; tauto]);
      right; cbn [bracket_close_parse]; eexists _, ts, AfterClose; (split; [reflexivity|]);
      (split; [eapply has_eof_tail; [exact HE|discriminate]|]);
      (split; [right; reflexivity|]); intros p [->| ->]; reflexivity.
  - right. exists c, rest, AfterExpr. split; [reflexivity|]. split; [exact R1|].
    split; [left; auto|]. intros p [->| ->]; apply R3; reflexivity.
Qed.

Definition not_nl (ts : list token) : Prop := forall l r, ts <> mktok TkNewLine l :: r.

Definition stmt_ended (rest : list token) : Prop :=
  not_nl rest \/ exists l r, rest = mktok TkNewLine l :: r /\ blocked r.

Lemma stmt_loop_acc : forall n cs l ts p, length ts < n -> has_eof ts -> ended p ts ->
  exists c rest p', stmt_loop n (CInner CStmt cs l) ts = Ok (c, rest) /\ has_eof rest /\
    ended p' rest /\ stmt_ended rest /\ accepts [] p (map tk ts) = accepts [] p' (map tk rest).
Proof.
  induction n as [|n IH]; intros cs l ts p L HE EN; [lia|]. cbn [stmt_loop].
  destruct ts as [|[k lt] ts]; [destruct HE|].
  destruct (tkind_eq_dec k TkNewLine) as [->|NN].
  - cbn [newline_parse]. assert (HE' : has_eof ts) by (eapply has_eof_tail; [exact HE|discriminate]).
    destruct (eoc_acc ts HE') as [[[e E] B]|(c & rest & p' & E & R1 & R2 & R3)]; rewrite E.
    + eexists _, _, p. split; [reflexivity|]. split; [exact HE|]. split; [exact EN|]. split; [|reflexivity].
      right. eauto.
    + cbn [cst_add cst_add_opt bind]. apply eoc_good in E as (A & B & _).
      pose proof (app_lt _ _ _ B (eoc_toks _ A)). cbn [length] in L.
      edestruct IH as (c2 & rest2 & p2 & E2 & S1 & S2 & S3 & S4); [| |exact R2|]; [lia|exact R1|].
      exists c2, rest2, p2. rewrite E2. split; [reflexivity|]. split; [exact S1|]. split; [exact S2|].
      split; [exact S3|]. rewrite <- S4, <- (R3 AtLineStart) by (right; reflexivity).
      destruct EN as [[-> _]| ->]; reflexivity.
  - assert (X : exists e, newline_parse (mktok k lt :: ts) = Err e).
    { destruct k; try congruence; eexists; reflexivity. }
    destruct X as [e ->]. eexists _, _, p. split; [reflexivity|]. split; [exact HE|]. split; [exact EN|].
    split; [|reflexivity]. left. intros l2 r Q. injection Q as Q _ _. contradiction.
Qed.

Lemma stmt_acc : forall ts, has_eof ts ->
  ((exists e, stmt_parse ts = Err e) /\ blocked ts) \/
  exists c rest p', stmt_parse ts = Ok (c, rest) /\ has_eof rest /\ ended p' rest /\ stmt_ended rest /\
    forall p, fresh p -> accepts [] p (map tk ts) = accepts [] p' (map tk rest).
Proof.
  intros ts HE. unfold stmt_parse.
  destruct (eoc_acc ts HE) as [[[e E] B]|(c & rest & p' & E & R1 & R2 & R3)]; rewrite E; cbn [bind].
  - left. split; [eexists; reflexivity|exact B].
  - right. cbn [cst_add cst_add_opt new_stmt bind].
    destruct (stmt_loop_acc (S (length rest)) ([] ++ [c]) (merge_location mock_location (cst_location c)) rest p' ltac:(lia) R1 R2)
      as (c2 & rest2 & p2 & E2 & S1 & S2 & S3 & S4).
    exists c2, rest2, p2. rewrite E2. repeat (split; [assumption || reflexivity|]).
    intros p F. rewrite (R3 p F). exact S4.
Qed.

(** ** Documents *)
Lemma newlines_acc : forall ts cs rest, newlines_loop ts = (cs, rest) -> has_eof ts ->
  has_eof rest /\ not_nl rest /\
  accepts [] AtLineStart (map tk ts) = accepts [] AtLineStart (map tk rest) /\
  accepts [] OnlyNewlines (map tk ts) = accepts [] OnlyNewlines (map tk rest).
Proof.
  induction ts as [|[k l] ts IH]; intros cs rest H HE; [destruct HE|].
  destruct (tkind_eq_dec k TkNewLine) as [->|NN].
  - cbn [newlines_loop] in H. destruct (newlines_loop ts) as [cs' r'] eqn:E. injection H as <- <-.
    apply has_eof_tail in HE; [|discriminate]. destruct (IH _ _ eq_refl HE) as (A & B & C & D).
    split; [exact A|]. split; [exact B|]. split; [rewrite <- C|rewrite <- D]; reflexivity.
  - assert (X : rest = mktok k l :: ts) by (destruct k; try congruence; cbn in H; congruence). subst rest.
    split; [exact HE|]. split; [|split; reflexivity]. intros l2 r Q. injection Q as Q _ _. contradiction.
Qed.

Lemma document_loop_acc : forall n cs l ts p, length ts < n -> has_eof ts ->
  p = AtDocStart \/ (p = AtLineStart /\ not_nl ts) ->
  exists cs' l' rest p', document_loop n (CInner CDocument cs l) ts = Ok (CInner CDocument cs' l', rest) /\
    has_eof rest /\ (p' = AtDocStart \/ (p' = AtLineStart /\ not_nl rest)) /\
    accepts [] p (map tk ts) = accepts [] p' (map tk rest) /\
    (forall c r, stmt_parse rest = Ok (c, r) -> not_nl r).
Proof.
  induction n as [|n IH]; intros cs l ts p L HE HP; [lia|]. cbn [document_loop].
  destruct (stmt_acc ts HE) as [[[e E] B]|(c & rest & p' & E & R1 & R2 & R3 & R4)]; rewrite E.
  - exists cs, l, ts, p. split; [reflexivity|]. split; [exact HE|]. split; [exact HP|]. split; [reflexivity|].
    intros c r Q. congruence.
  - destruct rest as [|[k lk] rest]; [destruct R1|].
    destruct (tkind_eq_dec k TkNewLine) as [->|NN].
    + cbn [newline_parse]. destruct (newlines_loop rest) as [cs3 ts3] eqn:EL.
      destruct (add_all_eq (c :: new_newline lk :: cs3) CDocument cs l) as [l2 EA]. rewrite EA. cbn [bind].
      apply has_eof_tail in R1; [|discriminate].
      destruct (newlines_acc _ _ _ EL R1) as (A & B & C & _).
      assert (LT : length ts3 < length ts).
      { destruct (stmt_parse_good _ _ _ E) as (_ & S2 & _). destruct (newlines_loop_good _ _ _ EL) as (_ & [_ N2 _] & _).
        apply (f_equal (@length token)) in S2, N2. rewrite app_length in S2, N2. cbn [length] in S2. lia. }
      destruct (IH (cs ++ c :: new_newline lk :: cs3) l2 ts3 AtLineStart) as (cs' & l' & rest2 & p2 & E2 & S1 & S2 & S3 & S4);
        [lia|exact A|right; auto|].
      exists cs', l', rest2, p2. rewrite E2. split; [reflexivity|]. split; [exact S1|]. split; [exact S2|].
      split; [|exact S4]. rewrite <- S3, <- C, (R4 p) by (destruct HP as [->|[-> _]]; [left|right]; reflexivity).
      destruct R2 as [[-> _]| ->]; reflexivity.
    + assert (X : exists e, newline_parse (mktok k lk :: rest) = Err e).
      { destruct k; try congruence; eexists; reflexivity. }
      destruct X as [e ->]. exists cs, l, ts, p. split; [reflexivity|]. split; [exact HE|]. split; [exact HP|].
      split; [reflexivity|]. intros c' r Q. rewrite E in Q. injection Q as _ <-.
      intros l2 r2 Q2. injection Q2 as Q2 _ _. contradiction.
Qed.

Lemma eof_after : forall rest p, not_nl rest -> ended p rest \/ p = OnlyNewlines \/ (p = AtLineStart /\ blocked rest) ->
  (exists x, eof_parse rest = Ok x) /\ accepts [] p (map tk rest) = true \/
  (exists e, eof_parse rest = Err e) /\ accepts [] p (map tk rest) = false.
Proof.
  intros [|[k l] rest] p NN HP.
  - right. split; [eexists; reflexivity|reflexivity].
  - destruct (tkind_eq_dec k TkEOF) as [->|NE].
    + left. split; [eexists; reflexivity|reflexivity].
    + right. split; [destruct k; try congruence; eexists; reflexivity|].
      assert (k <> TkNewLine) by (intros ->; eapply NN; reflexivity).
      destruct HP as [[[-> ST]| ->]|[->|[-> BL]]].
      * cbn in ST. destruct ST as [<-|[<-|[<-|[<-|[<-|[<-|[]]]]]]]; try congruence; reflexivity.
      * destruct k; try congruence; reflexivity.
      * destruct k; try congruence; reflexivity.
      * cbn in BL. destruct BL as [<-|[<-|[<-|[]]]]; try congruence; reflexivity.
Qed.

Theorem parse_accepts_eof : forall ts, has_eof ts ->
  (exists c, parse ts = Ok c) /\ acceptable ts = true \/
  (exists e, parse ts = Err e) /\ acceptable ts = false.
Proof.
  intros ts HE. unfold parse, acceptable, new_document.
  destruct (document_loop_acc (S (length ts)) [] mock_location ts AtDocStart ltac:(lia) HE ltac:(auto))
    as (cs & l1 & ts1 & p1 & ED & R1 & R2 & R3 & R4).
  rewrite ED, R3. cbn [bind].
  assert (FIN : forall cs2 l2 cs3 ts3 p, not_nl ts3 ->
     ended p ts3 \/ p = OnlyNewlines \/ (p = AtLineStart /\ blocked ts3) ->
     (exists c, (let! d := add_all (CInner CDocument cs2 l2) cs3 in
        let! (c, _) := eof_parse ts3 in cst_add d c) = Ok c) /\ accepts [] p (map tk ts3) = true \/
     (exists e, (let! d := add_all (CInner CDocument cs2 l2) cs3 in
        let! (c, _) := eof_parse ts3 in cst_add d c) = Err e) /\ accepts [] p (map tk ts3) = false).
  { intros cs2 l2 cs3 ts3 p N F. destruct (add_all_eq cs3 CDocument cs2 l2) as [l3 EA]. rewrite EA. cbn [bind].
    destruct (eof_after ts3 p N F) as [[[[c r] ->] A]|[[e ->] A]]; [left|right];
      (split; [eexists; reflexivity|exact A]). }
  destruct (stmt_acc ts1 R1) as [[[e E] B]|(c & rest & p' & E & S1 & S2 & S3 & S4)]; rewrite E.
  - cbn [bind]. destruct (newlines_loop ts1) as [ns ts3] eqn:EN.
    destruct (newlines_acc _ _ _ EN R1) as (A1 & A2 & A3 & A4).
    destruct ts1 as [|[k lk] ts1]; [destruct R1|].
    destruct R2 as [->|[-> NN]].
    + cbn in B. destruct B as [<-|[<-|[<-|[]]]].
      * replace (accepts [] AtDocStart (map tk (mktok TkNewLine lk :: ts1)))
          with (accepts [] OnlyNewlines (map tk ts3)) by (rewrite <- A4; reflexivity).
        apply FIN; auto.
      * cbn in EN. injection EN as <- <-. left. split; [|reflexivity]. eexists; reflexivity.
      * cbn in EN. injection EN as <- <-. right. split; [|reflexivity]. eexists; reflexivity.
    + assert (X : ns = [] /\ ts3 = mktok k lk :: ts1).
      { destruct k; cbn in EN; try (injection EN as <- <-; auto). exfalso; eapply NN; reflexivity. }
      destruct X as [-> ->]. apply FIN; auto.
  - cbn [cst_add cst_add_opt bind]. pose proof (R4 _ _ E) as NN.
    assert (X : newlines_loop rest = ([], rest)).
    { destruct rest as [|[[] lk] rest]; try reflexivity. exfalso; eapply NN; reflexivity. }
    rewrite X, (S4 p1) by (destruct R2 as [->|[-> _]]; [left|right]; reflexivity).
    apply FIN; auto.
Qed.

(** A parsed list contains an EOF token; so does an acceptable one. *)
Lemma accepts_has_eof : forall ks open p, accepts open p ks = true -> In TkEOF ks.
Proof.
  induction ks as [ks IH] using (well_founded_induction (well_founded_ltof _ (@length tkind))).
  intros open p H. destruct ks as [|k ks]; [discriminate|].
  assert (HI : forall o q, accepts o q ks = true -> In TkEOF (k :: ks)).
  { intros o q Q. right. eapply IH; [unfold ltof; cbn; lia|exact Q]. }
  destruct k; cbn [accepts] in H; try discriminate;
    try (apply andb_true_iff in H as [_ H]); eauto.
  - destruct open, p; eauto.
  - destruct ks as [|k2 ks2]; [discriminate|].
    destruct (existsb _ _); [|eauto]. right. right. eapply IH; [unfold ltof; cbn; lia|exact H].
  - destruct (pop_to _ _); [eauto|]. destruct open, p; try discriminate; eauto.
  - destruct (pop_to _ _); [eauto|]. destruct open, p; try discriminate; eauto.
  - destruct (pop_to _ _); [eauto|]. destruct open, p; try discriminate; eauto.
  - left; reflexivity.
Qed.

Lemma parse_has_eof : forall ts c, parse ts = Ok c -> has_eof ts.
Proof.
  intros ts c H. destruct (parse_sound _ _ H) as ((ps & last & ns & le & l & -> & _) & rest & -> & _).
  unfold has_eof. rewrite map_app, in_app_iff. left. cbn. rewrite !flat_map_app, !map_app, !in_app_iff.
  right. right. right. cbn. auto.
Qed.

Theorem parse_accepts : forall ts, (exists c, parse ts = Ok c) <-> acceptable ts = true.
Proof.
  intro ts. split.
  - intros [c H]. destruct (parse_accepts_eof ts (parse_has_eof _ _ H)) as [[_ A]|[[e A] _]]; congruence.
  - intro H. destruct (parse_accepts_eof ts (accepts_has_eof _ _ _ H)) as [[A _]|[_ A]]; [exact A|].
    congruence.
Qed.
