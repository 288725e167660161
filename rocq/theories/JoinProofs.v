(** A document after another one is understood as if it stood alone. *)
From Coq Require Import String List NArith Arith Bool Lia.
From Verif Require Import Base Tokens CST SpecTok Graphemes Tokenizer TokenizerProofs TokenizerProofs2
  SpecCST Parser ParserProofs ParserTotal ParserAccepts ParserProofs2
  ParserLocations SpecTree ParserTree AST TransformError SpecTransform SpecReads SpecStrip SpecJoin
  Transform TransformProofs TransformErrors TransformKinds TransformReads ReadsProofs Relocate StripProofs Join Lower.
Import ListNotations.

(** ** The tokens of a text that ends in a line feed end in a newline *)
Lemma source_app : forall a b, source (a ++ b) = source a ++ source b.
Proof. intros a b. unfold source. rewrite map_app, concat_app. reflexivity. Qed.

Section Laws.
  Variable seg : str -> list str.
  Hypothesis L : seg_laws seg.

  Lemma lf_split : forall a, (forall a', a <> a' ++ [13%N]) -> seg (a ++ [10%N]) = seg a ++ [[10%N]].
  Proof. exact (seg_lf_split seg L). Qed.

  Lemma newline_last : forall s ts, tokenize_str seg s = Ok ts -> forall ts1 ts2 x,
    ts = ts1 ++ ts2 -> source ts1 = x ++ [10%N] -> (forall x', x <> x' ++ [13%N]) ->
    Forall (fun t => tk t <> TkEOF /\ tk t <> TkEmpty) ts1 ->
    (forall d r, source ts2 = d :: r -> ~ In d (lit ">}]")) ->
    exists us n, ts1 = us ++ [n] /\ tk n = TkNewLine /\ source us = x.
  Proof.
    intros s ts E ts1 ts2 x ET ES CR F NC. destruct ts1 as [|t us _] using rev_ind.
    - destruct x; discriminate ES.
    - apply Forall_app in F as [_ F]. inversion F as [|? ? [F1 F2] _]; subst.
      rewrite source_app in ES. unfold source in ES at 2. cbn [map concat] in ES. rewrite app_nil_r in ES.
      rewrite <- app_assoc in E. cbn [app] in E. pose proof (tokenize_lex seg L s _ E us t ts2 eq_refl) as LX.
      assert (V : forall v, tok_src (tk t) = v -> v <> [] -> exists v', v = v' ++ [10%N] /\ (forall y, v' <> y ++ [13%N]) /\ source us ++ v' = x).
      { intros v EV NV. rewrite EV in ES. destruct (exists_last NV) as (v' & z & ->). rewrite app_assoc in ES.
        apply app_inj_tail in ES as [ES ->]. exists v'. split; [reflexivity|]. split; [|exact ES].
        intros y ->. apply (CR (source us ++ y)). rewrite <- ES, app_assoc. reflexivity. }
      assert (SP : special 10%N) by (unfold special; cbn; tauto).
      assert (ONE : forall c, tok_src (tk t) = [c] -> c = 10%N).
      { intros c EC. rewrite EC in ES. apply app_inj_tail in ES as [_ ES]. exact ES. }
      exists us, t. split; [reflexivity|].
      destruct (tk t) as [|v|v|v| | | | | | | | | | | |] eqn:K; cbn [tok_src] in *; try congruence;
        try (exfalso; specialize (ONE _ eq_refl); discriminate ONE).
      + destruct LX as [NV LX]. destruct (V v eq_refl NV) as (v' & -> & C & _). exfalso. apply (LX 10%N SP).
        rewrite (lf_split v' C). apply in_or_app. right. left. reflexivity.
      + destruct LX as [NV LX]. destruct (V v eq_refl NV) as (v' & -> & C & _). exfalso. apply (LX 10%N SP).
        rewrite (lf_split v' C). apply in_or_app. right. left. reflexivity.
      + destruct LX as (q & g & EQ & _ & _ & _ & LX). exfalso.
        assert (NV : v <> []) by (intros ->; rewrite (seg_nil seg L) in EQ; destruct q; discriminate).
        destruct (V v eq_refl NV) as (v' & -> & C & _). rewrite (lf_split v' C) in EQ.
        apply app_inj_tail in EQ as [_ <-]. destruct LX as (d & r & I1 & I2); [exists 10%N; auto|]. exact (NC d r I2 I1).
      + split; [reflexivity|]. apply app_inj_tail in ES as [ES _]. exact ES.
  Qed.

  Lemma two_newlines : forall a ts, tokenize_str seg (a ++ [10; 10]%N) = Ok ts ->
    (forall a', a <> a' ++ [13%N]) -> ~ In 0%N a ->
    exists us n1 n2 e, ts = us ++ [n1; n2; e] /\ tk n1 = TkNewLine /\ tk n2 = TkNewLine /\ tk e = TkEOF /\
      ~ In TkEOF (map tk us).
  Proof.
    intros a ts E CR NZ.
    assert (ES : source ts = a ++ [10; 10]%N).
    { apply (tokenize_lossless_nonul seg L _ _ E). rewrite in_app_iff. cbn. intros [X|[X|[X|[]]]]; [auto|discriminate X..]. }
    destruct (cut_eof_last _ _ _ _ (tokenize_cut seg L _ _ E)) as (body & e & -> & F).
    rewrite source_app in ES. unfold source in ES at 2. cbn [map concat tok_src tk] in ES. rewrite !app_nil_r in ES.
    destruct (newline_last _ _ E body [mktok TkEOF e] (a ++ [10%N]) eq_refl) as (us1 & n2 & -> & K2 & S2).
    - rewrite ES, <- app_assoc. reflexivity.
    - intros x X. apply app_inj_tail in X as [_ X]. discriminate X.
    - exact F.
    - discriminate.
    - apply Forall_app in F as [F F2].
      destruct (newline_last _ _ E us1 ([n2] ++ [mktok TkEOF e]) a) as (us & n1 & -> & K1 & S1).
      + rewrite app_assoc. reflexivity.
      + exact S2.
      + exact CR.
      + exact F.
      + intros d r X. destruct n2 as [k2 l2]. cbn [tk] in K2. subst k2. injection X as <- _.
        intros [X|[X|[X|[]]]]; discriminate X.
      + exists us, n1, n2, (mktok TkEOF e). rewrite <- !app_assoc. repeat split; auto.
        apply Forall_app in F as [F _]. intro X. apply in_map_iff in X as (t & X & I). rewrite Forall_forall in F. destruct (F t I) as [Y _]. exact (Y X).
  Qed.
End Laws.

(** ** The tree of tokens further down *)
Lemma strip_st : forall n m ts, length ts <= m -> forall open lone,
  SpecStrip.strip open lone (map (st n) ts) = map (st n) (SpecStrip.strip open lone ts).
Proof.
  induction m as [|m IH]; intros ts LT open lone.
  - destruct ts; [reflexivity|cbn in LT; lia].
  - destruct ts as [|t r]; [reflexivity|]. cbn [length] in LT. cbn [map SpecStrip.strip].
    change (tk (st n t)) with (tk t).
    destruct (tk t); try (cbn [map]; rewrite IH by lia; reflexivity); try reflexivity.
    + destruct open, lone; cbn [map]; rewrite IH by lia; reflexivity.
    + destruct open, lone; cbn [map]; rewrite IH by lia; reflexivity.
    + destruct r as [|u r']; [reflexivity|]. change (map (st n) (u :: r')) with (st n u :: map (st n) r').
      cbn iota. change (tk (st n u)) with (tk u). destruct (can_escape (tk u)); cbn [map length] in *.
      * rewrite IH by lia. reflexivity.
      * change (st n u :: map (st n) r') with (map (st n) (u :: r')). rewrite IH by (cbn; lia). reflexivity.
Qed.

Lemma lowered : forall uuid n ts c a es, parse ts = Ok c -> transform uuid c = Ok (a, es) ->
  exists c' a' es', parse (map (st n) ts) = Ok c' /\ transform uuid c' = Ok (a', es') /\ bare a' = bare a /\ near n es' es.
Proof.
  intros uuid n ts c a es P T. pose proof (proj1 (parse_sound _ _ P)) as G.
  assert (P' : parse (map (st n) ts) = Ok (low_doc n c)) by (apply parse_tree, low_tree, parse_tree; exact P).
  pose proof (proj1 (parse_sound _ _ P')) as G'.
  destruct (spaces_never_matter uuid ts (map (st n) ts) c (low_doc n c) a es) as (a' & es' & T' & B); try assumption.
  - rewrite (strip_st n (length ts)) by lia. rewrite st_kind. reflexivity.
  - exists (low_doc n c), a', es'. repeat split; try assumption.
    rewrite (transform_own _ _ _ _ G T), (transform_own _ _ _ _ G' T'). apply low_doc_errors. exact G.
Qed.

(** ** Both *)
Definition unclosed_kinds : list ekind := [EAngleNotClosed; ECurlyNotClosed; ESquareNotClosed].

Lemma F2_snoc : forall cs ys l, Forall2 reads (filter inner (cs ++ [CLeaf LEOF None l])) ys -> Forall2 reads (filter inner cs) ys.
Proof. intros cs ys l H. rewrite filter_app in H. cbn in H. rewrite app_nil_r in H. exact H. Qed.

Theorem joined : forall uuid us n1 n2 e ca aa esa tb cb ab esb,
  tk n1 = TkNewLine -> tk n2 = TkNewLine -> tk e = TkEOF -> ~ In TkEOF (map tk us) ->
  parse (us ++ [n1; n2; e]) = Ok ca -> transform uuid ca = Ok (aa, esa) -> filter (of_kind unclosed_kinds) esa = [] ->
  (exists t, In t us /\ tk t <> TkNewLine) -> parse tb = Ok cb -> transform uuid cb = Ok (ab, esb) ->
  exists c d, parse (us ++ [n1; n2] ++ tb) = Ok c /\ transform uuid c = Ok (d, esa ++ esb) /\
    bare d = AInner NDocument [] (map bare (parts aa ++ parts ab)) mock_location.
Proof.
  intros uuid us n1 n2 e ca aa esa tb cb ab esb N1 N2 NE NU PA TA UA NP PB TB.
  pose proof (proj1 (parse_sound _ _ PA)) as GA. pose proof (proj1 (parse_sound _ _ PB)) as GB.
  assert (CU : closed_up ca).
  { unfold closed_up. rewrite <- UA. symmetry.
    exact (transform_kind uuid ca aa esa GA TA unclosed_kinds _ (fun n _ => own_unclosed n)). }
  pose proof (transform_reads _ _ _ _ GA TA) as RA. pose proof (transform_reads _ _ _ _ GB TB) as RB.
  pose proof GA as (ps & lst & ns & le & la & EA & _). pose proof GB as (psb & lstb & nsb & leb & lb & EB & _).
  replace (ps ++ lst ++ ns ++ [CLeaf LEOF None le]) with ((ps ++ lst ++ ns) ++ [CLeaf LEOF None le]) in EA by (rewrite <- !app_assoc; reflexivity).
  set (csa := ps ++ lst ++ ns) in *. clearbody csa.
  remember (psb ++ lstb ++ nsb ++ [CLeaf LEOF None leb]) as csb eqn:ECB. clear ECB.
  assert (EE : le = tl e).
  { apply parse_tree in PA as (_ & _ & _ & rest & ER & _). rewrite EA in ER. cbn [leaf_toks] in ER. rewrite flat_map_app in ER.
    cbn [flat_map leaf_toks leaf_kind app] in ER. 
    assert (NX : ~ In TkEOF (map tk (us ++ [n1; n2]))).
    { rewrite map_app, in_app_iff. cbn. rewrite N1, N2. intros [X|[X|[X|[]]]]; [exact (NU X)|discriminate X..]. }
    rewrite <- app_assoc in ER. cbn [app] in ER.
    replace (us ++ [n1; n2; e]) with ((us ++ [n1; n2]) ++ [e]) in ER by (rewrite <- app_assoc; reflexivity).
    revert ER NX. generalize (us ++ [n1; n2]) as ys. generalize (flat_map leaf_toks csa) as xs. clear.
    induction xs as [|x xs IH]; intros [|y ys] E N; cbn [app] in E.
    - injection E as -> _. reflexivity.
    - injection E as -> _. exfalso. apply N. left. reflexivity.
    - exfalso. destruct xs; discriminate.
    - injection E as _ E. apply (IH ys E). intro X. apply N. right. exact X. }
  subst le ca cb.
  inversion RA as [| | | | | |xs ys i l FA]; subst; [discriminate|]. inversion RB as [| | | | | |xs' ysb i' l' FB]; subst; [discriminate|].
  apply F2_snoc in FA.
  assert (HS : existsb inner csa = true).
  { destruct (existsb inner csa) eqn:X; [reflexivity|exfalso]. destruct NP as (t & IT & NT). apply NT.
    destruct GA as (ps' & lst' & ns' & le' & la' & EC & GP & GL & GN). injection EC as EC _.
    rewrite !app_assoc in EC. apply app_inj_tail in EC as [-> _]. rewrite !existsb_app in X.
    apply orb_false_iff in X as [X X3]. apply orb_false_iff in X as [X1 X2].
    destruct GP as [|s0 m1 m2 ms cs (x0 & cs0 & l0 & -> & _) _]; [|discriminate X1].
    destruct GL as [->|(s0 & -> & (x0 & cs0 & l0 & -> & _))]; [|discriminate X2]. cbn [app] in *.
    apply parse_tree in PA as (_ & _ & _ & rest & ER & _). cbn [leaf_toks] in ER. rewrite flat_map_app in ER.
    cbn [flat_map leaf_toks leaf_kind app] in ER. rewrite <- app_assoc in ER. cbn [app] in ER.
    assert (AN : Forall (fun t => tk t = TkNewLine) (flat_map leaf_toks ns')).
    { clear - GN. induction GN as [|x xs [lx ->] _ IH]; [constructor|]. constructor; [reflexivity|exact IH]. }
    apply in_split in IT as (u1 & u2 & ->). 
    assert (NX : ~ In TkEOF (map tk (u1 ++ [t]))).
    { intro Y. apply NU. replace (u1 ++ t :: u2) with ((u1 ++ [t]) ++ u2) by (rewrite <- app_assoc; reflexivity).
      rewrite map_app, in_app_iff. auto. }
    rewrite <- app_assoc in ER. cbn [app] in ER. revert ER AN NX. clear.
    generalize (flat_map leaf_toks ns') as vs. generalize (u2 ++ [n1; n2; e]) as zs.
    induction u1 as [|u u1 IH]; intros zs vs E A N.
    - destruct vs as [|v vs]; cbn [app] in E; injection E as -> _.
      + exfalso. apply N. left. reflexivity.
      + inversion A; assumption.
    - destruct vs as [|v vs]; cbn [app] in E.
      + injection E as -> _. exfalso. apply N. left. reflexivity.
      + injection E as -> E. inversion A; subst. apply (IH zs vs E); [assumption|]. intro Y. apply N. right. exact Y. }
  pose proof (join_tree us n1 n2 e csa la tb _ N1 N2 NE NU (proj1 (parse_tree _ _) PA) CU HS (proj1 (parse_tree _ _) PB) _ _ eq_refl) as J.
  apply parse_tree in J.
  set (lc := fold_left merge_location (map cst_location (csa ++ csb)) mock_location) in *.
  assert (R : reads (CInner CDocument (csa ++ csb) lc) (AInner NDocument [] (ys ++ ysb) lc)).
  { constructor. rewrite filter_app. apply Forall2_app; assumption. }
  pose proof (proj1 (parse_sound _ _ J)) as GJ.
  destruct (reads_transform uuid _ _ GJ R) as (d & es & TD & ED).
  exists (CInner CDocument (csa ++ csb) lc), d. split; [exact J|]. split.
  - rewrite TD. repeat f_equal. rewrite (transform_own _ _ _ _ GJ TD), (transform_own _ _ _ _ GA TA), (transform_own _ _ _ _ GB TB).
    fold (errors_of (CInner CDocument (csa ++ csb) lc)). fold (errors_of (CInner CDocument (csa ++ [CLeaf LEOF None (tl e)]) la)).
    fold (errors_of (CInner CDocument csb lb)). rewrite !errors_list by reflexivity. rewrite !flat_map_app.
    cbn [flat_map]. unfold errors_of at 3. cbn [cst_nodes flat_map own app]. rewrite app_nil_r. reflexivity.
  - apply (f_equal bare) in ED. rewrite !bare_erase in ED. rewrite ED. cbn [bare parts]. reflexivity.
Qed.

Theorem paragraphs_understood : forall seg, seg_laws seg -> forall uuid a b ta ea ca aa esa tb cb ab esb,
  (forall a', a <> a' ++ [13%N]) -> ~ In 0%N a ->
  tokenize_str seg (a ++ [10; 10]%N) = Ok (ta ++ [ea]) -> countk opening ta = countk closing ta -> pending ta = false ->
  parse (ta ++ [ea]) = Ok ca -> transform uuid ca = Ok (aa, esa) -> filter (of_kind unclosed_kinds) esa = [] -> (exists t, In t ta /\ tk t <> TkNewLine) ->
  tokenize_str seg b = Ok tb -> parse tb = Ok cb -> transform uuid cb = Ok (ab, esb) ->
  exists ts c d es, tokenize_str seg (a ++ [10; 10]%N ++ b) = Ok ts /\ parse ts = Ok c /\ transform uuid c = Ok (d, esa ++ es) /\
    bare d = AInner NDocument [] (map bare (parts aa ++ parts ab)) mock_location /\
    map sight es = map sight (map (lower_error (countk newline ta)) esb).
Proof.
  intros seg L uuid a b ta ea ca aa esa tb cb ab esb CR NZ EA CN PN PA TA UA NP EB PB TB.
  destruct (two_newlines seg L a _ EA CR NZ) as (us & n1 & n2 & e & EU & K1 & K2 & KE & NU).
  assert (X : ta = us ++ [n1; n2] /\ ea = e).
  { apply app_inj_tail. rewrite EU, <- app_assoc. reflexivity. }
  destruct X as [-> ->].
  pose proof (tokenize_compose seg L (a ++ [10%N]) b (us ++ [n1; n2]) e tb) as TC.
  set (n := countk newline (us ++ [n1; n2])) in *.
  destruct (lowered uuid n tb cb ab esb PB TB) as (cb' & ab' & esb' & PB' & TB' & B & NR).
  assert (NP' : exists t, In t us /\ tk t <> TkNewLine).
  { destruct NP as (t & IT & NT). exists t. split; [|exact NT]. apply in_app_or in IT as [IT|[<-|[<-|[]]]]; congruence || exact IT. }
  rewrite EU in PA.
  destruct (joined uuid us n1 n2 e ca aa esa _ cb' ab' esb' K1 K2 KE NU PA TA UA NP' PB' TB') as (c & d & PC & TD & BD).
  exists ((us ++ [n1; n2]) ++ map (shift_tok n 0) tb), c, d, esb'. split; [|split; [|split; [|split]]].
  - replace (a ++ [10; 10]%N ++ b) with ((a ++ [10%N]) ++ [10%N] ++ b) by (rewrite <- app_assoc; reflexivity).
    apply TC; try assumption.
    + intros x E. apply app_inj_tail in E as [_ E]. discriminate.
    + rewrite in_app_iff. intros [E|[E|[]]]; [auto|discriminate].
    + rewrite <- app_assoc. exact EA.
  - rewrite <- app_assoc. exact PC.
  - exact TD.
  - rewrite BD, !map_app. f_equal. f_equal.
    assert (D : forall x y, bare x = bare y -> map bare (parts x) = map bare (parts y)).
    { intros [k i cs l|k i v l] [k' i' cs' l'|k' i' v' l'] E; try discriminate E; [injection E as _ E; exact E|reflexivity]. }
    apply D. exact B.
  - exact NR.
Qed.
