(** When [transform] succeeds, what its tree contains, and when it reports no error. *)
From Coq Require Import String List NArith Arith Bool Lia.
From Verif Require Import Base Tokens CST AST SpecCST TransformError SpecTransform Transform
  ParserProofs ParserProofs2 ParserLocations TransformProofs TransformErrors TransformKinds.
Import ListNotations.

(** ** Panics of the second pass *)
Fixpoint astable (c : cst) : bool :=
  match c with
  | CLeaf k v _ => match aux_leaf k v with Some _ => true | None => false end
  | CInner k cs _ => match aux_inner k with Some _ => forallb astable cs | None => false end
  end.

Lemma aux_total : forall uuid c n,
  if astable c then exists a n', aux uuid c n = Ok (a, n') else exists e, aux uuid c n = Panic e.
Proof.
  intros uuid c. induction c as [k v l|k cs l IH] using cst_ind'; intro n.
  - cbn. destruct (aux_leaf k v) as [[k' v']|]; eauto.
  - cbn [astable]. rewrite aux_inner_eq. destruct (aux_inner k) as [k'|]; [|eauto].
    assert (H : forall n, if forallb astable cs then exists r n', auxs uuid cs n = Ok (r, n') else exists e, auxs uuid cs n = Panic e).
    { clear n. induction IH as [|c cs Hc _ IHc]; intro n; [cbn; eauto|]. cbn [forallb auxs].
      specialize (Hc n). destruct (astable c); cbn [andb].
      - destruct Hc as (a & n1 & ->). cbn [bind]. specialize (IHc n1). fold (auxs uuid) in *.
        destruct (forallb astable cs).
        + destruct IHc as (r & n2 & ->). cbn. eauto.
        + destruct IHc as (e & ->). cbn. eauto.
      - destruct Hc as (e & ->). cbn. eauto. }
    specialize (H n). destruct (forallb astable cs).
    + destruct H as (r & n' & ->). cbn. eauto.
    + destruct H as (e & ->). cbn. eauto.
Qed.

Lemma aux_ok_astable : forall uuid c n a n', aux uuid c n = Ok (a, n') -> astable c = true.
Proof.
  intros uuid c n a n' H. pose proof (aux_total uuid c n) as T. destruct (astable c); [reflexivity|].
  destruct T as (e & E). congruence.
Qed.

Definition oky (y : cst) : Prop := sitem y = true /\ (inner y = true -> astable y = true).

Lemma oky_astable : forall y, oky y -> not_in_ast y = false -> astable y = true.
Proof.
  intros [k cs l|k v l] [A B] N; [apply B; reflexivity|]. destruct k; try discriminate; reflexivity.
Qed.

Lemma args_out_astable : forall rest prev es l pc,
  Forall (fun y => oky y \/ is_closer y = true) rest -> Forall (fun y => visible y = true) rest ->
  forallb astable es = true ->
  Forall (fun y => not_in_ast y = true \/ astable y = true) (fst (args_pure prev rest es l pc)).
Proof.
  assert (EM : forall es l, forallb astable es = true ->
            Forall (fun y => not_in_ast y = true \/ astable y = true) (emit es l)).
  { intros [|x es] l H; [constructor|]. constructor; [right; exact H|constructor]. }
  induction rest as [|c rest IH]; intros prev es l pc HF HV HE; [apply EM, HE|].
  apply Forall_cons_iff in HF as [Hc HF]. apply Forall_cons_iff in HV as [Vc HV].
  assert (HP : oky c -> not_in_ast c = false -> forallb astable (es ++ [c]) = true).
  { intros O N. rewrite forallb_app, HE. cbn. rewrite (oky_astable c O N). reflexivity. }
  destruct c as [k xs lc|k v lc].
  - cbn [args_pure]. destruct Hc as [Hc|Hc]; [|discriminate].
    apply IH; [exact HF|exact HV|]. apply HP; [exact Hc|]. reflexivity.
  - destruct k; cbn [args_pure];
      try (destruct Hc as [Hc|Hc]; [|discriminate]; first [discriminate Vc | destruct Hc as [Hc _]; discriminate Hc |
           apply IH; [exact HF|exact HV|]; apply HP; [exact Hc|reflexivity]]).
    + cbn [fst]. apply Forall_app. split; [apply EM, HE|]. repeat constructor.
    + cbn [fst]. apply Forall_app. split; [apply EM, HE|]. repeat constructor.
    + cbn [fst]. apply Forall_app. split; [apply EM, HE|]. repeat constructor.
    + specialize (IH (CLeaf LDot v lc) es l pc HF HV HE). destruct (args_pure _ rest es l pc). exact IH.
    + destruct es as [|x es].
      * specialize (IH (CLeaf LComma v lc) [] l pc HF HV HE). destruct (args_pure _ rest [] l pc). exact IH.
      * specialize (IH (CLeaf LComma v lc) [] mock_location true HF HV eq_refl).
        destruct (args_pure _ rest [] mock_location true). constructor; [right; exact HE|exact IH].
Qed.

Lemma remove_astable : forall cs, Forall (fun y => not_in_ast y = true \/ astable y = true) cs ->
  forallb astable (remove_elements_not_included_ast cs) = true.
Proof.
  intros cs H. induction H as [|y cs Hy _ IH]; [reflexivity|]. cbn. destruct (not_in_ast y) eqn:E; [exact IH|].
  cbn. destruct Hy as [Hy|Hy]; [discriminate|]. rewrite Hy. exact IH.
Qed.

Lemma out_astable : forall o lo ys close, not_in_ast (CLeaf o None lo) = true ->
  Forall oky ys -> (close = [] \/ exists c, close = [c] /\ is_closer c = true) ->
  forallb astable (out (CLeaf o None lo :: ys ++ close)) = true.
Proof.
  intros o lo ys close HO HY HC. unfold out. rewrite strip_filter. apply remove_astable.
  set (W := filter visible (CLeaf o None lo :: ys ++ close)).
  assert (HW : Forall (fun y => y = CLeaf o None lo \/ oky y \/ is_closer y = true) W).
  { apply Forall_filter. constructor; [auto|]. apply Forall_app. split.
    - eapply Forall_impl; [|exact HY]. auto.
    - destruct HC as [->|(c & -> & C)]; constructor; [auto|constructor]. }
  assert (HV : Forall (fun y => visible y = true) W).
  { rewrite Forall_forall. intros y Hy. apply filter_In in Hy as [_ Hy]. exact Hy. }
  assert (HD : forall W, Forall (fun y => y = CLeaf o None lo \/ oky y \/ is_closer y = true) W ->
            Forall (fun y => not_in_ast y = true \/ astable y = true) W).
  { intros W' HW'. eapply Forall_impl; [|exact HW']. intros y [->|[O|C]].
    - auto.
    - destruct (not_in_ast y) eqn:E; [auto|right]. apply oky_astable; assumption.
    - left. destruct y as [|[]]; try discriminate; reflexivity. }
  assert (HT : Forall (fun y => oky y \/ is_closer y = true) (match W with [] => [] | _ :: r => r end)).
  { unfold W. cbn [filter].
    assert (G : Forall (fun y => oky y \/ is_closer y = true) (filter visible (ys ++ close))).
    { apply Forall_filter, Forall_app. split; [eapply Forall_impl; [|exact HY]; auto|].
      destruct HC as [->|(c & -> & C)]; constructor; [auto|constructor]. }
    destruct (visible (CLeaf o None lo)); [exact G|]. destruct (filter visible (ys ++ close)); [constructor|].
    apply Forall_inv_tail in G. exact G. }
  destruct W as [|w0 [|w1 [|w2 [|w3 rest]]]]; try (apply HD; exact HW).
  cbn [cva]. pose proof (args_out_astable rest w3 [] mock_location false) as A.
  destruct (args_pure w3 rest [] mock_location false) as [oo ee]. cbn [fst] in *.
  change (w0 :: w1 :: w2 :: w3 :: oo) with ([w0; w1; w2; w3] ++ oo). apply Forall_app. split.
  - apply HD. change (w0 :: w1 :: w2 :: w3 :: rest) with ([w0; w1; w2; w3] ++ rest) in HW.
    apply Forall_app in HW as [HW _]. exact HW.
  - apply A; [|do 4 apply Forall_inv_tail in HV; exact HV|reflexivity].
    do 3 apply Forall_inv_tail in HT. exact HT.
Qed.

Lemma SItem_oky :
  (forall c c' es (H : SItem c c' es), oky c') /\
  (forall xs ys es (H : SItems xs ys es), Forall oky ys).
Proof.
  apply (SItem_both (fun c c' es _ => oky c') (fun xs ys es _ => Forall oky ys)).
  - intros k v l E. split; [destruct k; try discriminate; reflexivity|discriminate].
  - intros. split; [reflexivity|discriminate].
  - intros. split; [reflexivity|discriminate].
  - intros k o c lo body close l xs ys es items HB HF HC HX HS IH HI. split.
    + destruct k; try discriminate; reflexivity.
    + intros _. subst items. cbn [astable].
      assert (E : forallb astable (out (CLeaf o None lo :: ys ++ close)) = true).
      { apply out_astable; [destruct k; try discriminate; injection HB as <- <-; reflexivity|exact IH|].
        destruct HC as [->|[lc ->]]; [auto|right]. eexists. split; [reflexivity|].
        destruct k; try discriminate; injection HB as <- <-; reflexivity. }
      rewrite E. destruct k; try discriminate; reflexivity.
  - constructor.
  - intros. constructor; assumption.
Qed.

(** A simplified item is convertible unless it is a bare mark. *)
Lemma SItem_astable : forall c c' es, SItem c c' es -> ~ is_leaf LNewline c ->
  (astable c' = false <-> mark c).
Proof.
  intros c c' es H HN. pose proof (proj1 SItem_oky _ _ _ H) as [O1 O2].
  inversion H as [k v l E|l|s l l'|k o c0 lo body close l xs ys es0 items HB]; subst.
  - clear O1 O2. cbn. split.
    + intro A. unfold mark, is_leaf. destruct k; try discriminate.
      * right; right; eauto.
      * exfalso. apply HN. do 2 eexists. reflexivity.
      * left; eauto.
      * right; left; eauto.
    + intros [(?&?&A)|[(?&?&A)|(?&?&A)]]; injection A as -> -> ->; reflexivity.
  - split; [discriminate|]. intros [(?&?&A)|[(?&?&A)|(?&?&A)]]; discriminate A.
  - split; [discriminate|]. intros [(?&?&A)|[(?&?&A)|(?&?&A)]]; discriminate A.
  - split; [intro A; rewrite O2 in A by reflexivity; discriminate|]. intros [(?&?&A)|[(?&?&A)|(?&?&A)]]; discriminate A.
Qed.

Lemma SItems_astable : forall xs ys es, SItems xs ys es -> Forall (fun x => ~ is_leaf LNewline x) xs ->
  (forallb astable ys = false <-> exists x, In x xs /\ mark x).
Proof.
  intros xs ys es H. induction H as [|c c' es cs cs' ess H1 H2 IH]; intro HN.
  - cbn. split; [discriminate|]. intros (x & [] & _).
  - apply Forall_cons_iff in HN as [Hc HN]. specialize (IH HN). pose proof (SItem_astable _ _ _ H1 Hc) as A.
    cbn. rewrite andb_false_iff, A, IH. split.
    + intros [M|(x & I & M)]; eauto.
    + intros (x & [<-|I] & M); eauto.
Qed.

Lemma SList_astable : forall (R : cst -> cst -> list terror -> Prop) (B : cst -> Prop),
  (forall c c' es, R c c' es -> (inner c' = true /\ astable c' = false <-> B c)) ->
  forall xs ys es, SList R xs ys es ->
  (forallb astable (filter inner ys) = false <-> exists x, In x xs /\ B x).
Proof.
  intros R B HR xs ys es H. induction H as [|c c' es cs cs' ess H1 H2 IH].
  - cbn. split; [discriminate|]. intros (x & [] & _).
  - specialize (HR _ _ _ H1). cbn [filter]. destruct (inner c') eqn:E.
    + cbn [forallb]. rewrite andb_false_iff, IH. split.
      * intros [A|(x & I & Bx)]; [exists c; split; [left; reflexivity|apply HR; auto]|exists x; split; [right; exact I|exact Bx]].
      * intros (x & [<-|I] & Bx); [left; apply HR in Bx as [_ Bx]; exact Bx|right; eauto].
    + rewrite IH. split.
      * intros (x & I & Bx). exists x. split; [right; exact I|exact Bx].
      * intros (x & [<-|I] & Bx); [apply HR in Bx as [Bx _]; discriminate|eauto].
Qed.

Definition line_items (e : cst) : list cst := match e with CInner CExpr xs _ => xs | _ => [] end.
Definition stmt_lines (s : cst) : list cst := match s with CInner CStmt es _ => es | _ => [] end.

Lemma g_item_not_newline : forall x, g_item x -> ~ is_leaf LNewline x.
Proof.
  intros x H (v & l & ->). inversion H as [| |? ? ? E|? ? E|]; subst; repeat destruct E as [E|E]; try discriminate; exact E.
Qed.

Lemma SLine_astable : forall c c' es, SLine c c' es ->
  (inner c' = true /\ astable c' = false <-> exists x, In x (line_items c) /\ mark x).
Proof.
  intros c c' es H. inversion H as [xs ys es0 l HN HF HS|k l HI]; subst.
  - cbn [inner astable aux_inner line_items]. rewrite <- (SItems_astable _ _ _ HS); [intuition|].
    eapply Forall_impl; [|exact HF]. exact g_item_not_newline.
  - split; [intros [A _]; discriminate|]. intros (x & [] & _).
Qed.

Lemma SStmt_astable : forall c c' es, SStmt c c' es ->
  (inner c' = true /\ astable c' = false <-> exists e, In e (stmt_lines c) /\ exists x, In x (line_items e) /\ mark x).
Proof.
  intros c c' es H. inversion H as [xs ys es0 l HS|k l HI]; subst.
  - cbn [inner astable aux_inner stmt_lines]. rewrite <- (SList_astable _ _ SLine_astable _ _ _ HS). intuition.
  - split; [intros [A _]; discriminate|]. intros (x & [] & _).
Qed.

Theorem SDoc_astable : forall c c' es, SDoc c c' es ->
  (astable c' = false <-> exists x, In x (top_items c) /\ mark x).
Proof.
  intros c c' es H. inversion H as [xs ys es0 l HS]; subst.
  cbn [astable aux_inner]. rewrite (SList_astable _ _ SStmt_astable _ _ _ HS). unfold top_items, lines. split.
  - intros (s & I1 & e & I2 & x & I3 & M). exists x. split; [|exact M].
    apply in_flat_map. exists e. split; [|exact I3]. apply in_flat_map. exists s. split; assumption.
  - intros (x & I & M). apply in_flat_map in I as (e & I & I3). apply in_flat_map in I as (s & I1 & I2). eauto 8.
Qed.

(** [transform] on a parsed document: a tree and errors, or a panic, and when. *)
Theorem transform_panics : forall uuid c, g_document c ->
  ((exists x, In x (top_items c) /\ mark x) /\ exists e, transform uuid c = Panic e) \/
  (~ (exists x, In x (top_items c) /\ mark x) /\ exists a es, transform uuid c = Ok (a, es)).
Proof.
  intros uuid c G. destruct (SDoc_exists c G) as (c' & es & S). unfold transform.
  rewrite (SDoc_simplify _ _ _ S). cbn [bind]. pose proof (SDoc_astable _ _ _ S) as A.
  pose proof (aux_total uuid c' 0) as T. destruct (astable c').
  - right. destruct T as (a & n & ->). split; [|cbn; eauto]. intro M. apply A in M. discriminate.
  - left. destruct T as (e & ->). split; [apply A; reflexivity|cbn; eauto].
Qed.

(** ** Words *)
Lemma aux_words : forall uuid c n a n', aux uuid c n = Ok (a, n') -> ast_words a = cst_words c.
Proof.
  intros uuid c. induction c as [k v l|k cs l IH] using cst_ind'; intros n a n' H.
  - cbn in H. destruct (aux_leaf k v) as [[k' v']|] eqn:E; [|discriminate]. injection H as <- <-.
    destruct k; try discriminate; injection E as <- <-; destruct v; reflexivity.
  - rewrite aux_inner_eq in H. destruct (aux_inner k) as [k'|] eqn:EK; [|discriminate].
    apply bind_ok in H as ([r n1] & A & H). injection H as <- <-. cbn [ast_words cst_words].
    assert (E : flat_map ast_words r = flat_map cst_words cs).
    2: { rewrite E. f_equal. destruct k; try discriminate; injection EK as <-; reflexivity. }
    clear EK. revert n r n1 A. induction IH as [|c cs Hc _ IHc]; intros n r n1 A.
    + injection A as <- <-. reflexivity.
    + cbn [auxs] in A. apply bind_ok in A as ([a n2] & A1 & A). fold (auxs uuid) in A.
      apply bind_ok in A as ([r' n3] & A2 & A). injection A as <- <-. cbn.
      rewrite (Hc _ _ _ A1), (IHc _ _ _ A2). reflexivity.
Qed.

Definition words := flat_map cst_words.
Lemma words_app : forall a b, words (a ++ b) = words a ++ words b.
Proof. intros. apply flat_map_app. Qed.

Lemma remove_words : forall cs, words (remove_elements_not_included_ast cs) = words cs.
Proof.
  induction cs as [|c cs IH]; [reflexivity|]. cbn. destruct (not_in_ast c) eqn:E; cbn; rewrite <- ?IH.
  - destruct c as [|k v l]; [discriminate|]. destruct k, v; try discriminate; reflexivity.
  - reflexivity.
Qed.

Lemma visible_words : forall cs, words (filter visible cs) = words cs.
Proof.
  induction cs as [|c cs IH]; [reflexivity|]. cbn. destruct (visible c) eqn:E; cbn; rewrite <- ?IH.
  - reflexivity.
  - destruct c as [|k v l]; [discriminate|]. destruct k, v; try discriminate; reflexivity.
Qed.

Lemma emit_words : forall es l, words (emit es l) = words es.
Proof. intros [|x es] l; [reflexivity|]. cbn. rewrite app_nil_r. reflexivity. Qed.

Lemma args_words : forall rest prev es l pc close,
  Forall (fun c => is_closer c = false) rest ->
  (close = [] \/ exists c, close = [c] /\ is_closer c = true) ->
  words (fst (args_pure prev (rest ++ close) es l pc)) = words es ++ words rest.
Proof.
  induction rest as [|c rest IH]; intros prev es l pc close HF HC.
  - destruct HC as [->|(c & -> & HC)]; cbn [app].
    + cbn. rewrite emit_words, app_nil_r. reflexivity.
    + destruct c as [|k v lc]; [discriminate|].
      destruct k; try discriminate; cbn [args_pure fst]; rewrite words_app, emit_words; destruct v; reflexivity.
  - apply Forall_cons_iff in HF as [Hc HF]. cbn [app].
    assert (P : forall c, words (es ++ [c]) ++ words rest = words es ++ words (c :: rest)).
    { intro x. rewrite words_app, <- app_assoc. cbn. rewrite app_nil_r. reflexivity. }
    destruct c as [k xs lc|k v lc].
    + cbn [args_pure]. rewrite (IH _ _ _ _ close HF HC). apply P.
    + destruct k; try discriminate; cbn [args_pure]; try (rewrite (IH _ _ _ _ close HF HC); apply P).
      * specialize (IH (CLeaf LDot v lc) es l pc close HF HC).
        destruct (args_pure _ (rest ++ close) es l pc) as [o e]. cbn [fst] in *. rewrite IH. destruct v; reflexivity.
      * destruct es as [|x es].
        -- specialize (IH (CLeaf LComma v lc) [] l pc close HF HC).
           destruct (args_pure _ (rest ++ close) [] l pc) as [o e]. cbn [fst] in *. rewrite IH. destruct v; reflexivity.
        -- specialize (IH (CLeaf LComma v lc) [] mock_location true close HF HC).
           destruct (args_pure _ (rest ++ close) [] mock_location true) as [o e]. cbn [fst] in *.
           change (words (CInner CExpr (x :: es) l :: o)) with (words (x :: es) ++ words o). rewrite IH. destruct v; reflexivity.
Qed.

Lemma closer_words : forall c, is_closer c = true -> cst_words c = [].
Proof. intros [|[] [] ?] H; try discriminate; reflexivity. Qed.

Lemma out_words : forall o ys close, is_closer o = false ->
  Forall (fun c => is_closer c = false) ys ->
  (close = [] \/ exists c, close = [c] /\ is_closer c = true) ->
  words (out (o :: ys ++ close)) = words (o :: ys ++ close).
Proof.
  intros o ys close HO HF HC. unfold out. rewrite remove_words, strip_filter.
  rewrite <- (visible_words (o :: ys ++ close)).
  assert (HS : exists V close', filter visible (o :: ys ++ close) = V ++ close' /\ Forall (fun c => is_closer c = false) V /\
            (close' = [] \/ exists c, close' = [c] /\ is_closer c = true)).
  { exists (filter visible (o :: ys)), (filter visible close). rewrite app_comm_cons, filter_app. split; [reflexivity|].
    split; [apply Forall_filter; constructor; assumption|]. destruct HC as [->|(c & -> & C)]; [auto|right].
    exists c. split; [|exact C]. destruct c as [|[]]; try discriminate; reflexivity. }
  destruct HS as (V & close' & -> & HV & HC'). clear HF HC HO.
  destruct V as [|w0 [|w1 [|w2 [|w3 rest]]]].
  1-4: destruct HC' as [->|(c & -> & C)]; reflexivity.
  cbn [app cva]. do 4 apply Forall_inv_tail in HV.
  pose proof (args_words rest w3 [] mock_location false close' HV HC') as A.
  destruct (args_pure w3 (rest ++ close') [] mock_location false) as [oo ee]. cbn [fst] in *.
  change (words (w0 :: w1 :: w2 :: w3 :: oo)) with (words ([w0; w1; w2; w3] ++ oo)).
  change (words (w0 :: w1 :: w2 :: w3 :: rest ++ close')) with (words ([w0; w1; w2; w3] ++ rest ++ close')).
  rewrite !words_app, A. cbn [app]. destruct HC' as [->|(c & -> & C)]; [rewrite app_nil_r; reflexivity|].
  unfold words at 4. cbn. rewrite (closer_words c C), !app_nil_r. reflexivity.
Qed.

Lemma flat_words : forall cs, words (flat cs) = words cs.
Proof.
  intro cs. unfold words, flat. induction cs as [|c cs IH]; [reflexivity|]. cbn. rewrite flat_map_app, IH. f_equal.
  destruct c as [[]|]; cbn; rewrite ?app_nil_r; reflexivity.
Qed.

Lemma SItem_words :
  (forall c c' es (H : SItem c c' es), cst_words c' = cst_words c) /\
  (forall xs ys es (H : SItems xs ys es), words ys = words xs).
Proof.
  apply (SItem_both (fun c c' es _ => cst_words c' = cst_words c) (fun xs ys es _ => words ys = words xs)); try reflexivity.
  - intros k o c lo body close l xs ys es items HB HF HC HX HS IH HI. subst items xs.
    assert (E : forall cs l, cst_words (CInner k cs l) = cst_marks k [] ++ words cs)
      by (intros; destruct k; try discriminate; reflexivity). rewrite !E. clear E. f_equal.
    rewrite out_words.
    + change (words (CLeaf o None lo :: ys ++ close)) with (words ([CLeaf o None lo] ++ ys ++ close)).
      change (words (CLeaf o None lo :: body ++ close)) with (words ([CLeaf o None lo] ++ body ++ close)).
      rewrite !words_app, IH, flat_words. reflexivity.
    + destruct k; try discriminate; injection HB as <- <-; reflexivity.
    + eapply Forall_impl; [|eapply SItems_sitem; exact HS]. intros [[]|[]] A; try discriminate; reflexivity.
    + destruct HC as [->|[lc ->]]; [auto|right]. eexists. split; [reflexivity|].
      destruct k; try discriminate; injection HB as <- <-; reflexivity.
  - intros c c' es cs cs' ess H1 IH1 H2 IH2. cbn. rewrite IH1. f_equal. exact IH2.
Qed.

Lemma SList_words : forall (R : cst -> cst -> list terror -> Prop),
  (forall c c' es, R c c' es -> (if inner c' then cst_words c' else []) = cst_words c) ->
  forall xs ys es, SList R xs ys es -> words (filter inner ys) = words xs.
Proof.
  intros R HR xs ys es H. induction H as [|c c' es cs cs' ess H1 H2 IH]; [reflexivity|].
  specialize (HR _ _ _ H1). cbn. rewrite <- HR, <- IH. destruct (inner c'); reflexivity.
Qed.

Lemma SLine_words : forall c c' es, SLine c c' es -> (if inner c' then cst_words c' else []) = cst_words c.
Proof.
  intros c c' es H. inversion H as [xs ys es0 l HN HF HS|k l HI]; subst.
  - exact (proj2 SItem_words _ _ _ HS).
  - destruct HI as [<-|[<-|[<-|[<-|[]]]]]; reflexivity.
Qed.

Lemma SStmt_words : forall c c' es, SStmt c c' es -> (if inner c' then cst_words c' else []) = cst_words c.
Proof.
  intros c c' es H. inversion H as [xs ys es0 l HS|k l HI]; subst.
  - exact (SList_words _ SLine_words _ _ _ HS).
  - destruct HI as [<-|[<-|[]]]; reflexivity.
Qed.

Theorem transform_words : forall uuid c a es, g_document c -> transform uuid c = Ok (a, es) ->
  ast_words a = cst_words c.
Proof.
  intros uuid c a es G H. destruct (SDoc_exists c G) as (c' & e & S). unfold transform in H.
  rewrite (SDoc_simplify _ _ _ S) in H. cbn [bind] in H. apply bind_ok in H as ([a' n] & A & H).
  injection H as <- <-. rewrite (aux_words _ _ _ _ _ A). inversion S as [xs ys es0 l HS]; subst.
  exact (SList_words _ SStmt_words _ _ _ HS).
Qed.
