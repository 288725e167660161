(** [transform] without errors follows the grammar of commands, and conversely. *)
From Coq Require Import String List NArith Arith Bool Lia.
From Verif Require Import Base Tokens CST AST SpecCST TransformError SpecTransform Transform
  ParserProofs ParserProofs2 ParserLocations TransformProofs TransformErrors TransformKinds TransformMeans.
Import ListNotations.

Lemma comma_iff : forall c, is_leaf LComma c <-> is_comma c = true.
Proof.
  intros c. split; [intros (v & l & ->); reflexivity|]. destruct c as [|[] v l]; try discriminate. intros _. do 2 eexists. reflexivity.
Qed.
Lemma not_comma_iff : forall c, ~ is_leaf LComma c <-> is_comma c = false.
Proof. intro c. rewrite comma_iff. destruct (is_comma c); split; congruence. Qed.

Definition nocomma (g : list cst) : Prop := forall c, In c g -> ~ is_leaf LComma c.

(** The first group ends at the first comma. *)
Lemma first_comma : forall g es c rest rest' c', nocomma g -> nocomma es -> is_leaf LComma c -> is_leaf LComma c' ->
  g ++ c' :: rest' = es ++ c :: rest -> g = es /\ c' = c /\ rest' = rest.
Proof.
  induction g as [|x g IH]; intros [|y es] c rest rest' c' Hg He Hc Hc' E; cbn in E.
  - injection E as -> ->. auto.
  - injection E as -> _. destruct (He y (or_introl eq_refl) Hc').
  - injection E as -> _. destruct (Hg c (or_introl eq_refl) Hc).
  - injection E as -> E. destruct (IH es c rest rest' c') as (-> & -> & ->); auto;
      intros z Hz; [apply Hg|apply He]; right; exact Hz.
Qed.

Lemma cs_inv : forall es c rest gs, nocomma es -> is_leaf LComma c -> comma_separated (es ++ c :: rest) gs ->
  es <> [] /\ exists gs', comma_separated rest gs' /\ gs = es :: gs'.
Proof.
  intros es c rest gs He Hc H. remember (es ++ c :: rest) as xs eqn:E. destruct H as [g Hg Hn|g c' rest' gs' Hg Hn Hc' H].
  - exfalso. subst g. apply (Hn c); [|exact Hc]. apply in_or_app. right. left. reflexivity.
  - destruct (first_comma g es c rest rest' c') as (-> & -> & ->); auto. split; [exact Hg|eauto].
Qed.

Lemma cs_nonempty : forall xs gs, comma_separated xs gs -> xs <> [].
Proof.
  intros xs gs H. destruct H as [g Hg _|g c rest gs Hg _ _ _]; [exact Hg|]. destruct g; [contradiction|discriminate].
Qed.

(** An argument expression made by the loop. *)
Definition arg_expr (g : list cst) (e : cst) : Prop :=
  e = CInner CExpr g (fold_loc g).

Lemma nocomma_snoc : forall es c, nocomma es -> is_comma c = false -> nocomma (es ++ [c]).
Proof.
  intros es c He Hc x Hx. apply in_app_or in Hx as [Hx|[<-|[]]]; [apply He, Hx|]. apply not_comma_iff, Hc.
Qed.

Lemma args_clean : forall vis prev es l pc cl,
  Forall (fun y => is_closer y = false) vis -> is_closer cl = true -> l = fold_loc es -> nocomma es ->
  snd (args_pure prev (vis ++ [cl]) es l pc) = [] ->
  Forall (fun y => good_dot y = false) vis /\
  exists gs exprs, ((es ++ vis = [] /\ pc = false /\ gs = []) \/ comma_separated (es ++ vis) gs) /\
    fst (args_pure prev (vis ++ [cl]) es l pc) = exprs ++ [cl] /\ Forall2 arg_expr gs exprs.
Proof.
  induction vis as [|c vis IH]; intros prev es l pc cl HF HC HL HE H.
  - split; [constructor|]. destruct cl as [|k v lc]; [discriminate|].
    assert (H' : match es with [] => if pc then [(EUnexpectedComma, cst_location prev)] else [] | _ => [] end = []).
    { destruct k; try discriminate; exact H. }
    assert (H2 : fst (args_pure prev ([] ++ [CLeaf k v lc]) es l pc) = emit es l ++ [CLeaf k v lc]).
    { destruct k; try discriminate; reflexivity. }
    exists (match es with [] => [] | _ => [es] end), (emit es l). rewrite app_nil_r. split; [|split; [exact H2|]].
    + destruct es as [|x es]; [left|right].
      * destruct pc; [discriminate|auto].
      * constructor; [discriminate|exact HE].
    + destruct es as [|x es]; [constructor|]. constructor; [|constructor]. unfold arg_expr. rewrite <- HL. reflexivity.
  - apply Forall_cons_iff in HF as [Hc HF]. cbn [app] in H |- *.
    assert (PUSH : forall x prev, is_comma x = false -> good_dot x = false ->
      snd (args_pure prev (vis ++ [cl]) (es ++ [x]) (merge_location l (cst_location x)) false) = [] ->
      Forall (fun y => good_dot y = false) (x :: vis) /\
      exists gs exprs, ((es ++ x :: vis = [] /\ pc = false /\ gs = []) \/ comma_separated (es ++ x :: vis) gs) /\
      fst (args_pure prev (vis ++ [cl]) (es ++ [x]) (merge_location l (cst_location x)) false) = exprs ++ [cl] /\
      Forall2 arg_expr gs exprs).
    { intros x p Hx Hd Hs. destruct (IH p (es ++ [x]) (merge_location l (cst_location x)) false cl) as (A & gs & exprs & B & C & D); auto.
      - rewrite fold_loc_snoc, HL. reflexivity.
      - apply nocomma_snoc; assumption.
      - split; [constructor; assumption|]. exists gs, exprs. rewrite <- app_assoc in B. split; [|auto].
        right. destruct B as [(B & _)|B]; [|exact B]. destruct es; discriminate. }
    destruct c as [k xs lc|k v lc]; [apply PUSH; auto|].
    destruct k; try discriminate; cbn [args_pure] in *; try (apply PUSH; auto; fail).
    + destruct (args_pure _ (vis ++ [cl]) es l pc) as [o e]. discriminate.
    + destruct es as [|x es].
      * destruct (args_pure _ (vis ++ [cl]) [] l pc) as [o e]. discriminate.
      * specialize (IH (CLeaf LComma v lc) [] mock_location true cl HF HC eq_refl ltac:(intros ? [])).
        destruct (args_pure _ (vis ++ [cl]) [] mock_location true) as [o e]. cbn [fst snd] in *.
        destruct (IH H) as (A & gs & exprs & B & C & D). split; [constructor; [reflexivity|exact A]|].
        destruct B as [(_ & B & _)|B]; [discriminate|].
        exists ((x :: es) :: gs), (CInner CExpr (x :: es) l :: exprs). split; [right|split].
        -- apply CS_more; auto; [discriminate|]. do 2 eexists. reflexivity.
        -- rewrite C. reflexivity.
        -- constructor; [|exact D]. unfold arg_expr. rewrite <- HL. reflexivity.
Qed.

Lemma args_clean_conv : forall vis prev es l pc cl,
  Forall (fun y => is_closer y = false) vis -> is_closer cl = true -> nocomma es ->
  Forall (fun y => good_dot y = false) vis ->
  (es ++ vis = [] /\ pc = false) \/ (exists gs, comma_separated (es ++ vis) gs) ->
  snd (args_pure prev (vis ++ [cl]) es l pc) = [].
Proof.
  induction vis as [|c vis IH]; intros prev es l pc cl HF HC HE HD H.
  - assert (H' : snd (args_pure prev ([] ++ [cl]) es l pc) =
      match es with [] => if pc then [(EUnexpectedComma, cst_location prev)] else [] | _ => [] end).
    { destruct cl as [|k v lc]; [discriminate|]. destruct k; try discriminate; reflexivity. }
    rewrite H'. destruct es; [|reflexivity]. destruct H as [[_ ->]|[gs H]]; [reflexivity|].
    apply cs_nonempty in H. contradiction.
  - apply Forall_cons_iff in HF as [Hc HF]. apply Forall_cons_iff in HD as [Dc HD].
    destruct H as [[H _]|[gs H]]; [destruct es; discriminate|].
    assert (PUSH : forall p l', is_comma c = false -> snd (args_pure p (vis ++ [cl]) (es ++ [c]) l' false) = []).
    { intros p l' Hx. apply IH; auto; [apply nocomma_snoc; assumption|]. right. exists gs. rewrite <- app_assoc. exact H. }
    cbn [app]. destruct c as [k xs lc|k v lc]; [apply PUSH; reflexivity|].
    destruct k; try discriminate; cbn [args_pure]; try (apply PUSH; reflexivity).
    destruct (cs_inv es _ vis gs HE ltac:(do 2 eexists; reflexivity) H) as (NE & gs' & H' & _).
    destruct es as [|x es]; [contradiction|].
    specialize (IH (CLeaf LComma v lc) [] mock_location true cl HF HC ltac:(intros ? []) HD (or_intror (ex_intro _ gs' H'))).
    destruct (args_pure _ (vis ++ [cl]) [] mock_location true) as [o e]. exact IH.
Qed.

(** ** One command *)
Lemma filter_idem : forall (A : Type) (p : A -> bool) l, filter p (filter p l) = filter p l.
Proof.
  intros A p l. apply filter_true. rewrite Forall_forall. intros x Hx. apply filter_In in Hx as [_ Hx]. exact Hx.
Qed.

Lemma head_clean : forall o ys cl, Forall (fun c => sitem c = true) ys -> is_closer cl = true ->
  head_errors (o :: ys ++ [cl]) = [] ->
  exists m d f args, ys = m :: d :: f :: args /\ good_module m = true /\ good_dot d = true /\ good_ident f = true.
Proof.
  intros o ys cl HS HC H. unfold head_errors in H.
  apply app_eq_nil in H as [H1 H]. apply app_eq_nil in H as [H2 H]. apply app_eq_nil in H as [H3 _].
  assert (C1 : forall x, is_closer x = true -> good_module x = false /\ good_dot x = false /\ good_ident x = false).
  { intros [[]|[]] E; try discriminate; auto. }
  assert (G1 : forall x, (match x with CLeaf LModule _ _ => [] | CInner CAngle _ _ => [] | _ => [(EModuleNotFound, cst_location x)] end = []) -> good_module x = true).
  { intros [[]|[]] E; try discriminate; auto. }
  assert (G2 : forall x, (match x with CLeaf LDot _ _ => [] | _ => [(EDotNotFound, cst_location x)] end = []) -> good_dot x = true).
  { intros [[]|[]] E; try discriminate; auto. }
  assert (G3 : forall x, (match x with CLeaf LIdent _ _ => [] | CInner CAngle _ _ => [] | _ => [(EIdentifierNotFound, cst_location x)] end = []) -> good_ident x = true).
  { intros [[]|[]] E; try discriminate; auto. }
  destruct (C1 cl HC) as (K1 & K2 & K3).
  destruct ys as [|m ys]; [apply G1 in H1; congruence|]. apply G1 in H1.
  destruct ys as [|d ys]; [apply G2 in H2; congruence|]. apply G2 in H2.
  destruct ys as [|f ys]; [apply G3 in H3; congruence|]. apply G3 in H3. eauto 10.
Qed.

Lemma good_visible : forall x, good_module x = true \/ good_dot x = true \/ good_ident x = true -> visible x = true.
Proof. intros [[]|[]] [|[|]]; try discriminate; reflexivity. Qed.

Lemma remove_app : forall a b, remove_elements_not_included_ast (a ++ b) =
  remove_elements_not_included_ast a ++ remove_elements_not_included_ast b.
Proof.
  induction a as [|x a IH]; intro b; [reflexivity|]. cbn. destruct (not_in_ast x); rewrite IH; reflexivity.
Qed.

Lemma remove_exprs : forall gs exprs, Forall2 arg_expr gs exprs -> remove_elements_not_included_ast exprs = exprs.
Proof.
  intros gs exprs H. induction H as [|g e gs es -> _ IH]; [reflexivity|]. cbn. rewrite IH. reflexivity.
Qed.

Lemma bracket_clean : forall o ys cl,
  not_in_ast o = true -> visible o = true -> Forall (fun c => sitem c = true) ys -> is_closer cl = true ->
  head_errors (o :: ys ++ [cl]) = [] -> snd (cva (strip (o :: ys ++ [cl]))) = [] ->
  exists m d f args gs exprs,
    ys = m :: d :: f :: args /\ good_module m = true /\ good_dot d = true /\ good_ident f = true /\
    Forall (fun y => good_dot y = false) args /\ arguments args gs /\
    out (o :: ys ++ [cl]) = m :: f :: exprs /\ Forall2 arg_expr gs exprs.
Proof.
  intros o ys cl HO VO HS HC HH HA. destruct (head_clean o ys cl HS HC HH) as (m & d & f & args & -> & Gm & Gd & Gf).
  assert (ES : strip (o :: (m :: d :: f :: args) ++ [cl]) = o :: m :: d :: f :: filter visible args ++ [cl]).
  { rewrite strip_filter. cbn. rewrite VO, (good_visible m), (good_visible d), (good_visible f) by auto.
    rewrite filter_app. cbn. assert (V : visible cl = true) by (destruct cl as [|[]]; try discriminate; reflexivity).
    rewrite V. reflexivity. }
  unfold out. rewrite ES in HA |- *. cbn [cva] in *.
  do 3 apply Forall_inv_tail in HS.
  pose proof (args_clean (filter visible args) f [] mock_location false cl) as A.
  destruct (args_pure f (filter visible args ++ [cl]) [] mock_location false) as [oo ee]. cbn [fst snd] in *.
  destruct A as (A1 & gs & exprs & A2 & A3 & A4); auto.
  { apply Forall_filter. eapply Forall_impl; [|exact HS]. intros [[]|[]] E; try discriminate; reflexivity. }
  { intros ? []. }
  exists m, d, f, args, gs, exprs. repeat (split; [reflexivity || assumption|]). split; [|split; [|split]].
  - clear - A1. induction args as [|x args IH]; [constructor|]. cbn in A1. destruct (visible x) eqn:E.
    + inversion A1; subst. constructor; auto.
    + constructor; [|auto]. destruct x as [|[]]; try discriminate; reflexivity.
  - unfold arguments. cbn in A2. destruct A2 as [(A & _ & ->)|A]; auto.
  - subst oo. change (o :: m :: d :: f :: exprs ++ [cl]) with ([o; m; d; f] ++ exprs ++ [cl]).
    rewrite !remove_app, (remove_exprs gs exprs A4).
    assert (NC : not_in_ast cl = true) by (destruct cl as [|[]]; try discriminate; reflexivity).
    assert (ND : not_in_ast d = true) by (destruct d as [|[]]; try discriminate; reflexivity).
    assert (NM : not_in_ast m = false) by (destruct m as [[]|[]]; try discriminate; reflexivity).
    assert (NF : not_in_ast f = false) by (destruct f as [[]|[]]; try discriminate; reflexivity).
    cbn. rewrite HO, NM, ND, NF, NC, app_nil_r. reflexivity.
  - exact A4.
Qed.

Lemma bracket_clean_conv : forall o m d f args cl gs,
  visible o = true -> Forall (fun c => sitem c = true) args -> is_closer cl = true ->
  good_module m = true -> good_dot d = true -> good_ident f = true ->
  Forall (fun y => good_dot y = false) args -> arguments args gs ->
  head_errors (o :: (m :: d :: f :: args) ++ [cl]) = [] /\ snd (cva (strip (o :: (m :: d :: f :: args) ++ [cl]))) = [].
Proof.
  intros o m d f args cl gs VO HS HC Gm Gd Gf HD HA. split.
  - unfold head_errors. 
    assert (E1 : check_if_module_or_angle_bracket (o :: (m :: d :: f :: args) ++ [cl]) = []).
    { cbn. destruct m as [[]|[]]; try discriminate; reflexivity. }
    assert (E2 : check_if_dot (o :: (m :: d :: f :: args) ++ [cl]) = []).
    { cbn. destruct d as [[]|[]]; try discriminate; reflexivity. }
    assert (E3 : check_if_ident_or_angle_bracket (o :: (m :: d :: f :: args) ++ [cl]) = []).
    { cbn. destruct f as [[]|[]]; try discriminate; reflexivity. }
    rewrite E1, E2, E3, check4_spec. unfold dots_from. cbn [skipn app].
    rewrite filter_false; [reflexivity|]. constructor; [destruct f as [[]|[]]; try discriminate; reflexivity|].
    apply Forall_app. split; [exact HD|]. constructor; [|constructor]. destruct cl as [|[]]; try discriminate; reflexivity.
  - assert (ES : strip (o :: (m :: d :: f :: args) ++ [cl]) = o :: m :: d :: f :: filter visible args ++ [cl]).
    { rewrite strip_filter. cbn. rewrite VO, (good_visible m), (good_visible d), (good_visible f) by auto.
      rewrite filter_app. cbn. assert (V : visible cl = true) by (destruct cl as [|[]]; try discriminate; reflexivity).
      rewrite V. reflexivity. }
    rewrite ES. cbn [cva].
    pose proof (args_clean_conv (filter visible args) f [] mock_location false cl) as A.
    destruct (args_pure f (filter visible args ++ [cl]) [] mock_location false) as [oo ee]. cbn [fst snd] in *.
    apply A; auto.
    + apply Forall_filter. eapply Forall_impl; [|exact HS]. intros [[]|[]] E; try discriminate; reflexivity.
    + intros ? [].
    + apply Forall_filter. exact HD.
    + destruct HA as [[HA _]|HA]; [left; auto|right; eauto].
Qed.

(** ** Groups of items before and after simplification *)
Lemma cs_transfer : forall (R : cst -> cst -> Prop),
  (forall x y, R x y -> is_comma x = is_comma y) ->
  forall ys gs, comma_separated ys gs -> forall xs, Forall2 R xs ys ->
  exists gs', comma_separated xs gs' /\ Forall2 (Forall2 R) gs' gs.
Proof.
  intros R HR ys gs H.
  assert (NC : forall xs g, Forall2 R xs g -> nocomma g -> nocomma xs).
  { intros xs g F. induction F as [|x y xs ys' Hxy _ IH]; intros N z Hz; [destruct Hz|].
    destruct Hz as [<-|Hz].
    - apply not_comma_iff. rewrite (HR _ _ Hxy). apply not_comma_iff. apply N. left. reflexivity.
    - apply IH; [|exact Hz]. intros w Hw. apply N. right. exact Hw. }
  induction H as [g Hg Hn|g c rest gs Hg Hn Hc H IH]; intros xs F.
  - exists [xs]. split; [|repeat constructor; exact F]. constructor.
    + intros ->. inversion F; subst. contradiction.
    + eapply NC; eassumption.
  - apply Forall2_app_inv_r in F as (x1 & x2 & F1 & F2 & ->).
    inversion F2 as [|c' ? rest' ? Hc' F3]; subst. destruct (IH _ F3) as (gs' & A & B).
    exists (x1 :: gs'). split; [|constructor; assumption]. apply CS_more; auto.
    + intros ->. inversion F1; subst. contradiction.
    + eapply NC; eassumption.
    + apply comma_iff. rewrite (HR _ _ Hc'). apply comma_iff. exact Hc.
Qed.

Lemma Forall2_filter : forall (R : cst -> cst -> Prop) p, (forall x y, R x y -> p x = p y) ->
  forall xs ys, Forall2 R xs ys -> Forall2 R (filter p xs) (filter p ys).
Proof.
  intros R p HR xs ys H. induction H as [|x y xs ys Hxy _ IH]; [constructor|]. cbn. rewrite (HR _ _ Hxy).
  destruct (p y); [constructor; assumption|exact IH].
Qed.

Lemma arguments_transfer : forall (R : cst -> cst -> Prop),
  (forall x y, R x y -> is_comma x = is_comma y) -> (forall x y, R x y -> visible x = visible y) ->
  forall xs ys gs, Forall2 R xs ys -> arguments ys gs ->
  exists gs', arguments xs gs' /\ Forall2 (Forall2 R) gs' gs.
Proof.
  intros R H1 H2 xs ys gs F [[A ->]|A]; pose proof (Forall2_filter R visible H2 _ _ F) as FF.
  - exists []. split; [|constructor]. left. split; [|reflexivity]. rewrite A in FF. inversion FF. reflexivity.
  - destruct (cs_transfer R H1 _ _ A _ FF) as (gs' & B & C). exists gs'. split; [right; exact B|exact C].
Qed.

Lemma cs_in : forall xs gs, comma_separated xs gs -> forall x, In x xs ->
  is_leaf LComma x \/ exists g, In g gs /\ In x g.
Proof.
  intros xs gs H. induction H as [g Hg Hn|g c rest gs Hg Hn Hc H IH]; intros x Hx.
  - right. exists g. split; [left; reflexivity|exact Hx].
  - apply in_app_or in Hx as [Hx|[<-|Hx]].
    + right. exists g. split; [left; reflexivity|exact Hx].
    + left. exact Hc.
    + destruct (IH x Hx) as [A|(g' & A & B)]; [auto|]. right. exists g'. split; [right; exact A|exact B].
Qed.

Lemma cs_sub : forall xs gs, comma_separated xs gs -> forall g x, In g gs -> In x g -> In x xs.
Proof.
  intros xs gs H. induction H as [g Hg Hn|g c rest gs Hg Hn Hc H IH]; intros g' x A B.
  - destruct A as [<-|[]]. exact B.
  - apply in_or_app. destruct A as [<-|A]; [left; exact B|]. right. right. eauto.
Qed.

Lemma arguments_in : forall args gs, arguments args gs -> forall x, In x args ->
  visible x = false \/ is_leaf LComma x \/ exists g, In g gs /\ In x g.
Proof.
  intros args gs H x Hx. destruct (visible x) eqn:E; [right|auto].
  assert (HI : In x (filter visible args)) by (apply filter_In; auto).
  destruct H as [[H _]|H]; [rewrite H in HI; destruct HI|]. eapply cs_in; eassumption.
Qed.

(** Item and simplified item look alike. *)
Lemma SItem_comma : forall c c' es, SItem c c' es -> is_comma c = is_comma c'.
Proof.
  intros c c' es H. inversion H as [| | |k o c0 lo body close l xs ys es0 items HB]; subst; reflexivity.
Qed.
Lemma SItem_visible : forall c c' es, SItem c c' es -> visible c = visible c'.
Proof. intros c c' es H. inversion H; subst; reflexivity. Qed.

Lemma Forall2_impl_in : forall (A B : Type) (P Q : A -> B -> Prop) l l',
  (forall a b, P a b -> Q a b) -> Forall2 P l l' -> Forall2 Q l l'.
Proof. intros A B P Q l l' H F. induction F; constructor; auto. Qed.

(** ** From no errors to meaning *)
Definition parsed (c : cst) : Prop := g_item c \/ is_newline c.

Lemma parsed_flat : forall body, Forall (fun x => g_expr x \/ is_newline x) body -> Forall parsed (flat body).
Proof.
  intros body H. induction H as [|x body Hx _ IH]; [constructor|].
  change (x :: body) with ([x] ++ body). rewrite flat_app. apply Forall_app. split; [|exact IH].
  destruct Hx as [Hx|[l ->]].
  - inversion Hx as [items l HN HF]; subst. cbn. rewrite app_nil_r. eapply Forall_impl; [|exact HF]. intros; left; assumption.
  - constructor; [right; exists l; reflexivity|constructor].
Qed.

Lemma parsed_name : forall k v l, parsed (CLeaf k v l) -> name_kind k <> None -> exists s, v = Some s.
Proof.
  intros k v l [H|[l' H]] N.
  - inversion H as [| |k0 s l0 HI|k0 l0 HI|]; subst; [eauto|]. destruct HI as [<-|[<-|[<-|[]]]]; contradiction.
  - injection H as -> -> ->. contradiction.
Qed.
Lemma parsed_mark : forall k v l, parsed (CLeaf k v l) -> name_kind k = None -> v = None.
Proof.
  intros k v l [H|[l' H]] N.
  - inversion H as [| |k0 s l0 HI|k0 l0 HI|]; subst; [|reflexivity]. destruct HI as [<-|[<-|[<-|[]]]]; discriminate.
  - injection H as -> -> ->. reflexivity.
Qed.
Lemma aux_leaf_name : forall k s k' v', aux_leaf k (Some s) = Some (k', v') -> k <> LInvalid ->
  name_kind k = Some k' /\ v' = Some s.
Proof. intros [] s k' v' H N; try discriminate; try contradiction; injection H as <- <-; auto. Qed.

Definition good_item (uuid : nat -> str) (x y : cst) : Prop :=
  (exists e, SItem x y e) /\ forall n a n', aux uuid y n = Ok (a, n') -> means x a.

Lemma good_items_means : forall uuid xs ys, Forall2 (good_item uuid) xs ys ->
  forall n r n', auxs uuid ys n = Ok (r, n') -> Forall2 means xs r.
Proof.
  intros uuid xs ys H. induction H as [|x y xs ys [_ Hxy] _ IH]; intros n r n' E.
  - injection E as <- <-. constructor.
  - cbn [auxs] in E. fold (auxs uuid) in E. apply bind_ok in E as ([a n1] & A & E).
    apply bind_ok in E as ([r' n2] & B & E). injection E as <- <-. constructor; eauto.
Qed.

Lemma group_loc_same : forall uuid g' g, Forall2 (good_item uuid) g' g -> fold_loc g = group_loc g'.
Proof.
  intros uuid g' g H. unfold fold_loc, group_loc. f_equal.
  induction H as [|x y xs ys [[e S] _] _ IH]; [reflexivity|]. cbn. rewrite IH. f_equal.
  inversion S; subst; try reflexivity. destruct k; try discriminate; reflexivity.
Qed.

Lemma arg_exprs_means : forall uuid gs exprs gs', Forall2 arg_expr gs exprs ->
  Forall2 (Forall2 (good_item uuid)) gs' gs -> forall n r n', auxs uuid exprs n = Ok (r, n') ->
  Forall2 (fun g a => exists i as' l, a = AInner NExpr i as' l /\ l = group_loc g /\ Forall2 means g as') gs' r.
Proof.
  intros uuid gs exprs gs' H. revert gs'. induction H as [|g e gs exprs -> _ IH]; intros gs' F n r n' E.
  - inversion F; subst. injection E as <- <-. constructor.
  - inversion F as [|g' ? gs'' ? Fg F']; subst. cbn [auxs] in E. fold (auxs uuid) in E.
    apply bind_ok in E as ([a n1] & A & E). apply bind_ok in E as ([r' n2] & B & E). injection E as <- <-.
    constructor; [|eauto]. rewrite aux_inner_eq in A. cbn [aux_inner] in A.
    apply bind_ok in A as ([as' n3] & A & A2). injection A2 as <- <-.
    exists (uuid n3), as', (fold_loc g). split; [reflexivity|split; [|]].
    { eapply group_loc_same, Fg. }
    eapply good_items_means; eassumption.
Qed.

Lemma face_module : forall x y e, SItem x y e -> good_module y = true -> is_leaf LModule x \/ is_angle x.
Proof.
  intros x y e H G. inversion H as [k v l E|l|s l l'|k o c lo body close l xs ys es items HB]; subst; try discriminate.
  - destruct k; try discriminate. left. do 2 eexists. reflexivity.
  - destruct k; try discriminate. right. do 2 eexists. reflexivity.
Qed.
Lemma face_ident : forall x y e, SItem x y e -> good_ident y = true -> is_leaf LIdent x \/ is_angle x.
Proof.
  intros x y e H G. inversion H as [k v l E|l|s l l'|k o c lo body close l xs ys es items HB]; subst; try discriminate.
  - destruct k; try discriminate. left. do 2 eexists. reflexivity.
  - destruct k; try discriminate. right. do 2 eexists. reflexivity.
Qed.
Lemma face_dot : forall x y e, SItem x y e -> good_dot y = true -> is_leaf LDot x.
Proof.
  intros x y e H G. inversion H as [k v l E|l|s l l'|k o c lo body close l xs ys es items HB]; subst; try discriminate.
  destruct k; try discriminate. do 2 eexists. reflexivity.
Qed.

Lemma command_bracket : forall k o c, bracket_of k = Some (o, c) ->
  exists k', command_kind k = Some (o, c, k') /\ aux_inner k = Some k'.
Proof. intros [] o c H; try discriminate; injection H as <- <-; eexists; split; reflexivity. Qed.

Lemma SItem_means : forall uuid,
  (forall c c' es (H : SItem c c' es), parsed c -> es = [] -> good_item uuid c c') /\
  (forall xs ys es (H : SItems xs ys es), Forall parsed xs -> es = [] -> Forall2 (good_item uuid) xs ys).
Proof.
  intro uuid. apply (SItem_both
    (fun c c' es _ => parsed c -> es = [] -> good_item uuid c c')
    (fun xs ys es _ => Forall parsed xs -> es = [] -> Forall2 (good_item uuid) xs ys)).
  - intros k v l E HP _. split; [eexists; apply SI_leaf, E|]. intros n a n' H.
    cbn in H. destruct (aux_leaf k v) as [[k' v']|] eqn:EA; [|discriminate]. injection H as <- <-.
    destruct (parsed_name k v l HP) as [s ->]; [destruct k; discriminate|].
    apply aux_leaf_name in EA as [EA ->]; [|intros ->; discriminate]. apply Me_name, EA.
  - discriminate.
  - intros s l l' _ _. split; [eexists; apply SI_esc1|]. intros n a n' H. injection H as <- <-. apply Me_escape.
  - intros k o c lo body close l xs ys es items HB HF HC HX HS IH HI _ HE.
    apply app_eq_nil in HE as [E1 HE]. apply app_eq_nil in HE as [E2 HE]. apply app_eq_nil in HE as [E3 E4].
    subst es. specialize (IH ltac:(subst xs; apply parsed_flat, HF) eq_refl). split.
    { eexists. eapply SI_bracket; eauto. }
    destruct HC as [->|[lc ->]]; [discriminate|].
    pose proof (SItems_sitem _ _ _ HS) as YS. subst items.
    destruct (bracket_clean (CLeaf o None lo) ys (CLeaf c None lc))
      as (m & d & f & args & gs & exprs & -> & Gm & Gd & Gf & AD & AG & AO & AE); auto;
      try (destruct k; try discriminate; injection HB as <- <-; reflexivity).
    rewrite AO. clear E2 E3 E4 AO.
    inversion IH as [|xm ? xs1 ? Rm IH1]; subst. rename H into FX. inversion IH1 as [|xd ? xs2 ? Rd IH2]; subst.
    inversion IH2 as [|xf ? xargs ? Rf IH3]; subst.
    destruct (command_bracket _ _ _ HB) as (k' & CK & AK).
    intros n a n' H. rewrite aux_inner_eq, AK in H. apply bind_ok in H as ([r n1] & A & H). injection H as <- <-.
    cbn [auxs] in A. fold (auxs uuid) in A. apply bind_ok in A as ([am n2] & A1 & A).
    apply bind_ok in A as ([r1 n3] & A & A4). injection A4 as <- <-. cbn [auxs] in A. fold (auxs uuid) in A.
    apply bind_ok in A as ([af n4] & A2 & A). apply bind_ok in A as ([aas n5] & A3 & A4). injection A4 as <- <-.
    destruct Rm as [[em Sm] Mm]. destruct Rd as [[ed Sd] _]. destruct Rf as [[ef Sf] Mf].
    destruct (face_dot _ _ _ Sd Gd) as (vd & ld & ->).
    assert (vd = None) as ->.
    { pose proof (parsed_flat body HF) as P. rewrite <- FX in P. inversion P as [|? ? _ P1]; subst.
      inversion P1 as [|? ? P2 _]; subst. eapply parsed_mark; [exact P2|reflexivity]. }
    destruct (arguments_transfer (good_item uuid)) with (xs := xargs) (ys := args) (gs := gs) as (gs' & AG' & FG); auto.
    { intros x y [[e S] _]. eapply SItem_comma, S. }
    { intros x y [[e S] _]. eapply SItem_visible, S. }
    eapply Me_command with (gs := gs') (lo := lo) (lc := lc) (m := xm) (f := xf) (args := xargs) (ld := ld).
    + exact CK.
    + rewrite (flat_bracket o lo body [CLeaf c None lc] c) by eauto. rewrite <- FX. reflexivity.
    + eapply face_module; eassumption.
    + eapply face_ident; eassumption.
    + exact AG'.
    + eapply Mm, A1.
    + eapply Mf, A2.
    + eapply arg_exprs_means; eassumption.
  - constructor.
  - intros c c' es cs cs' ess H1 IH1 H2 IH2 HP HE. apply app_eq_nil in HE as [-> ->].
    apply Forall_cons_iff in HP as [P1 P2]. constructor; auto.
Qed.

(** ** From meaning to no errors *)
Lemma good_module_face : forall x y e, SItem x y e -> is_leaf LModule x \/ is_angle x -> good_module y = true.
Proof.
  intros x y e H [(v & l & ->)|(cs & l & ->)]; inversion H; subst; reflexivity.
Qed.
Lemma good_ident_face : forall x y e, SItem x y e -> is_leaf LIdent x \/ is_angle x -> good_ident y = true.
Proof.
  intros x y e H [(v & l & ->)|(cs & l & ->)]; inversion H; subst; reflexivity.
Qed.
Lemma good_dot_face : forall x y e, SItem x y e -> good_dot y = good_dot x.
Proof. intros x y e H. inversion H; subst; reflexivity. Qed.

Lemma SItems_R : forall xs ys es, SItems xs ys es -> Forall2 (fun y x => exists e, SItem x y e) ys xs.
Proof. intros xs ys es H. induction H; constructor; eauto. Qed.

Lemma SItems_two : forall c xs ys es, SItems (c :: xs) ys es ->
  exists y ys' e es', ys = y :: ys' /\ es = e ++ es' /\ SItem c y e /\ SItems xs ys' es'.
Proof. intros c xs ys es H. inversion H; subst. eauto 10. Qed.

Lemma snoc_snoc : forall (A : Type) (a b : list A) x y, a ++ [x] = b ++ [y] -> a = b /\ x = y.
Proof. intros. apply app_inj_tail. assumption. Qed.

Lemma means_arg_ok : forall args gs (aas : list ast), arguments args gs ->
  Forall2 (fun g a => exists i' as' l', a = AInner NExpr i' as' l' /\ l' = group_loc g /\ Forall2 means g as') gs aas ->
  Forall (fun x => ((exists a, means x a) \/ inner x = false) /\ good_dot x = false) args.
Proof.
  intros args gs aas HA HF. rewrite Forall_forall. intros x Hx.
  destruct (arguments_in args gs HA x Hx) as [V|[(v & l & ->)|(g & Ig & Ix)]].
  - destruct x as [|[]]; try discriminate; auto.
  - auto.
  - assert (M : exists a, means x a).
    { clear - HF Ig Ix. induction HF as [|g0 a0 gs aas (i & as' & l & _ & _ & F) _ IH]; [destruct Ig|].
      destruct Ig as [->|Ig]; [|auto]. clear IH. induction F as [|x0 a1 g as' M _ IH]; [destruct Ix|].
      destruct Ix as [->|Ix]; eauto. }
    split; [left; exact M|]. destruct M as [a M]. destruct x as [|[]]; try reflexivity. inversion M; subst. discriminate.
Qed.

Lemma SItem_clean :
  (forall c c' es (H : SItem c c' es), forall a, means c a -> es = []) /\
  (forall xs ys es (H : SItems xs ys es), Forall (fun x => (exists a, means x a) \/ inner x = false) xs -> es = []).
Proof.
  apply (SItem_both
    (fun c c' es _ => forall a, means c a -> es = [])
    (fun xs ys es _ => Forall (fun x => (exists a, means x a) \/ inner x = false) xs -> es = [])); try reflexivity.
  - intros l a H. inversion H; subst; discriminate.
  - intros k o c lo body close l xs ys es items HB HF HC HX HS IH HI a M.
    inversion M as [| |k0 o0 c0 k' cs l0 lo0 m ld f args lc gs am af aas i CK FL Hm Hf HA Mm Mf MA| | |]; subst;
      try (destruct k; discriminate); try discriminate HB.
    assert (o0 = o /\ c0 = c) as [-> ->].
    { destruct k; try discriminate; injection HB as <- <-; injection CK as <- <- <-; auto. }
    rewrite (flat_bracket o lo body close c HC) in FL.
    assert (E0 : flat body ++ close = m :: CLeaf LDot None ld :: f :: args ++ [CLeaf c None lc]) by (injection FL; auto).
    destruct HC as [->|[lc' ->]].
    { exfalso. rewrite app_nil_r in E0. rewrite E0 in HS.
      destruct (SItems_In _ _ _ HS (CLeaf c None lc)) as (c' & e & S).
      - do 3 right. apply in_or_app. right. left. reflexivity.
      - inversion S as [? ? ? E| | |]; subst. destruct k; try discriminate; injection HB as <- <-; discriminate. }
    change (m :: CLeaf LDot None ld :: f :: args ++ [CLeaf c None lc])
      with ((m :: CLeaf LDot None ld :: f :: args) ++ [CLeaf c None lc]) in E0.
    apply snoc_snoc in E0 as [E0 _]. rewrite E0 in HS, IH.
    pose proof (means_arg_ok _ _ _ HA MA) as OK.
    rewrite IH.
    2:{ constructor; [eauto|]. constructor; [auto|]. constructor; [eauto|]. eapply Forall_impl; [|exact OK]. cbn. tauto. }
    destruct (SItems_two _ _ _ _ HS) as (ym & ys1 & e1 & es1 & -> & -> & Sm & HS1).
    destruct (SItems_two _ _ _ _ HS1) as (yd & ys2 & e2 & es2 & -> & -> & Sd & HS2).
    destruct (SItems_two _ _ _ _ HS2) as (yf & ys3 & e3 & es3 & -> & -> & Sf & HS3).
    pose proof (SItems_sitem _ _ _ HS3) as YS.
    destruct (arguments_transfer (fun y x => exists e, SItem x y e)) with (xs := ys3) (ys := args) (gs := gs) as (gs' & AG & _).
    { intros x y [e S]. symmetry. eapply SItem_comma, S. }
    { intros x y [e S]. symmetry. eapply SItem_visible, S. }
    { eapply SItems_R, HS3. }
    { exact HA. }
    destruct (bracket_clean_conv (CLeaf o None lo) ym yd yf ys3 (CLeaf c None lc') gs') as [B1 B2]; auto;
      try (destruct k; try discriminate; injection HB as <- <-; reflexivity).
    { eapply good_module_face; eassumption. }
    { rewrite (good_dot_face _ _ _ Sd). reflexivity. }
    { eapply good_ident_face; eassumption. }
    { apply SItems_R in HS3. clear - HS3 OK. induction HS3 as [|y x ys xs [e S] _ IH]; constructor.
      - apply Forall_inv in OK as [_ OK]. rewrite (good_dot_face _ _ _ S). exact OK.
      - apply IH. apply Forall_inv_tail in OK. exact OK. }
    rewrite B1, B2. reflexivity.
  - intros c c' es cs cs' ess H1 IH1 H2 IH2 HF. apply Forall_cons_iff in HF as [[[a M]|L] HF].
    + rewrite (IH1 a M), IH2 by exact HF. reflexivity.
    + rewrite IH2 by exact HF. inversion H1; subst; try discriminate. reflexivity.
Qed.

(** ** Lines, statements, documents *)
Lemma SList_parts : forall (R : cst -> cst -> list terror -> Prop) (P : cst -> cst -> Prop),
  (forall c c', R c c' [] -> inner c = inner c' /\ (inner c = true -> P c c')) ->
  forall xs ys, SList R xs ys [] -> Forall2 P (filter inner xs) (filter inner ys).
Proof.
  intros R P HR xs ys H. remember [] as es eqn:E. induction H as [|c c' es cs cs' ess H1 H2 IH]; [constructor|].
  apply app_eq_nil in E as [-> ->]. destruct (HR _ _ H1) as [A B]. cbn. rewrite <- A.
  destruct (inner c); [constructor; auto|auto].
Qed.

Lemma auxs_rel : forall uuid (P : cst -> cst -> Prop) (Q : cst -> ast -> Prop),
  (forall x y n a n', P x y -> aux uuid y n = Ok (a, n') -> Q x a) ->
  forall xs ys, Forall2 P xs ys -> forall n r n', auxs uuid ys n = Ok (r, n') -> Forall2 Q xs r.
Proof.
  intros uuid P Q HPQ xs ys H. induction H as [|x y xs ys Hxy _ IH]; intros n r n' E.
  - injection E as <- <-. constructor.
  - cbn [auxs] in E. fold (auxs uuid) in E. apply bind_ok in E as ([a n1] & A & E).
    apply bind_ok in E as ([r' n2] & B & E). injection E as <- <-. constructor; eauto.
Qed.

Definition okm (uuid : nat -> str) (x y : cst) : Prop :=
  forall n a n', aux uuid y n = Ok (a, n') -> means x a.

Lemma SLine_means : forall uuid c c', SLine c c' [] -> inner c = inner c' /\ (inner c = true -> okm uuid c c').
Proof.
  intros uuid c c' H. inversion H as [xs ys es0 l HN HF HS|k l HI]; subst; split; try reflexivity; [|discriminate].
  intros _ n a n' E. rewrite aux_inner_eq in E. cbn [aux_inner] in E. apply bind_ok in E as ([r n1] & A & E).
  injection E as <- <-. apply Me_expr.
  eapply auxs_rel; [|eapply (proj2 (SItem_means uuid) _ _ _ HS)|exact A]; [intros x y m a m' [_ G]; apply G| |reflexivity].
  eapply Forall_impl; [|exact HF]. intros; left; assumption.
Qed.
Lemma SStmt_means : forall uuid c c', SStmt c c' [] -> inner c = inner c' /\ (inner c = true -> okm uuid c c').
Proof.
  intros uuid c c' H. inversion H as [xs ys es0 l HS|k l HI]; subst; split; try reflexivity; [|discriminate].
  intros _ n a n' E. rewrite aux_inner_eq in E. cbn [aux_inner] in E. apply bind_ok in E as ([r n1] & A & E).
  injection E as <- <-. apply Me_stmt.
  eapply auxs_rel; [|eapply (SList_parts _ _ (SLine_means uuid) _ _ HS)|exact A]. intros x y m a m' G; apply G.
Qed.
Theorem transform_means : forall uuid c a, g_document c -> transform uuid c = Ok (a, []) -> means c a.
Proof.
  intros uuid c a G H. destruct (SDoc_exists c G) as (c' & e & S). unfold transform in H.
  rewrite (SDoc_simplify _ _ _ S) in H. cbn [bind] in H. apply bind_ok in H as ([a' n] & A & H).
  injection H as <- ->. inversion S as [xs ys es0 l HS]; subst.
  rewrite aux_inner_eq in A. cbn [aux_inner] in A. apply bind_ok in A as ([r n1] & A & E). injection E as <- <-.
  apply Me_document.
  eapply auxs_rel; [|eapply (SList_parts _ _ (SStmt_means uuid) _ _ HS)|exact A]. intros x y m a m' P; apply P.
Qed.

Lemma SList_clean : forall (R : cst -> cst -> list terror -> Prop),
  (forall c c' es, R c c' es -> (inner c = true -> exists a, means c a) -> es = []) ->
  forall xs ys es, SList R xs ys es -> forall r, Forall2 means (filter inner xs) r -> es = [].
Proof.
  intros R HR xs ys es H. induction H as [|c c' es cs cs' ess H1 H2 IH]; intros r F; [reflexivity|].
  cbn in F. destruct (inner c) eqn:E.
  - inversion F as [|? a ? r' M F']; subst. rewrite (HR _ _ _ H1), (IH _ F'); eauto.
  - rewrite (HR _ _ _ H1), (IH _ F); [reflexivity|congruence].
Qed.

Lemma SLine_clean : forall c c' es, SLine c c' es -> (inner c = true -> exists a, means c a) -> es = [].
Proof.
  intros c c' es H M. inversion H as [xs ys es0 l HN HF HS|k l HI]; subst; [|reflexivity].
  destruct (M eq_refl) as [a M']. inversion M' as [| |k0 o0 c0 k' cs0 l0 lo0 m ld f args lc gs am af aas i CK| xs0 r i l0 F| |]; subst; [discriminate|].
  eapply (proj2 SItem_clean); [exact HS|]. clear - F. induction F; constructor; eauto.
Qed.
Lemma SStmt_clean : forall c c' es, SStmt c c' es -> (inner c = true -> exists a, means c a) -> es = [].
Proof.
  intros c c' es H M. inversion H as [xs ys es0 l HS|k l HI]; subst; [|reflexivity].
  destruct (M eq_refl) as [a M']. inversion M' as [| |k0 o0 c0 k' cs0 l0 lo0 m ld f args lc gs am af aas i CK| |xs0 r i l0 F|]; subst; [discriminate|].
  eapply SList_clean; [exact SLine_clean|exact HS|exact F].
Qed.

Lemma means_no_mark : forall x a, means x a -> ~ mark x.
Proof. intros x a M [(v & l & ->)|[(v & l & ->)|(v & l & ->)]]; inversion M; subst; discriminate. Qed.

Lemma Forall2_in : forall (A B : Type) (P : A -> B -> Prop) xs ys, Forall2 P xs ys ->
  forall x, In x xs -> exists y, P x y.
Proof. intros A B P xs ys H. induction H; intros z Hz; [destruct Hz|]. destruct Hz as [<-|Hz]; eauto. Qed.

Lemma means_top : forall c a, means c a -> forall x, In x (top_items c) -> exists b, means x b.
Proof.
  intros c a M x I. unfold top_items, lines in I. apply in_flat_map in I as (e & I & I3).
  destruct c as [[] ss l|]; try destruct I. apply in_flat_map in I as (s & I1 & I2).
  destruct s as [[] es ls|]; try destruct I2. destruct e as [[] xs le|]; try destruct I3.
  inversion M as [| |k0 o0 c0 k' cs0 l0 lo0 m ld f args lc gs am af aas i CK| | |xs0 r i l0 F]; subst; [discriminate|].
  destruct (Forall2_in _ _ _ _ _ F (CInner CStmt es ls)) as [b Mb]; [apply filter_In; auto|].
  inversion Mb as [| |k0 o0 c0 k' cs0 l0 lo0 m ld f args lc gs am af aas i' CK| |xs1 r1 i1 l1 F1|]; subst; [discriminate|].
  destruct (Forall2_in _ _ _ _ _ F1 (CInner CExpr xs le)) as [b' Mb']; [apply filter_In; auto|].
  inversion Mb' as [| |k0 o0 c0 k' cs0 l0 lo0 m ld f args lc gs am af aas i' CK|xs2 r2 i2 l2 F2| |]; subst; [discriminate|].
  eapply Forall2_in; eassumption.
Qed.

Theorem means_transform : forall uuid c a, g_document c -> means c a -> exists b, transform uuid c = Ok (b, []).
Proof.
  intros uuid c a G M. destruct (transform_panics uuid c G) as [[(x & I & K) _]|[_ (b & es & E)]].
  - destruct (means_top c a M x I) as [b Mb]. destruct (means_no_mark x b Mb K).
  - exists b. rewrite E. destruct (SDoc_exists c G) as (c' & e & S). unfold transform in E.
    rewrite (SDoc_simplify _ _ _ S) in E. cbn [bind] in E. apply bind_ok in E as ([a' n] & A & E).
    injection E as <- <-. inversion S as [xs ys es0 l HS]; subst.
    inversion M as [| |k0 o0 c0 k' cs0 l0 lo0 m ld f args lc gs am af aas i CK| | |xs0 r i l0 F]; subst; [discriminate|].
    rewrite (SList_clean _ SStmt_clean _ _ _ HS _ F). reflexivity.
Qed.
