(** The error list of [transform], node by node. *)
From Coq Require Import String List NArith Arith Bool Lia.
From Verif Require Import Base Tokens CST AST SpecCST TransformError SpecTransform Transform
  ParserProofs ParserProofs2 TransformProofs.
Import ListNotations.

(** What the checks of a command see of an item. *)
Definition face (c : cst) : cst :=
  match c with
  | CInner CBackSlash [] l => CLeaf LInvalid None l
  | CInner CBackSlash (x :: _) _ => x
  | CInner k _ l => CInner k [] l
  | CLeaf _ _ _ => c
  end.

Lemma face_loc : forall c, cst_location (face c) = item_loc c.
Proof. intros [[] [|x cs] l|k v l]; reflexivity. Qed.

Lemma SItem_face : forall c c' es, SItem c c' es -> face c' = face c.
Proof.
  intros c c' es H. inversion H as [| | |k o c0 lo body close l xs ys es0 items HB]; subst; try reflexivity.
  destruct k; try discriminate; reflexivity.
Qed.

Lemma SItems_face : forall xs ys es, SItems xs ys es -> map face ys = map face xs.
Proof.
  intros xs ys es H. induction H as [|c c' es cs cs' ess H1 H2 IH]; [reflexivity|].
  cbn. rewrite (SItem_face _ _ _ H1), IH. reflexivity.
Qed.

(** A list of items without backslash nodes. *)
Definition noback (c : cst) : bool := match c with CInner CBackSlash _ _ => false | _ => true end.
Lemma sitem_noback : forall c, sitem c = true -> noback c = true.
Proof. intros [[]|] H; try discriminate; reflexivity. Qed.

Lemma check1_face : forall cs, Forall (fun c => noback c = true) cs ->
  check_if_module_or_angle_bracket (map face cs) = check_if_module_or_angle_bracket cs.
Proof.
  intros cs H. unfold check_if_module_or_angle_bracket. rewrite nth_error_map.
  destruct (nth_error cs 1) as [c|] eqn:E; [|reflexivity]. cbn.
  apply nth_error_In in E. rewrite Forall_forall in H. apply H in E.
  destruct c as [k xs l|k v l]; destruct k; try discriminate; reflexivity.
Qed.

Lemma check2_face : forall cs, Forall (fun c => noback c = true) cs ->
  check_if_dot (map face cs) = check_if_dot cs.
Proof.
  intros cs H. unfold check_if_dot. rewrite nth_error_map.
  destruct (nth_error cs 2) as [c|] eqn:E; [|reflexivity]. cbn.
  apply nth_error_In in E. rewrite Forall_forall in H. apply H in E.
  destruct c as [k xs l|k v l]; destruct k; try discriminate; reflexivity.
Qed.

Lemma check3_face : forall cs, Forall (fun c => noback c = true) cs ->
  check_if_ident_or_angle_bracket (map face cs) = check_if_ident_or_angle_bracket cs.
Proof.
  intros cs H. unfold check_if_ident_or_angle_bracket. rewrite nth_error_map.
  destruct (nth_error cs 3) as [c|] eqn:E; [|reflexivity]. cbn.
  apply nth_error_In in E. rewrite Forall_forall in H. apply H in E.
  destruct c as [k xs l|k v l]; destruct k; try discriminate; reflexivity.
Qed.

Lemma skipn_Forall : forall (A : Type) (P : A -> Prop) n l, Forall P l -> Forall P (skipn n l).
Proof.
  intros A P n. induction n as [|n IH]; intros [|x l] H; cbn; try assumption.
  apply IH. inversion H; assumption.
Qed.

Lemma check4_face : forall cs, Forall (fun c => noback c = true) cs ->
  check_unexpected_dot (map face cs) = check_unexpected_dot cs.
Proof.
  intros cs H. unfold check_unexpected_dot. rewrite skipn_map. apply (skipn_Forall _ _ 3) in H.
  induction H as [|c l H1 _ IH]; [reflexivity|]. cbn. rewrite IH.
  destruct c as [k xs l'|k v l']; destruct k; try discriminate; reflexivity.
Qed.

Lemma head_errors_face : forall cs, Forall (fun c => noback c = true) cs ->
  head_errors (map face cs) = head_errors cs.
Proof.
  intros cs H. unfold head_errors. rewrite check1_face, check2_face, check3_face, check4_face by exact H. reflexivity.
Qed.

Lemma strip_filter : forall cs, strip cs = filter visible cs.
Proof.
  induction cs as [|c cs IH]; [reflexivity|]. unfold strip in *. cbn.
  destruct c as [k xs l|[] v l]; cbn; rewrite IH; reflexivity.
Qed.

Lemma strip_face : forall cs, Forall (fun c => noback c = true) cs -> strip (map face cs) = map face (strip cs).
Proof.
  intros cs H. rewrite !strip_filter. induction H as [|c cs H1 _ IH]; [reflexivity|]. cbn.
  replace (visible (face c)) with (visible c) by (destruct c as [[]|[]]; try discriminate; reflexivity).
  destruct (visible c); cbn; rewrite IH; reflexivity.
Qed.

Lemma args_face : forall rest prev es es' l l' pc, Forall (fun c => noback c = true) (prev :: rest) ->
  (es = [] <-> es' = []) ->
  snd (args_pure (face prev) (map face rest) es l pc) = snd (args_pure prev rest es' l' pc).
Proof.
  induction rest as [|c rest IH]; intros prev es es' l l' pc H HE; [reflexivity|].
  apply Forall_cons_iff in H as [HP H]. pose proof H as Hc. apply Forall_inv in Hc.
  assert (HN : face (face c) = face c) by (destruct c as [[]|[]]; try discriminate; reflexivity).
  destruct c as [k xs lc|k v lc].
  - destruct k; try discriminate; cbn [map face args_pure];
    match goal with |- snd (args_pure (CInner ?k [] lc) _ _ _ _) = _ =>
      change (CInner k [] lc) with (face (CInner k xs lc)) at 1 end;
    apply IH; auto; split; intro E; destruct es, es'; discriminate.
  - assert (HL : face (CLeaf k v lc) = CLeaf k v lc) by reflexivity.
    cbn [map]. rewrite HL. rewrite HL in HN.
    destruct k; cbn [args_pure];
      try (rewrite <- HL at 1; apply IH; auto; split; intro E; destruct es, es'; discriminate).
    + destruct es, es'; try (exfalso; destruct HE as [A B]; try specialize (A eq_refl); try specialize (B eq_refl); discriminate).
      * cbn. destruct pc; [|reflexivity]. rewrite face_loc. destruct prev as [[]|]; try discriminate; reflexivity.
      * reflexivity.
    + destruct es, es'; try (exfalso; destruct HE as [A B]; try specialize (A eq_refl); try specialize (B eq_refl); discriminate).
      * cbn. destruct pc; [|reflexivity]. rewrite face_loc. destruct prev as [[]|]; try discriminate; reflexivity.
      * reflexivity.
    + destruct es, es'; try (exfalso; destruct HE as [A B]; try specialize (A eq_refl); try specialize (B eq_refl); discriminate).
      * cbn. destruct pc; [|reflexivity]. rewrite face_loc. destruct prev as [[]|]; try discriminate; reflexivity.
      * reflexivity.
    + specialize (IH (CLeaf LDot v lc) es es' l l' pc H HE). rewrite HL in IH.
      destruct (args_pure (CLeaf LDot v lc) (map face rest) es l pc) as [o e].
      destruct (args_pure (CLeaf LDot v lc) rest es' l' pc) as [o' e']. cbn in *. rewrite IH. reflexivity.
    + destruct es, es'; try (exfalso; destruct HE as [A B]; try specialize (A eq_refl); try specialize (B eq_refl); discriminate).
      * specialize (IH (CLeaf LComma v lc) [] [] l l' pc H HE). rewrite HL in IH.
        destruct (args_pure (CLeaf LComma v lc) (map face rest) [] l pc) as [o e].
        destruct (args_pure (CLeaf LComma v lc) rest [] l' pc) as [o' e']. cbn in *. rewrite IH. reflexivity.
      * specialize (IH (CLeaf LComma v lc) [] [] mock_location mock_location true H (conj (fun x => x) (fun x => x))).
        rewrite HL in IH.
        destruct (args_pure (CLeaf LComma v lc) (map face rest) [] mock_location true) as [o e].
        destruct (args_pure (CLeaf LComma v lc) rest [] mock_location true) as [o' e']. cbn in *. exact IH.
Qed.

Lemma cva_face : forall cs, Forall (fun c => noback c = true) cs ->
  snd (cva (map face cs)) = snd (cva cs).
Proof.
  intros [|c0 [|c1 [|c2 [|c3 rest]]]] H; try reflexivity. cbn [map cva].
  pose proof (args_face rest c3 [] [] mock_location mock_location false) as A.
  destruct (args_pure (face c3) (map face rest) [] mock_location false) as [o e].
  destruct (args_pure c3 rest [] mock_location false) as [o' e']. cbn in *. apply A; [|tauto].
  do 3 apply Forall_inv_tail in H. exact H.
Qed.

(** ** The errors of each node *)
Definition own (c : cst) : list terror :=
  match c with
  | CInner k cs _ =>
    match not_closed k with
    | Some _ =>
      unclosed c ++ head_errors (map face (flat cs)) ++ snd (cva (strip (map face (flat cs))))
    | None => bad_escape c
    end
  | CLeaf _ _ _ => []
  end.

Lemma strip_noback : forall cs, Forall (fun c => noback c = true) cs -> Forall (fun c => noback c = true) (strip cs).
Proof.
  intros cs H. rewrite strip_filter. rewrite Forall_forall in *. intros x Hx. apply filter_In in Hx as [Hx _]. auto.
Qed.

Lemma flat_bracket : forall o lo body close c, (close = [] \/ exists lc, close = [CLeaf c None lc]) ->
  flat (CLeaf o None lo :: body ++ close) = CLeaf o None lo :: flat body ++ close.
Proof.
  intros o lo body close c HC. change (flat (CLeaf o None lo :: body ++ close)) with (CLeaf o None lo :: flat (body ++ close)).
  rewrite flat_app. destruct HC as [->|[lc ->]]; reflexivity.
Qed.

Lemma last_map : forall (A B : Type) (f : A -> B) l d, last (map f l) (f d) = f (last l d).
Proof. induction l as [|a [|b l] IH]; intro d; [reflexivity..|]. apply (IH d). Qed.

Lemma SItems_last : forall xs ys es, SItems xs ys es -> forall o lo,
  cst_location (last ys (CLeaf LInvalid None lo)) = item_loc (last xs (CLeaf o None lo)).
Proof.
  intros xs ys es H o lo. destruct H as [|c c' es cs cs' ess H1 H2]; [reflexivity|].
  set (d := CLeaf LInvalid None lo).
  rewrite (last_default _ (c :: cs) (CLeaf o None lo) d) by discriminate.
  rewrite <- (face_loc (last (c :: cs) d)), <- (last_map _ _ face (c :: cs) d), <- (SItems_face (c :: cs) (c' :: cs') (es ++ ess)) by (constructor; assumption).
  rewrite (last_map _ _ face (c' :: cs') d). pose proof (last_In _ (c' :: cs') d ltac:(discriminate)) as HL.
  assert (HS : Forall (fun c => sitem c = true) (c' :: cs')) by (eapply SItems_sitem; constructor; eassumption).
  rewrite Forall_forall in HS. apply HS in HL. destruct (last (c' :: cs') d) as [[]|]; try discriminate; reflexivity.
Qed.

Lemma SItem_not_close : forall c c' es k, SItem c c' es -> closes k c = false.
Proof.
  intros c c' es k H. inversion H as [k0 v l E| | |]; subst; destruct k; try reflexivity; destruct k0; try discriminate; reflexivity.
Qed.

Lemma SItems_In : forall xs ys es, SItems xs ys es -> forall x, In x xs -> exists c' e, SItem x c' e.
Proof. intros xs ys es H. induction H as [|c c' es cs cs' ess H1 H2 IH]; intros x Hx; [destruct Hx|]. destruct Hx as [<-|Hx]; eauto. Qed.

Lemma close_errors_spec : forall k o c lo body close l ys es,
  bracket_of k = Some (o, c) -> (close = [] \/ exists lc, close = [CLeaf c None lc]) ->
  SItems (flat body) ys es ->
  unclosed (CInner k (CLeaf o None lo :: body ++ close) l) = close_errors k lo ys close.
Proof.
  intros k o c lo body close l ys es HB HC HS. cbn [unclosed]. rewrite (flat_bracket _ _ _ _ c HC).
  assert (HK : not_closed k = Some (unclosed_error k)) by (destruct k; try discriminate; reflexivity).
  rewrite HK. destruct HC as [->|[lc ->]].
  - rewrite app_nil_r. cbn [close_errors]. rewrite (SItems_last _ _ _ HS o lo).
    destruct (flat body) as [|x xs] eqn:EF.
    + cbn. destruct k; try discriminate; injection HB as <- <-; reflexivity.
    + rewrite last_cons_last by discriminate.
      destruct (SItems_In _ _ _ HS (last (x :: xs) (CLeaf o None lo))) as (c' & e & HI); [apply last_In; discriminate|].
      rewrite (SItem_not_close _ _ _ k HI). reflexivity.
  - rewrite app_comm_cons, last_last. destruct k; try discriminate; injection HB as <- <-; reflexivity.
Qed.

Lemma nodes_flat : forall body, Forall (fun x => g_expr x \/ is_newline x) body ->
  flat_map own (flat_map cst_nodes body) = flat_map own (flat_map cst_nodes (flat body)).
Proof.
  intros body H. induction H as [|x body Hx _ IH]; [reflexivity|].
  destruct Hx as [Hx|[lx ->]].
  - inversion Hx as [items lx HN HF]; subst.
    change (flat (CInner CExpr items lx :: body)) with (items ++ flat body).
    cbn [flat_map cst_nodes]. rewrite !flat_map_app, IH. cbn. rewrite ?app_nil_r. reflexivity.
  - change (flat (CLeaf LNewline None lx :: body)) with (CLeaf LNewline None lx :: flat body).
    cbn [flat_map cst_nodes]. rewrite !flat_map_app, IH. reflexivity.
Qed.

Lemma SItem_own :
  (forall c c' es (H : SItem c c' es), es = flat_map own (cst_nodes c)) /\
  (forall xs ys es (H : SItems xs ys es), es = flat_map own (flat_map cst_nodes xs)).
Proof.
  apply (SItem_both
    (fun c c' es _ => es = flat_map own (cst_nodes c))
    (fun xs ys es _ => es = flat_map own (flat_map cst_nodes xs))); try reflexivity.
  - intros k o c lo body close l xs ys es items HB HF HC HX HS IH HI. subst xs items.
    cbn [cst_nodes]. rewrite flat_map_app. cbn [flat_map cst_nodes]. rewrite !flat_map_app. cbn [flat_map own app].
    assert (EC : flat_map own (flat_map cst_nodes close) = []) by (destruct HC as [->|[lc ->]]; reflexivity).
    rewrite EC, !app_nil_r, nodes_flat by exact HF. rewrite <- IH. f_equal.
    assert (HK : not_closed k = Some (unclosed_error k)) by (destruct k; try discriminate; reflexivity).
    rewrite HK, <- (close_errors_spec k o c lo body close l ys es HB HC HS). f_equal.
    rewrite (flat_bracket _ _ _ _ c HC).
    assert (HY : Forall (fun c => noback c = true) (CLeaf o None lo :: ys ++ close)).
    { constructor; [reflexivity|]. apply Forall_app. split.
      - eapply Forall_impl; [|eapply SItems_sitem; exact HS]. exact sitem_noback.
      - destruct HC as [->|[lc ->]]; repeat constructor. }
    assert (EF : map face (CLeaf o None lo :: flat body ++ close) = map face (CLeaf o None lo :: ys ++ close)).
    { cbn. rewrite !map_app, (SItems_face _ _ _ HS). reflexivity. }
    rewrite EF, head_errors_face, strip_face, cva_face by (try apply strip_noback; exact HY). reflexivity.
  - intros c c' es cs cs' ess H1 IH1 H2 IH2. cbn [flat_map]. rewrite flat_map_app. congruence.
Qed.

Lemma SList_own : forall (R : cst -> cst -> list terror -> Prop),
  (forall c c' es, R c c' es -> es = flat_map own (cst_nodes c)) ->
  forall xs ys es, SList R xs ys es -> es = flat_map own (flat_map cst_nodes xs).
Proof.
  intros R HR xs ys es H. induction H as [|c c' es cs cs' ess H1 H2 IH]; [reflexivity|].
  cbn [flat_map]. rewrite flat_map_app, <- IH, <- (HR _ _ _ H1). reflexivity.
Qed.

Lemma SLine_own : forall c c' es, SLine c c' es -> es = flat_map own (cst_nodes c).
Proof.
  intros c c' es H. inversion H as [xs ys es0 l HN HF HS|k l HI]; subst; [|reflexivity].
  cbn [cst_nodes]. rewrite flat_map_app, <- (proj2 SItem_own _ _ _ HS). cbn. rewrite app_nil_r. reflexivity.
Qed.

Lemma SStmt_own : forall c c' es, SStmt c c' es -> es = flat_map own (cst_nodes c).
Proof.
  intros c c' es H. inversion H as [xs ys es0 l HS|k l HI]; subst; [|reflexivity].
  cbn [cst_nodes]. rewrite flat_map_app, <- (SList_own _ SLine_own _ _ _ HS). cbn. rewrite app_nil_r. reflexivity.
Qed.

Theorem SDoc_own : forall c c' es, SDoc c c' es -> es = flat_map own (cst_nodes c).
Proof.
  intros c c' es H. inversion H as [xs ys es0 l HS]; subst.
  cbn [cst_nodes]. rewrite flat_map_app, <- (SList_own _ SStmt_own _ _ _ HS). cbn. rewrite app_nil_r. reflexivity.
Qed.

Theorem transform_own : forall uuid c a es, g_document c -> transform uuid c = Ok (a, es) ->
  es = flat_map own (cst_nodes c).
Proof.
  intros uuid c a es G H. destruct (SDoc_exists c G) as (c' & e & S). unfold transform in H.
  rewrite (SDoc_simplify _ _ _ S) in H. cbn [bind] in H. apply bind_ok in H as ([a' n] & _ & H).
  injection H as <- <-. eapply SDoc_own; exact S.
Qed.

(** ** By kind *)
Lemma filter_flat_map : forall (A B : Type) (p : B -> bool) (f : A -> list B) l,
  filter p (flat_map f l) = flat_map (fun x => filter p (f x)) l.
Proof.
  induction l as [|a l IH]; [reflexivity|]. cbn. rewrite filter_app, IH. reflexivity.
Qed.

Lemma face_head1 : forall x, noback x = false ->
  (match face x with CLeaf LModule _ _ => false | CInner CAngle _ _ => false | _ => true end) = true \/
  exists y ys l, x = CInner CBackSlash (y :: ys) l.
Proof.
  intros [k cs l|k v l] H; [|discriminate]. destruct k; try discriminate. destruct cs as [|y ys]; [left; reflexivity|right; eauto].
Qed.

(** Items of a parsed command: a backslash node has at most one child, a text leaf. *)
Definition parsed_item (c : cst) : Prop :=
  forall x cs l, c = CInner CBackSlash (x :: cs) l -> exists s lx, x = CLeaf LText (Some s) lx.

Lemma SItem_parsed : forall c c' es, SItem c c' es -> parsed_item c.
Proof.
  intros c c' es H x cs l ->. inversion H as [| |? ? ? E|? ? ? ? ? ? ? ? ? ? ? HB]; subst; [eauto|discriminate].
Qed.

Definition parsed_node (c : cst) : Prop :=
  forall k cs l, c = CInner k cs l -> not_closed k <> None ->
  exists o lo items close cl, flat cs = CLeaf o None lo :: items ++ close /\
    bracket_of k = Some (o, cl) /\
    (close = [] \/ exists lc, close = [CLeaf cl None lc]) /\
    Forall (fun x => exists x' e, SItem x x' e) items.

Lemma leaf_parsed : forall k v l, parsed_node (CLeaf k v l).
Proof. intros k v l k' cs l' E. discriminate. Qed.

Lemma SItem_nodes :
  (forall c c' es (H : SItem c c' es), Forall parsed_node (cst_nodes c)) /\
  (forall xs ys es (H : SItems xs ys es), Forall parsed_node (flat_map cst_nodes xs)).
Proof.
  apply (SItem_both
    (fun c c' es _ => Forall parsed_node (cst_nodes c))
    (fun xs ys es _ => Forall parsed_node (flat_map cst_nodes xs))).
  - intros. constructor; [apply leaf_parsed|constructor].
  - intros. constructor; [|constructor]. intros k cs l' E N. injection E as <- <- <-. contradiction.
  - intros. constructor; [apply leaf_parsed|]. constructor; [|constructor].
    intros k cs l1 E N. injection E as <- <- <-. contradiction.
  - intros k o c lo body close l xs ys es items HB HF HC HX HS IH HI. subst xs.
    cbn [cst_nodes]. apply Forall_app. split.
    + cbn [flat_map]. rewrite flat_map_app. constructor; [apply leaf_parsed|]. apply Forall_app. split.
      * clear - HF IH. induction HF as [|x body Hx _ IHb]; [constructor|]. cbn [flat_map].
        destruct Hx as [Hx|[lx ->]].
        -- inversion Hx as [its lx HN HFi]; subst.
           change (flat (CInner CExpr its lx :: body)) with (its ++ flat body) in IH.
           rewrite flat_map_app in IH. apply Forall_app in IH as [A B].
           apply Forall_app. split; [|auto]. cbn. apply Forall_app. split; [exact A|].
           constructor; [|constructor]. intros k cs l' E N. injection E as <- <- <-. contradiction.
        -- change (flat (CLeaf LNewline None lx :: body)) with (CLeaf LNewline None lx :: flat body) in IH.
           cbn [flat_map] in IH. apply Forall_app in IH as [A B]. apply Forall_app. split; auto.
      * destruct HC as [->|[lc ->]]; [constructor|]. constructor; [apply leaf_parsed|constructor].
    + constructor; [|constructor]. intros k' cs' l' E N. injection E as <- <- <-.
      exists o, lo, (flat body), close, c. rewrite (flat_bracket _ _ _ _ c HC). repeat split; auto.
      rewrite Forall_forall. intros x Hx. eapply SItems_In; eassumption.
  - constructor.
  - intros c c' es cs cs' ess H1 IH1 H2 IH2. cbn [flat_map]. apply Forall_app. auto.
Qed.

Lemma no_bracket : forall k cs l, not_closed k = None -> parsed_node (CInner k cs l).
Proof. intros k cs l H k' cs' l' E N. injection E as <- <- <-. contradiction. Qed.

Lemma SList_nodes : forall (R : cst -> cst -> list terror -> Prop),
  (forall c c' es, R c c' es -> Forall parsed_node (cst_nodes c)) ->
  forall xs ys es, SList R xs ys es -> Forall parsed_node (flat_map cst_nodes xs).
Proof.
  intros R HR xs ys es H. induction H as [|c c' es cs cs' ess H1 H2 IH]; [constructor|].
  cbn [flat_map]. apply Forall_app. eauto.
Qed.

Lemma SLine_nodes : forall c c' es, SLine c c' es -> Forall parsed_node (cst_nodes c).
Proof.
  intros c c' es H. inversion H as [xs ys es0 l HN HF HS|k l HI]; subst.
  - cbn [cst_nodes]. apply Forall_app. split; [exact (proj2 SItem_nodes _ _ _ HS)|].
    constructor; [apply no_bracket; reflexivity|constructor].
  - constructor; [apply leaf_parsed|constructor].
Qed.

Lemma SStmt_nodes : forall c c' es, SStmt c c' es -> Forall parsed_node (cst_nodes c).
Proof.
  intros c c' es H. inversion H as [xs ys es0 l HS|k l HI]; subst.
  - cbn [cst_nodes]. apply Forall_app. split; [exact (SList_nodes _ SLine_nodes _ _ _ HS)|].
    constructor; [apply no_bracket; reflexivity|constructor].
  - constructor; [apply leaf_parsed|constructor].
Qed.

Theorem doc_nodes : forall c, g_document c -> Forall parsed_node (cst_nodes c).
Proof.
  intros c G. destruct (SDoc_exists c G) as (c' & e & H). inversion H as [xs ys es0 l HS]; subst.
  cbn [cst_nodes]. apply Forall_app. split; [exact (SList_nodes _ SStmt_nodes _ _ _ HS)|].
  constructor; [apply no_bracket; reflexivity|constructor].
Qed.
