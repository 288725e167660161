(** Structure of [simplify] on parsed trees. *)
From Coq Require Import String List NArith Arith Bool Lia.
From Verif Require Import Base Tokens CST AST SpecCST TransformError SpecTransform Transform ParserProofs ParserProofs2.
Import ListNotations.

(** ** Children *)
Fixpoint simps (cs : list cst) : res (list cst * list terror) :=
  match cs with
  | [] => Ok ([], [])
  | x :: cs' =>
    let! (c, e) := simplify x in
    let! (r, es) := simps cs' in
    Ok (c :: r, e ++ es)
  end.

Definition finish (k : ckind) (done : list cst) (errors : list terror) (l : loc) : res (cst * list terror) :=
  match k with
  | CDocument | CStmt => Ok (CInner k (remove_elements_not_included_ast done) l, errors)
  | CExpr => Ok (CInner k done l, errors)
  | _ => bracket_finish k done errors l
  end.

Lemma simplify_inner : forall k cs l, k <> CBackSlash ->
  simplify (CInner k cs l) = (let! (done, errors) := simps cs in finish k done errors l).
Proof. intros k cs l H. destruct k; try contradiction; reflexivity. Qed.

Definition auxs (uuid : nat -> str) : list cst -> nat -> res (list ast * nat) :=
  fix go (cs : list cst) (n : nat) : res (list ast * nat) :=
  match cs with
  | [] => Ok ([], n)
  | x :: cs' =>
    let! (a, n1) := aux uuid x n in
    let! (r, n2) := go cs' n1 in
    Ok (a :: r, n2)
  end.

Lemma aux_inner_eq : forall uuid k cs l n,
  aux uuid (CInner k cs l) n =
  match aux_inner k with
  | Some k' => let! (r, n') := auxs uuid cs n in Ok (AInner k' (uuid n') r l, S n')
  | None => Panic (lit "Cannot pass non-ast node to transform::aux")
  end.
Proof. reflexivity. Qed.

(** ** The argument loop without its accumulators *)
Definition emit (es : list cst) (l : loc) : list cst :=
  match es with [] => [] | _ => [CInner CExpr es l] end.

Fixpoint args_pure (prev : cst) (rest : list cst) (es : list cst) (l : loc) (pc : bool)
    : list cst * list terror :=
  match rest with
  | [] => (emit es l, [])
  | c :: rest' =>
    match c with
    | CLeaf LComma _ _ =>
      match es with
      | [] => let (o, e) := args_pure c rest' es l pc in (o, (EUnexpectedComma, cst_location c) :: e)
      | _ => let (o, e) := args_pure c rest' [] mock_location true in (CInner CExpr es l :: o, e)
      end
    | CLeaf (LAngleClose | LCurlyClose | LSquareClose) _ _ =>
      (emit es l ++ [c],
       match es with [] => if pc then [(EUnexpectedComma, cst_location prev)] else [] | _ => [] end)
    | CLeaf LDot _ _ =>
      let (o, e) := args_pure c rest' es l pc in (o, (EUnexpectedDot, cst_location c) :: e)
    | _ => args_pure c rest' (es ++ [c]) (merge_location l (cst_location c)) false
    end
  end.

Lemma args_loop_pure : forall rest prev ncs es l pc errs,
  args_loop prev rest ncs (CInner CExpr es l) pc errs =
  Ok (ncs ++ fst (args_pure prev rest es l pc), errs ++ snd (args_pure prev rest es l pc)).
Proof.
  induction rest as [|c rest IH]; intros prev ncs es l pc errs.
  - cbn. destruct es; cbn; rewrite ?app_nil_r; reflexivity.
  - destruct c as [k cs lc|k v lc].
    + cbn [args_loop args_pure cst_add cst_add_opt bind]. rewrite IH. reflexivity.
    + destruct k; cbn [args_loop args_pure cst_add cst_add_opt bind no_children cst_children];
        try (rewrite IH; reflexivity).
      * destruct es; [destruct pc|]; cbn; rewrite <- ?app_assoc, ?app_nil_r; reflexivity.
      * destruct es; [destruct pc|]; cbn; rewrite <- ?app_assoc, ?app_nil_r; reflexivity.
      * destruct es; [destruct pc|]; cbn; rewrite <- ?app_assoc, ?app_nil_r; reflexivity.
      * rewrite IH. destruct (args_pure (CLeaf LDot v lc) rest es l pc) as [o e]. cbn.
        rewrite <- app_assoc. reflexivity.
      * destruct es as [|x es].
        -- rewrite IH. destruct (args_pure (CLeaf LComma v lc) rest [] l pc) as [o e]. cbn.
           rewrite <- app_assoc. reflexivity.
        -- unfold new_expr. rewrite IH.
           destruct (args_pure (CLeaf LComma v lc) rest [] mock_location true) as [o e]. cbn.
           rewrite <- app_assoc. reflexivity.
Qed.

Definition cva (cs : list cst) : list cst * list terror :=
  match cs with
  | c0 :: c1 :: c2 :: c3 :: rest =>
    let (o, e) := args_pure c3 rest [] mock_location false in (c0 :: c1 :: c2 :: c3 :: o, e)
  | _ => (cs, [])
  end.

Lemma check_valid_arguments_pure : forall cs, check_valid_arguments cs = Ok (cva cs).
Proof.
  intros [|c0 [|c1 [|c2 [|c3 rest]]]]; try reflexivity. cbn [check_valid_arguments cva].
  unfold new_expr. rewrite args_loop_pure.
  destruct (args_pure c3 rest [] mock_location false) as [o e]. reflexivity.
Qed.

Definition unclosed_error (k : ckind) : ekind :=
  match k with CAngle => EAngleNotClosed | CCurly => ECurlyNotClosed | _ => ESquareNotClosed end.

(** The errors of one command, given its items. *)
Definition head_errors (items : list cst) : list terror :=
  check_if_module_or_angle_bracket items ++ check_if_dot items ++
  check_if_ident_or_angle_bracket items ++ check_unexpected_dot items.
Definition strip := remove_whitespaces_and_newlines.
Definition out (items : list cst) : list cst :=
  remove_elements_not_included_ast (fst (cva (strip items))).
Definition close_errors (k : ckind) (lo : loc) (ys close : list cst) : list terror :=
  match close with
  | [] => [(unclosed_error k, merge_location lo (cst_location (last ys (CLeaf LInvalid None lo))))]
  | _ => []
  end.

(** ** What [simplify] does to an item and to the items of a command *)
Definition item_leaf (k : clkind) : bool :=
  match k with
  | LModule | LIdent | LText | LDot | LComma | LWhitespace | LNewline => true
  | _ => false
  end.

Inductive SItem : cst -> cst -> list terror -> Prop :=
| SI_leaf : forall k v l, item_leaf k = true -> SItem (CLeaf k v l) (CLeaf k v l) []
| SI_esc0 : forall l, SItem (CInner CBackSlash [] l) (CLeaf LInvalid None l) [(EInvalidBackslash, l)]
| SI_esc1 : forall s l l', SItem (CInner CBackSlash [CLeaf LText (Some s) l'] l) (CLeaf LText (Some s) l') []
| SI_bracket : forall k o c lo body close l xs ys es items,
    bracket_of k = Some (o, c) ->
    Forall (fun x => g_expr x \/ is_newline x) body ->
    (close = [] \/ exists lc, close = [CLeaf c None lc]) ->
    xs = flat body ->
    SItems xs ys es ->
    items = CLeaf o None lo :: ys ++ close ->
    SItem (CInner k (CLeaf o None lo :: body ++ close) l)
          (CInner k (out items) l)
          (es ++ close_errors k lo ys close ++ head_errors items ++ snd (cva (strip items)))
with SItems : list cst -> list cst -> list terror -> Prop :=
| SS_nil : SItems [] [] []
| SS_cons : forall c c' es cs cs' ess, SItem c c' es -> SItems cs cs' ess ->
    SItems (c :: cs) (c' :: cs') (es ++ ess).

Scheme SItem_mut := Induction for SItem Sort Prop
  with SItems_mut := Induction for SItems Sort Prop.
Combined Scheme SItem_both from SItem_mut, SItems_mut.

Lemma SItems_app : forall a b a' b' ea eb, SItems a a' ea -> SItems b b' eb ->
  SItems (a ++ b) (a' ++ b') (ea ++ eb).
Proof.
  intros a b a' b' ea eb H G. induction H as [|c c' es cs cs' ess H1 H2 IH]; [exact G|].
  cbn. rewrite <- app_assoc. constructor; assumption.
Qed.

Lemma SItems_app_inv : forall a b ys es, SItems (a ++ b) ys es ->
  exists a' b' ea eb, ys = a' ++ b' /\ es = ea ++ eb /\ SItems a a' ea /\ SItems b b' eb.
Proof.
  induction a as [|x a IH]; intros b ys es H.
  - exists [], ys, [], es. repeat split; [constructor|exact H].
  - inversion H as [|? c' e1 ? cs' e2 H1 H2]; subst. destruct (IH _ _ _ H2) as (a' & b' & ea & eb & -> & -> & A & B).
    exists (c' :: a'), b', (e1 ++ ea), eb. rewrite app_assoc. repeat split; auto. constructor; auto.
Qed.

Lemma flat_app : forall a b, flat (a ++ b) = flat a ++ flat b.
Proof. intros. unfold flat. apply flat_map_app. Qed.

Lemma g_not_expr : forall c, g_item c -> forall xs l, c <> CInner CExpr xs l.
Proof. intros c H xs l ->. inversion H; subst; discriminate. Qed.

(** Every parsed item is simplified in this way. *)
Lemma SItem_exists : forall c,
  (g_item c -> exists c' es, SItem c c' es) /\
  (g_expr c -> forall xs l, c = CInner CExpr xs l -> exists ys es, SItems xs ys es).
Proof.
  induction c as [k v l|k cs l IH] using cst_ind'.
  - split; intro H; [|inversion H]. inversion H as [| |k' s l' H1|k' l' H1|]; subst;
      do 2 eexists; apply SI_leaf; destruct H1 as [<-|[<-|[<-|[]]]]; reflexivity.
  - assert (HI : forall xs, (forall x, In x xs -> In x cs /\ g_item x) -> exists ys es, SItems xs ys es).
    { rewrite Forall_forall in IH. induction xs as [|x xs IHx]; intro F; [do 2 eexists; constructor|].
      destruct (F x (or_introl eq_refl)) as [A B]. destruct (proj1 (IH x A) B) as (c' & e & S1).
      destruct IHx as (ys & es & S2); [intros; apply F; right; assumption|].
      do 2 eexists. constructor; eassumption. }
    split; intro H.
    + inversion H as [l0|s k0 l0 l' H1| | |k0 o c lo body close l0 H1 H2 H3]; subst.
      * do 2 eexists. constructor.
      * do 2 eexists. constructor.
      * assert (HB : exists ys es, SItems (flat body) ys es).
        { clear H. assert (IHb : Forall (fun c => g_expr c -> forall xs l, c = CInner CExpr xs l -> exists ys es, SItems xs ys es) body).
          { inversion IH as [|? ? _ IH2]; subst. apply Forall_app in IH2 as [IH2 _].
            eapply Forall_impl; [|exact IH2]. intros a [_ B]. exact B. }
          clear IH HI H3. induction body as [|x body IHb']; [do 2 eexists; constructor|].
          inversion IHb as [|? ? A B]; subst. inversion H2 as [|? ? C D]; subst.
          destruct (IHb' D B) as (ys & es & S2).
          destruct C as [C|[lx ->]].
          - pose proof C as C'. inversion C' as [items lx HN HF]; subst.
            destruct (A C _ _ eq_refl) as (y1 & e1 & S1).
            do 2 eexists. change (flat (CInner CExpr items lx :: body)) with (items ++ flat body).
            eapply SItems_app; eassumption.
          - do 2 eexists. change (flat (CLeaf LNewline None lx :: body)) with ([CLeaf LNewline None lx] ++ flat body).
            eapply SItems_app; [|exact S2]. constructor; [|constructor]. apply SI_leaf. reflexivity. }
        destruct HB as (ys & es & S). do 2 eexists. eapply SI_bracket; eauto.
    + intros xs l0 E. injection E as -> -> ->. inversion H as [items l1 HN HF]; subst.
      apply HI. intros x Hx. rewrite Forall_forall in HF. auto.
Qed.

(** Simplified items. *)
Definition sleaf (k : clkind) : bool :=
  match k with
  | LModule | LIdent | LText | LDot | LComma | LWhitespace | LNewline | LInvalid => true
  | _ => false
  end.
Definition sitem (c : cst) : bool :=
  match c with
  | CLeaf k _ _ => sleaf k
  | CInner (CAngle | CCurly | CSquare) _ _ => true
  | _ => false
  end.

Lemma SItem_sitem : forall c c' es, SItem c c' es -> sitem c' = true.
Proof.
  intros c c' es H. inversion H as [k v l E| | |k o c0 lo body close l xs ys es0 items E]; subst; cbn.
  - destruct k; try discriminate; reflexivity.
  - reflexivity.
  - reflexivity.
  - destruct k; try discriminate; reflexivity.
Qed.

Lemma SItems_sitem : forall xs ys es, SItems xs ys es -> Forall (fun c => sitem c = true) ys.
Proof.
  intros xs ys es H. induction H as [|c c' es cs cs' ess H1 H2 IH]; constructor; [|exact IH].
  eapply SItem_sitem; eassumption.
Qed.

Lemma splice_sitem : forall c, sitem c = true -> splice c = [c].
Proof. intros [[]|] H; try discriminate; reflexivity. Qed.

Lemma splice_sitems : forall cs, Forall (fun c => sitem c = true) cs -> flat_map splice cs = cs.
Proof.
  intros cs H. induction H as [|c cs H1 _ IH]; [reflexivity|]. cbn. rewrite (splice_sitem c H1), IH. reflexivity.
Qed.

Lemma last_cons_last : forall (A : Type) (a : A) ys d, ys <> [] -> last (a :: ys) d = last ys d.
Proof. intros A a [|y ys] d H; [contradiction|reflexivity]. Qed.
Lemma last_default : forall (A : Type) (ys : list A) d d', ys <> [] -> last ys d = last ys d'.
Proof.
  intros A ys d d' H. induction ys as [|a ys IH]; [contradiction|].
  destruct ys as [|y ys]; [reflexivity|]. cbn. apply IH. discriminate.
Qed.
Lemma last_In : forall (A : Type) (ys : list A) d, ys <> [] -> In (last ys d) ys.
Proof.
  intros A ys d H. induction ys as [|a ys IH]; [contradiction|].
  destruct ys as [|y ys]; [left; reflexivity|]. right. apply IH. discriminate.
Qed.

Lemma check_first_last_ok : forall k o c lo ys close,
  bracket_of k = Some (o, c) -> Forall (fun c => sitem c = true) ys ->
  (close = [] \/ exists lc, close = [CLeaf c None lc]) ->
  check_if_the_first_and_last_node_are_brackets k (CLeaf o None lo :: ys ++ close) =
  Ok (close_errors k lo ys close).
Proof.
  intros k o c lo ys close HK HS HC. destruct HC as [->|[lc ->]].
  - rewrite app_nil_r. cbn [check_if_the_first_and_last_node_are_brackets close_errors].
    destruct ys as [|y ys].
    + cbn. destruct k; try discriminate; injection HK as <- <-; reflexivity.
    + rewrite last_cons_last by discriminate.
      rewrite (last_default _ (y :: ys) (CLeaf o None lo) (CLeaf LInvalid None lo)) by discriminate.
      pose proof (last_In _ (y :: ys) (CLeaf LInvalid None lo)) as HL. specialize (HL ltac:(discriminate)).
      rewrite Forall_forall in HS. apply HS in HL.
      remember (last (y :: ys) (CLeaf LInvalid None lo)) as z eqn:Ez. clear Ez.
      destruct k; try discriminate; injection HK as <- <-; destruct z as [kz csz lz|kz vz lz]; try reflexivity;
        destruct kz; try discriminate; reflexivity.
  - cbn [check_if_the_first_and_last_node_are_brackets close_errors]. rewrite app_comm_cons, last_last.
    destruct k; try discriminate; injection HK as <- <-; reflexivity.
Qed.

Lemma simps_app : forall a b, simps (a ++ b) =
  (let! (ra, ea) := simps a in let! (rb, eb) := simps b in Ok (ra ++ rb, ea ++ eb)).
Proof.
  induction a as [|x a IH]; intro b.
  - cbn. destruct (simps b) as [[r e]| | |]; reflexivity.
  - cbn [app simps]. destruct (simplify x) as [[c e]|?|?|]; cbn [bind]; try reflexivity.
    rewrite IH. destruct (simps a) as [[ra ea]|?|?|]; cbn [bind]; try reflexivity.
    destruct (simps b) as [[rb eb]|?|?|]; cbn [bind]; try reflexivity.
    cbn. rewrite app_assoc. reflexivity.
Qed.

Lemma simps_body : forall body ys es,
  Forall (fun x => g_expr x \/ is_newline x) body ->
  simps (flat body) = Ok (ys, es) ->
  exists done, simps body = Ok (done, es) /\
    (Forall (fun c => sitem c = true) ys -> flat_map splice done = ys).
Proof.
  induction body as [|x body IH]; intros ys es HF H.
  - injection H as <- <-. exists []. split; reflexivity.
  - inversion HF as [|? ? Hx HF']; subst. destruct Hx as [Hx|[lx ->]].
    + inversion Hx as [items lx HN HFi]; subst.
      change (flat (CInner CExpr items lx :: body)) with (items ++ flat body) in *.
      rewrite simps_app in H. apply bind_ok in H as ([a' ea] & A & H).
      apply bind_ok in H as ([b' eb] & B & H). injection H as <- <-.
      destruct (IH b' eb HF' B) as (done & E & F).
      exists (CInner CExpr a' lx :: done). cbn [simps]. rewrite simplify_inner by discriminate.
      rewrite A. cbn [bind finish]. rewrite E. cbn. split; [reflexivity|].
      intro G. apply Forall_app in G as [_ G]. rewrite F by exact G. reflexivity.
    + change (flat (CLeaf LNewline None lx :: body)) with ([CLeaf LNewline None lx] ++ flat body) in *.
      rewrite simps_app in H. apply bind_ok in H as ([a' ea] & A & H).
      apply bind_ok in H as ([b' eb] & B & H). injection H as <- <-. cbn in A. injection A as <- <-.
      destruct (IH b' eb HF' B) as (done & E & F).
      exists (CLeaf LNewline None lx :: done). cbn [simps simplify bind]. rewrite E. cbn. split; [reflexivity|].
      intro G. apply Forall_inv_tail in G. rewrite F by exact G. reflexivity.
Qed.

Lemma SItem_simplify :
  (forall c c' es (H : SItem c c' es), simplify c = Ok (c', es)) /\
  (forall xs ys es (H : SItems xs ys es), simps xs = Ok (ys, es)).
Proof.
  apply (SItem_both
    (fun c c' es _ => simplify c = Ok (c', es))
    (fun xs ys es _ => simps xs = Ok (ys, es))); try reflexivity.
  - intros k o c lo body close l xs ys es items HB HF HC HX HS IH HI. subst xs items.
    rewrite simplify_inner by (destruct k; discriminate). cbn [simps simplify bind].
    rewrite simps_app. destruct (simps_body body ys es HF IH) as (done & E & F). rewrite E. cbn [bind].
    pose proof (SItems_sitem _ _ _ HS) as HY.
    assert (EC : simps close = Ok (close, [])) by (destruct HC as [->|[lc ->]]; reflexivity).
    rewrite EC. cbn [bind]. rewrite app_nil_r.
    assert (EF : finish k (CLeaf o None lo :: done ++ close) ([] ++ es) l =
                 bracket_finish k (CLeaf o None lo :: done ++ close) es l).
    { destruct k; try discriminate; reflexivity. }
    rewrite EF. unfold bracket_finish.
    assert (ES : flat_map splice (CLeaf o None lo :: done ++ close) = CLeaf o None lo :: ys ++ close).
    { change (flat_map splice (CLeaf o None lo :: done ++ close)) with (CLeaf o None lo :: flat_map splice (done ++ close)).
      rewrite flat_map_app, F by exact HY. f_equal. f_equal. destruct HC as [->|[lc ->]]; reflexivity. }
    rewrite ES, (check_first_last_ok k o c lo ys close HB HY HC). cbn [bind].
    rewrite check_valid_arguments_pure. unfold out, strip.
    destruct (cva (remove_whitespaces_and_newlines (CLeaf o None lo :: ys ++ close))) as [oo ee].
    cbn [bind fst snd]. unfold head_errors. rewrite <- !app_assoc. reflexivity.
  - intros c c' es cs cs' ess H1 IH1 H2 IH2. cbn [simps]. rewrite IH1. cbn [bind]. rewrite IH2. reflexivity.
Qed.

(** [SItem] is a function of the item. *)
Lemma SItem_fun : forall c c' es c1 es1, SItem c c' es -> SItem c c1 es1 -> c1 = c' /\ es1 = es.
Proof.
  intros c c' es c1 es1 H G. apply SItem_simplify in H. apply SItem_simplify in G. rewrite H in G.
  injection G as <- <-. auto.
Qed.

(** ** Statements and documents *)
(** A line is simplified item by item; a lone closing bracket or a newline stays as it is. *)
Inductive SLine : cst -> cst -> list terror -> Prop :=
| SL_expr : forall xs ys es l, xs <> [] -> Forall g_item xs -> SItems xs ys es ->
    SLine (CInner CExpr xs l) (CInner CExpr ys l) es
| SL_leaf : forall k l, In k [LNewline; LAngleClose; LCurlyClose; LSquareClose] ->
    SLine (CLeaf k None l) (CLeaf k None l) [].

Inductive SList (R : cst -> cst -> list terror -> Prop) : list cst -> list cst -> list terror -> Prop :=
| SLs_nil : SList R [] [] []
| SLs_cons : forall c c' es cs cs' ess, R c c' es -> SList R cs cs' ess ->
    SList R (c :: cs) (c' :: cs') (es ++ ess).

Inductive SStmt : cst -> cst -> list terror -> Prop :=
| ST_stmt : forall xs ys es l, SList SLine xs ys es ->
    SStmt (CInner CStmt xs l) (CInner CStmt (filter inner ys) l) es
| ST_leaf : forall k l, In k [LNewline; LEOF] -> SStmt (CLeaf k None l) (CLeaf k None l) [].

Inductive SDoc : cst -> cst -> list terror -> Prop :=
| SD_doc : forall xs ys es l, SList SStmt xs ys es ->
    SDoc (CInner CDocument xs l) (CInner CDocument (filter inner ys) l) es.

Lemma SList_exists : forall (R : cst -> cst -> list terror -> Prop) cs,
  Forall (fun c => exists c' es, R c c' es) cs -> exists ys es, SList R cs ys es.
Proof.
  intros R cs H. induction H as [|c cs (c' & e & H1) _ (ys & es & IH)]; do 2 eexists; constructor; eassumption.
Qed.

Lemma SList_simps : forall (R : cst -> cst -> list terror -> Prop),
  (forall c c' es, R c c' es -> simplify c = Ok (c', es)) ->
  forall cs ys es, SList R cs ys es -> simps cs = Ok (ys, es).
Proof.
  intros R HR cs ys es H. induction H as [|c c' es cs cs' ess H1 H2 IH]; [reflexivity|].
  cbn [simps]. rewrite (HR _ _ _ H1). cbn [bind]. rewrite IH. reflexivity.
Qed.

Lemma SLine_exists : forall c, g_expr_or_close c \/ is_newline c -> exists c' es, SLine c c' es.
Proof.
  intros c [[H|(k & l & -> & H)]|[l ->]].
  - pose proof H as G. inversion H as [items l HN HF]; subst.
    destruct (proj2 (SItem_exists _) G _ _ eq_refl) as (ys & es & S). do 2 eexists. constructor; eassumption.
  - do 2 eexists. apply SL_leaf. right. exact H.
  - do 2 eexists. apply SL_leaf. left. reflexivity.
Qed.

Lemma SLine_simplify : forall c c' es, SLine c c' es -> simplify c = Ok (c', es).
Proof.
  intros c c' es H. inversion H as [xs ys es0 l HN HF HS|k l HI]; subst; [|reflexivity].
  rewrite simplify_inner by discriminate. rewrite (proj2 SItem_simplify _ _ _ HS). reflexivity.
Qed.

Lemma remove_inner : forall cs, Forall (fun c => inner c = true \/ not_in_ast c = true) cs ->
  remove_elements_not_included_ast cs = filter inner cs.
Proof.
  intros cs H. induction H as [|c cs H1 _ IH]; [reflexivity|]. cbn. rewrite IH.
  destruct c as [k xs l|k v l].
  - reflexivity.
  - destruct H1 as [H1|H1]; [discriminate|]. cbn in H1 |- *. rewrite H1. reflexivity.
Qed.

Lemma SList_out : forall (R : cst -> cst -> list terror -> Prop) (Q : cst -> Prop),
  (forall c c' es, R c c' es -> Q c') -> forall cs ys es, SList R cs ys es -> Forall Q ys.
Proof. intros R Q HR cs ys es H. induction H; constructor; eauto. Qed.

Lemma SStmt_exists : forall c, g_stmt c \/ is_newline c \/ (exists le, c = CLeaf LEOF None le) ->
  exists c' es, SStmt c c' es.
Proof.
  intros c [(x & cs & l & -> & H1 & H2)|[[l ->]|[l ->]]].
  - destruct (SList_exists SLine (x :: cs)) as (ys & es & S).
    + constructor; [apply SLine_exists; auto|].
      induction H2; constructor; [|constructor]; [apply SLine_exists; auto..|exact IHg_stmt_tail].
    + do 2 eexists. constructor. exact S.
  - do 2 eexists. apply ST_leaf. left. reflexivity.
  - do 2 eexists. apply ST_leaf. right. left. reflexivity.
Qed.

Lemma SStmt_simplify : forall c c' es, SStmt c c' es -> simplify c = Ok (c', es).
Proof.
  intros c c' es H. inversion H as [xs ys es0 l HS|k l HI]; subst; [|reflexivity].
  rewrite simplify_inner by discriminate. rewrite (SList_simps _ SLine_simplify _ _ _ HS). cbn [bind finish].
  rewrite remove_inner; [reflexivity|]. eapply SList_out; [|exact HS].
  intros c c' e L. inversion L as [| k l' HI]; subst; [left; reflexivity|right].
  destruct HI as [<-|[<-|[<-|[<-|[]]]]]; reflexivity.
Qed.

Lemma SDoc_simplify : forall c c' es, SDoc c c' es -> simplify c = Ok (c', es).
Proof.
  intros c c' es H. inversion H as [xs ys es0 l HS]; subst.
  rewrite simplify_inner by discriminate. rewrite (SList_simps _ SStmt_simplify _ _ _ HS). cbn [bind finish].
  rewrite remove_inner; [reflexivity|]. eapply SList_out; [|exact HS].
  intros c c' e L. inversion L as [| k l' HI]; subst; [left; reflexivity|right].
  destruct HI as [<-|[<-|[]]]; reflexivity.
Qed.

Lemma SDoc_exists : forall c, g_document c -> exists c' es, SDoc c c' es.
Proof.
  intros c (ps & lst & ns & le & l & -> & H1 & H2 & H3).
  destruct (SList_exists SStmt (ps ++ lst ++ ns ++ [CLeaf LEOF None le])) as (ys & es & S).
  - rewrite !Forall_app. split; [|split; [|split]].
    + clear - H1. induction H1 as [|s n1 n2 ns cs A B C D _ IH]; [constructor|].
      repeat (constructor; [apply SStmt_exists; auto|]). apply Forall_app. split; [|exact IH].
      eapply Forall_impl; [|exact D]. intros; apply SStmt_exists; auto.
    + destruct H2 as [->|(s & -> & H2)]; [constructor|]. constructor; [apply SStmt_exists; auto|constructor].
    + eapply Forall_impl; [|exact H3]. intros; apply SStmt_exists; auto.
    + constructor; [apply SStmt_exists; eauto|constructor].
  - do 2 eexists. constructor. exact S.
Qed.
