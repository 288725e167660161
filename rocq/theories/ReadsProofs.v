(** Readings are unique up to identifiers, exist exactly if [transform] does not panic, and put
    every argument at the origin. *)
From Coq Require Import String List NArith Arith Bool Lia.
From Verif Require Import Base Tokens CST AST SpecCST TransformError SpecTransform SpecReads Transform
  ParserProofs ParserProofs2 ParserLocations TransformProofs TransformErrors TransformKinds TransformMeans TransformGrammar
  TransformIds TransformReads.
Import ListNotations.

Section induction.
  Variable P : cst -> ast -> Prop.
  Let Q (x : cst) (a : ast) : Prop := reads x a /\ P x a.
  Hypothesis Hname : forall k k' s i l, name_kind k = Some k' -> P (CLeaf k (Some s) l) (ALeaf k' i (Some s) l).
  Hypothesis Hescape : forall s i l l', P (CInner CBackSlash [CLeaf LText (Some s) l'] l) (ALeaf FText i (Some s) l').
  Hypothesis Hnothing : forall i l, P (CInner CBackSlash [] l) (ALeaf FInvalid i None l).
  Hypothesis Hcommand : forall k o c k' cs l i hs aas,
    command_kind k = Some (o, c, k') ->
    Forall2 Q (filter stands (firstn 3 (inside cs))) hs ->
    Forall2 (fun g a => exists i' as', a = AInner NExpr i' as' (group_loc g) /\ Forall2 Q g as')
      (given (skipn 3 (inside cs))) aas ->
    P (CInner k cs l) (AInner k' i (hs ++ aas) l).
  Hypothesis Hexpr : forall xs ys i l, Forall2 Q xs ys -> P (CInner CExpr xs l) (AInner NExpr i ys l).
  Hypothesis Hstmt : forall xs ys i l, Forall2 Q (filter inner xs) ys -> P (CInner CStmt xs l) (AInner NStmt i ys l).
  Hypothesis Hdocument : forall xs ys i l, Forall2 Q (filter inner xs) ys ->
    P (CInner CDocument xs l) (AInner NDocument i ys l).

  Fixpoint reads_ind' (c : cst) (a : ast) (H : reads c a) {struct H} : P c a.
  Proof.
    pose (lift := fix lift (xs : list cst) (ys : list ast) (F : Forall2 reads xs ys) {struct F} : Forall2 Q xs ys :=
      match F in Forall2 _ xs ys return Forall2 Q xs ys with
      | Forall2_nil _ => Forall2_nil _
      | Forall2_cons x y R F' => Forall2_cons x y (conj R (reads_ind' x y R)) (lift _ _ F')
      end).
    destruct H.
    - apply Hname; assumption.
    - apply Hescape.
    - apply Hnothing.
    - eapply Hcommand; [eassumption|apply lift; assumption|].
      match goal with F : Forall2 (fun _ _ => exists _ _, _) _ _ |- _ => rename F into FA end.
      revert aas FA. generalize (given (skipn 3 (inside cs))). 
      fix go 3. intros gs aas FA. destruct FA as [|g a gs aas (i' & as' & E & F) FA]; constructor.
      + exists i', as'. split; [exact E|apply lift, F].
      + apply go, FA.
    - apply Hexpr, lift; assumption.
    - apply Hstmt, lift; assumption.
    - apply Hdocument, lift; assumption.
  Qed.
End induction.

Lemma unique_list : forall xs ys, Forall2 (fun x a => reads x a /\ forall b, reads x b -> erase a = erase b) xs ys ->
  forall zs, Forall2 reads xs zs -> map erase ys = map erase zs.
Proof.
  intros xs ys H. induction H as [|x y xs ys [_ U] _ IH]; intros zs F; inversion F; subst; cbn; f_equal; auto.
Qed.

Lemma command_inv : forall k o c k' cs l b, command_kind k = Some (o, c, k') -> reads (CInner k cs l) b ->
  exists i hs aas, b = AInner k' i (hs ++ aas) l /\
    Forall2 reads (filter stands (firstn 3 (inside cs))) hs /\
    Forall2 (fun g a => exists i' as', a = AInner NExpr i' as' (group_loc g) /\ Forall2 reads g as')
      (given (skipn 3 (inside cs))) aas.
Proof.
  intros k o c k' cs l b CK R. inversion R as [| | |k0 o0 c0 k0' cs0 l0 i hs aas CK0 H A| | |]; subst; try discriminate.
  rewrite CK in CK0. injection CK0 as <- <- <-. exists i, hs, aas. auto.
Qed.

Theorem reads_unique : forall c a b, reads c a -> reads c b -> erase a = erase b.
Proof.
  intros c a b H. revert b. revert c a H. apply (reads_ind' (fun c a => forall b, reads c b -> erase a = erase b)).
  - intros k k' s i l N b R. inversion R; subst; cbn; congruence.
  - intros s i l l' b R. inversion R; subst; try discriminate; reflexivity.
  - intros i l b R. inversion R; subst; try discriminate; reflexivity.
  - intros k o c k' cs l i hs aas CK H A b R. destruct (command_inv _ _ _ _ _ _ _ CK R) as (i2 & hs2 & aas2 & -> & H2 & A2).
    cbn. f_equal. rewrite !map_app. f_equal; [eapply unique_list; eassumption|].
    clear - A A2. revert aas2 A2. induction A as [|g a gs aas (j & as' & -> & F) _ IH]; intros aas2 A2;
      inversion A2 as [|? b ? aas2' (j2 & as2 & -> & F2) A3]; subst; [reflexivity|].
    cbn. f_equal; [|apply IH; assumption]. f_equal. eapply unique_list; eassumption.
  - intros xs ys i l F b R. inversion R as [| | | |xs2 ys2 i2 l2 F2| |]; subst; try discriminate.
    cbn. f_equal. eapply unique_list; eassumption.
  - intros xs ys i l F b R. inversion R as [| | | | |xs2 ys2 i2 l2 F2|]; subst; try discriminate.
    cbn. f_equal. eapply unique_list; eassumption.
  - intros xs ys i l F b R. inversion R as [| | | | | |xs2 ys2 i2 l2 F2]; subst; try discriminate.
    cbn. f_equal. eapply unique_list; eassumption.
Qed.

Lemma reads_no_mark : forall x a, reads x a -> ~ mark x.
Proof. intros x a R [(v & l & ->)|[(v & l & ->)|(v & l & ->)]]; inversion R; discriminate. Qed.

Lemma F2_exists : forall (A B : Type) (R : A -> B -> Prop) xs ys, Forall2 R xs ys -> forall x, In x xs -> exists y, R x y.
Proof. intros A B R xs ys F. induction F as [|x y xs ys H _ IH]; intros z I; [destruct I|destruct I as [<-|I]; eauto]. Qed.

Lemma reads_top : forall c a, reads c a -> forall x, In x (top_items c) -> exists b, reads x b.
Proof.
  intros c a R x I. unfold top_items, lines in I. destruct c as [k ss l|]; [|destruct I]. destruct k; try (destruct I; fail).
  apply in_flat_map in I as (e & I & X). apply in_flat_map in I as (s & S & E).
  destruct s as [ks es ls|]; [|destruct E]. destruct ks; try (destruct E; fail).
  destruct e as [ke xs le|]; [|destruct X]. destruct ke; try (destruct X; fail).
  inversion R as [| | |k0 o c k' cs0 l0 i hs aas CK| | |xs0 ys0 i0 l0 F0]; subst; [discriminate|].
  destruct (F2_exists _ _ _ _ _ F0 (CInner CStmt es ls)) as [b0 R0]; [apply filter_In; auto|].
  inversion R0 as [| | |k0 o c k' cs0 l1 i hs aas CK| |xs1 ys1 i1 l1 F1|]; subst; [discriminate|].
  destruct (F2_exists _ _ _ _ _ F1 (CInner CExpr xs le)) as [b1 R1]; [apply filter_In; auto|].
  inversion R1 as [| | |k0 o c k' cs0 l2 i hs aas CK|xs2 ys2 i2 l2 F2| |]; subst; [discriminate|].
  exact (F2_exists _ _ _ _ _ F2 x X).
Qed.

Theorem reads_transform : forall uuid c a, g_document c -> reads c a ->
  exists b es, transform uuid c = Ok (b, es) /\ erase b = erase a.
Proof.
  intros uuid c a G R. destruct (transform_panics uuid c G) as [[(x & I & M) _]|[_ (b & es & E)]].
  - exfalso. destruct (reads_top c a R x I) as [b B]. exact (reads_no_mark x b B M).
  - exists b, es. split; [exact E|]. exact (reads_unique c b a (transform_reads uuid c b es G E) R).
Qed.

(** ** Ranges of arguments *)
Lemma group_origin : forall g, lstart (group_loc g) = mkpos 0 0.
Proof.
  intro g. unfold group_loc.
  assert (H : forall ls l, lstart l = mkpos 0 0 -> lstart (fold_left merge_location ls l) = mkpos 0 0).
  { induction ls as [|x ls IH]; intros l L; [exact L|]. cbn. apply IH. apply merge_origin. exact L. }
  apply H. reflexivity.
Qed.

Lemma reads_loc : forall x a, reads x a -> ast_location a = item_loc x.
Proof.
  intros x a R. destruct R as [| | |k o c k' cs l i hs aas CK| | |]; try reflexivity.
  destruct k; try discriminate; reflexivity.
Qed.
Lemma reads_locs : forall g as', Forall2 reads g as' -> group_loc g = fold_left merge_location (map ast_location as') mock_location.
Proof.
  intros g as' F. unfold group_loc. f_equal. induction F as [|x a g as' R _ IH]; [reflexivity|].
  cbn. rewrite IH, (reads_loc x a R). reflexivity.
Qed.

(** The arguments among the children of a command. *)
Definition arg_ranges (a : ast) : Prop :=
  match a with
  | AInner (NAngle | NCurly | NSquare) _ cs _ =>
    forall i xs l, In (AInner NExpr i xs l) cs ->
    xs <> [] /\ lstart l = mkpos 0 0 /\ l = fold_left merge_location (map ast_location xs) mock_location
  | _ => True
  end.

Definition reading_tree (c : cst) : Prop := g_item c \/ g_expr c \/ g_stmt c \/ g_document c.

Lemma reads_item_kind : forall x a, reads x a -> g_item x -> forall i xs l, a <> AInner NExpr i xs l.
Proof.
  intros x a R G i xs l E. subst a. inversion R as [| | |k o c k' cs l0 i0 hs aas CK H A E| | |]; subst.
  - destruct k; discriminate.
  - exact (g_not_expr _ G _ _ eq_refl).
Qed.

Lemma inside_items : forall k cs l, g_item (CInner k cs l) -> k <> CBackSlash -> Forall (fun x => g_item x) (inside cs).
Proof.
  intros k cs l G NB. inversion G as [| | | |k0 o c lo body close l0 HB HF HC]; subst; try contradiction.
  rewrite (inside_bracket k o c lo body close HB HF HC). pose proof (parsed_flat body HF) as P.
  rewrite Forall_forall in *. intros x I. unfold core in I. apply filter_In in I as [I V]. destruct (P x I) as [Q|[l' ->]]; [exact Q|].
  discriminate.
Qed.

Lemma between_in : forall xs g0 g x, In g (between_commas g0 xs) -> In x g -> In x g0 \/ In x xs.
Proof.
  induction xs as [|c xs IH]; intros g0 g x I J; cbn in I.
  - destruct I as [<-|[]]. auto.
  - destruct (is_comma c).
    + destruct I as [<-|I]; [auto|]. destruct (IH _ _ _ I J) as [[]|K]. right; right; exact K.
    + destruct (IH _ _ _ I J) as [K|K]; [|right; right; exact K]. apply in_app_or in K as [K|[<-|[]]]; [auto|right; left; reflexivity].
Qed.
Lemma given_in : forall xs g x, In g (given xs) -> In x g -> In x xs.
Proof.
  intros xs g x I J. unfold given in I. apply filter_In in I as [I _]. destruct (between_in _ _ _ _ I J) as [[]|K].
  apply filter_In in K as [K _]. exact K.
Qed.
Lemma given_some : forall xs g, In g (given xs) -> g <> [].
Proof. intros xs g I ->. apply filter_In in I as [_ I]. discriminate. Qed.

Lemma command_back : forall k o c k', command_kind k = Some (o, c, k') -> k <> CBackSlash /\ aux_inner k = Some k'.
Proof. intros [] o c k' H; try discriminate; injection H as <- <- <-; split; (discriminate || reflexivity). Qed.

Lemma in_skipn : forall (A : Type) n (l : list A) x, In x (skipn n l) -> In x l.
Proof. intros A n l x I. rewrite <- (firstn_skipn n l). apply in_or_app. auto. Qed.
Lemma in_firstn : forall (A : Type) n (l : list A) x, In x (firstn n l) -> In x l.
Proof. intros A n l x I. rewrite <- (firstn_skipn n l). apply in_or_app. auto. Qed.

Lemma nodes_list : forall (P : cst -> Prop) (R : ast -> Prop) xs ys,
  Forall2 (fun x a => reads x a /\ (P x -> Forall R (ast_nodes a))) xs ys -> Forall P xs -> Forall R (flat_map ast_nodes ys).
Proof.
  intros P R xs ys F. induction F as [|x a xs ys [_ H] _ IH]; intro G; [constructor|].
  apply Forall_cons_iff in G as [G1 G2]. cbn. apply Forall_app. auto.
Qed.

Lemma stmt_inner : forall cs, g_stmt_tail cs -> Forall g_expr (filter inner cs).
Proof.
  intros cs H. induction H as [|n x cs [l ->] G _ IH]; [constructor|]. cbn.
  destruct G as [G|(k & l' & -> & _)]; [|exact IH]. destruct x as [|]; [|inversion G]. cbn. constructor; assumption.
Qed.
Lemma doc_inner : forall cs l, g_document (CInner CDocument cs l) -> Forall g_stmt (filter inner cs).
Proof.
  intros cs l (ps & lst & ns & le & l0 & E & HP & HL & HN). injection E as -> _.
  assert (NL : forall ns, Forall is_newline ns -> filter inner ns = []).
  { intros ms H. induction H as [|x ms [l' ->] _ IH]; [reflexivity|exact IH]. }
  assert (ST : forall s, g_stmt s -> filter inner [s] = [s]) by (intros s (x & cs & l' & -> & _); reflexivity).
  rewrite !filter_app, (NL ns HN). cbn [filter inner app]. rewrite !app_nil_r. apply Forall_app. split.
  - clear HL. induction HP as [|s n1 n2 ms cs Hs [l1 ->] [l2 ->] Hn HP IH]; [constructor|].
    change (s :: CLeaf LNewline None l1 :: CLeaf LNewline None l2 :: ms ++ cs) with ([s] ++ [CLeaf LNewline None l1; CLeaf LNewline None l2] ++ ms ++ cs).
    rewrite !filter_app, (ST s Hs), (NL ms Hn). cbn. constructor; assumption.
  - destruct HL as [->|(s & -> & Hs)]; [constructor|]. rewrite (ST s Hs). constructor; [exact Hs|constructor].
Qed.

Theorem reads_ranges : forall c a, reads c a -> reading_tree c -> Forall arg_ranges (ast_nodes a).
Proof.
  apply (reads_ind' (fun c a => reading_tree c -> Forall arg_ranges (ast_nodes a))).
  - intros. repeat constructor.
  - intros. repeat constructor.
  - intros. repeat constructor.
  - intros k o c k' cs l i hs aas CK H A G. destruct (command_back _ _ _ _ CK) as [NB AK].
    assert (GI : g_item (CInner k cs l)).
    { destruct G as [G|[G|[G|G]]]; [exact G| | |].
      - inversion G; subst. discriminate.
      - destruct G as (x & cs' & l' & E & _). injection E as -> _ _. discriminate.
      - destruct G as (? & ? & ? & ? & ? & E & _). injection E as -> _ _. discriminate. }
    pose proof (inside_items _ _ _ GI NB) as IN. rewrite Forall_forall in IN. cbn [ast_nodes]. constructor.
    + assert (CH : forall i0 xs l0, In (AInner NExpr i0 xs l0) (hs ++ aas) ->
        xs <> [] /\ lstart l0 = mkpos 0 0 /\ l0 = fold_left merge_location (map ast_location xs) mock_location).
      { intros i0 xs l0 I. apply in_app_or in I as [I|I].
        - exfalso. assert (HG : Forall g_item (filter stands (firstn 3 (inside cs)))).
          { rewrite Forall_forall. intros x X. apply filter_In in X as [X _]. apply in_firstn in X. auto. }
          clear - H I HG. induction H as [|x a xs' hs [R _] _ IH]; [destruct I|]. apply Forall_cons_iff in HG as [G1 G2].
          destruct I as [->|I]; [exact (reads_item_kind _ _ R G1 _ _ _ eq_refl)|auto].
        - assert (GS : Forall (fun g => g <> []) (given (skipn 3 (inside cs)))).
          { rewrite Forall_forall. intros g. apply given_some. }
          clear - A I GS. induction A as [|g a gs aas (i' & as' & -> & F) _ IH]; [destruct I|]. apply Forall_cons_iff in GS as [G1 G2].
          destruct I as [I|I]; [|auto]. injection I as -> -> <-.
          assert (F' : Forall2 reads g xs) by (clear - F; induction F as [|? ? ? ? [R _] _ IH]; constructor; assumption).
          split; [|split; [apply group_origin|apply reads_locs, F']]. intros ->. inversion F'; subst. contradiction. }
      destruct k; try discriminate; injection AK as <-; exact CH.
    + rewrite flat_map_app. apply Forall_app. split.
      * eapply (nodes_list reading_tree); [exact H|]. rewrite Forall_forall. intros x X. apply filter_In in X as [X _].
        apply in_firstn in X. left. auto.
      * assert (GG : forall g x, In g (given (skipn 3 (inside cs))) -> In x g -> reading_tree x).
        { intros g x X Y. left. apply IN. eapply in_skipn, given_in; eassumption. }
        clear - A GG. induction A as [|g a gs aas (i' & as' & -> & F) _ IH]; [constructor|]. cbn. constructor; [exact I|]. apply Forall_app. split.
        -- eapply (nodes_list reading_tree); [exact F|]. rewrite Forall_forall. intros x X.
           eapply GG; [left; reflexivity|exact X].
        -- apply IH. intros g0 x X Y. eapply GG; [right; exact X|exact Y].
  - intros xs ys i l F G. cbn [ast_nodes]. constructor; [exact I|]. eapply (nodes_list reading_tree); [exact F|].
    assert (GE : g_expr (CInner CExpr xs l)).
    { destruct G as [G|[G|[G|G]]]; [exfalso; exact (g_not_expr _ G _ _ eq_refl)|exact G| |].
      - destruct G as (x & cs' & l' & E & _). discriminate.
      - destruct G as (? & ? & ? & ? & ? & E & _). discriminate. }
    inversion GE as [items l0 NE HF]; subst. eapply Forall_impl; [|exact HF]. left. assumption.
  - intros xs ys i l F G. cbn [ast_nodes]. constructor; [exact I|]. eapply (nodes_list reading_tree); [exact F|].
    assert (GE : g_stmt (CInner CStmt xs l)).
    { destruct G as [G|[G|[G|G]]]; [inversion G; discriminate|inversion G|exact G|].
      destruct G as (? & ? & ? & ? & ? & E & _). discriminate. }
    destruct GE as (x & cs & l' & E & GX & GT). injection E as -> ->. pose proof (stmt_inner cs GT) as S.
    cbn [filter]. destruct (inner x) eqn:EI.
    + constructor; [|eapply Forall_impl; [|exact S]; right; left; assumption].
      destruct GX as [GX|(k & l0 & -> & _)]; [right; left; exact GX|discriminate].
    + eapply Forall_impl; [|exact S]. right; left; assumption.
  - intros xs ys i l F G. cbn [ast_nodes]. constructor; [exact I|]. eapply (nodes_list reading_tree); [exact F|].
    assert (GE : g_document (CInner CDocument xs l)).
    { destruct G as [G|[G|[G|G]]]; [inversion G; discriminate|inversion G| |exact G].
      destruct G as (? & ? & ? & E & _). discriminate. }
    eapply Forall_impl; [|exact (doc_inner xs l GE)]. do 2 right; left; assumption.
Qed.
