(** The meaning of a tree is unique up to identifiers; identifiers are distinct; [ast_get]. *)
From Coq Require Import String List NArith Arith Bool Lia Permutation.
From Verif Require Import Base Tokens CST AST SpecCST TransformError SpecTransform Transform
  ParserProofs ParserProofs2 TransformProofs TransformErrors TransformKinds TransformMeans TransformGrammar.
Import ListNotations.

(** ** Uniqueness of meaning *)
Lemma cs_fun : forall xs gs, comma_separated xs gs -> forall gs', comma_separated xs gs' -> gs' = gs.
Proof.
  intros xs gs H. induction H as [g Hg Hn|g c rest gs Hg Hn Hc H IH]; intros gs' H'.
  - inversion H' as [g0 Hg0 Hn0|g0 c0 rest0 gs0 Hg0 Hn0 Hc0 H0]; subst; [reflexivity|].
    exfalso. apply (Hn c0); [|exact Hc0]. apply in_or_app. right. left. reflexivity.
  - destruct (cs_inv g c rest gs' Hn Hc H') as (_ & gs'' & A & ->). f_equal. apply IH, A.
Qed.

Lemma arguments_fun : forall args gs gs', arguments args gs -> arguments args gs' -> gs' = gs.
Proof.
  intros args gs gs' [[A ->]|A] [[B ->]|B].
  - reflexivity.
  - rewrite A in B. apply cs_nonempty in B. contradiction.
  - rewrite B in A. apply cs_nonempty in A. contradiction.
  - eapply cs_fun; eassumption.
Qed.

Definition det (c : cst) : Prop := forall a b, means c a -> means c b -> erase a = erase b.

Lemma det_list : forall xs, Forall det xs -> forall r r', Forall2 means xs r -> Forall2 means xs r' ->
  map erase r = map erase r'.
Proof.
  intros xs H. induction H as [|x xs Hx _ IH]; intros r r' A B; inversion A; inversion B; subst; [reflexivity|].
  cbn. f_equal; auto.
Qed.

Lemma arguments_sub : forall args gs, arguments args gs -> forall g x, In g gs -> In x g -> In x args.
Proof.
  intros args gs [[_ ->]|H] g x A B; [destruct A|]. pose proof (cs_sub _ _ H g x A B) as I.
  apply filter_In in I as [I _]. exact I.
Qed.

Lemma det_args : forall gs, (forall g x, In g gs -> In x g -> det x) -> forall r r',
  Forall2 (fun g a => exists i as' l, a = AInner NExpr i as' l /\ l = group_loc g /\ Forall2 means g as') gs r ->
  Forall2 (fun g a => exists i as' l, a = AInner NExpr i as' l /\ l = group_loc g /\ Forall2 means g as') gs r' ->
  map erase r = map erase r'.
Proof.
  induction gs as [|g gs IH]; intros HD r r' A B; inversion A as [|? a ? ra (i & as1 & l1 & -> & -> & F1) A']; subst;
    inversion B as [|? b ? rb (i2 & as2 & l2 & -> & -> & F2) B']; subst; [reflexivity|].
  cbn. f_equal.
  - f_equal. eapply det_list; [|exact F1|exact F2]. rewrite Forall_forall. intros x Hx. eapply HD; [left; reflexivity|exact Hx].
  - apply IH; auto. intros g0 x Hg Hx. eapply HD; [right; exact Hg|exact Hx].
Qed.

Lemma means_unique : forall c, det c.
Proof.
  enough (H : forall c, det c /\ forall xs l, c = CInner CExpr xs l -> Forall det xs) by (intro c; apply H).
  intro c. induction c as [k v l|k cs l IH] using cst_ind'; split; try discriminate.
  - intros a b A B. inversion A; inversion B; subst; cbn; congruence.
  - assert (IH1 : Forall det cs) by (eapply Forall_impl; [|exact IH]; cbn; tauto).
    assert (IHF : Forall det (flat cs)).
    { rewrite Forall_forall in IH |- *. intros x Hx. apply in_flat_map in Hx as (y & Hy & Hx). destruct (IH y Hy) as [D1 D2].
      destruct y as [[] ys ly|]; cbn in Hx; try (destruct Hx as [<-|[]]; exact D1).
      specialize (D2 _ _ eq_refl). rewrite Forall_forall in D2. auto. }
    assert (IHI : Forall det (filter inner cs)) by (apply Forall_filter; exact IH1).
    intros a b A B. inversion A as [|s i l0 l'|k0 o c k' cs0 l0 lo m ld f args lc gs am af aas i CK FL Hm Hf HA Mm Mf MA
      |xs ys i l0 F|xs ys i l0 F|xs ys i l0 F]; subst;
    inversion B as [|s2 i2 l2 l2'|k02 o2 c2 k'2 cs02 l02 lo2 m2 ld2 f2 args2 lc2 gs2 am2 af2 aas2 i2 CK2 FL2 Hm2 Hf2 HA2 Mm2 Mf2 MA2
      |xs2 ys2 i2 l02 F2|xs2 ys2 i2 l02 F2|xs2 ys2 i2 l02 F2]; subst; try discriminate; cbn [erase map].
    + reflexivity.
    + rewrite CK in CK2. injection CK2 as <- <- <-. rewrite FL in FL2, IHF. injection FL2 as E0 E1 E2 E3 E4. subst.
      apply snoc_snoc in E4 as [<- _]. rewrite (arguments_fun _ _ _ HA HA2) in MA2.
      inversion IHF as [|? ? _ D1]; subst. inversion D1 as [|? ? Dm D2]; subst. inversion D2 as [|? ? _ D3]; subst.
      inversion D3 as [|? ? Df D4]; subst. apply Forall_app in D4 as [D4 _]. rewrite Forall_forall in D4.
      f_equal. f_equal; [auto|]. f_equal; [auto|]. eapply det_args; [|exact MA|exact MA2].
      intros g x Hg Hx. apply D4. exact (arguments_sub _ _ HA g x Hg Hx).
    + f_equal. eapply det_list; [exact IH1|exact F|exact F2].
    + f_equal. eapply det_list; [exact IHI|exact F|exact F2].
    + f_equal. eapply det_list; [exact IHI|exact F|exact F2].
  - intros xs l0 E. injection E as -> -> ->. eapply Forall_impl; [|exact IH]. cbn. tauto.
Qed.

(** ** Identifiers *)
Lemma ast_ind' : forall P : ast -> Prop,
  (forall k i v l, P (ALeaf k i v l)) ->
  (forall k i cs l, Forall P cs -> P (AInner k i cs l)) -> forall a, P a.
Proof.
  intros P HL HI. fix F 1. intros [k i cs l|k i v l]; [|apply HL].
  apply HI. induction cs as [|x cs IH]; constructor; [apply F|exact IH].
Qed.

Definition ids (a : ast) : list str := map ast_id (ast_nodes a).

Lemma ids_inner : forall k i cs l, ids (AInner k i cs l) = i :: flat_map ids cs.
Proof.
  intros k i cs l. unfold ids. cbn. f_equal. induction cs as [|x cs IH]; [reflexivity|].
  cbn. rewrite map_app, IH. reflexivity.
Qed.

Lemma aux_ids : forall uuid c n a n', aux uuid c n = Ok (a, n') ->
  n <= n' /\ Permutation (ids a) (map uuid (seq n (n' - n))).
Proof.
  intros uuid c. induction c as [k v l|k cs l IH] using cst_ind'; intros n a n' H.
  - cbn in H. destruct (aux_leaf k v) as [[k' v']|]; [|discriminate]. injection H as <- <-.
    split; [lia|]. replace (S n - n) with 1 by lia. reflexivity.
  - rewrite aux_inner_eq in H. destruct (aux_inner k) as [k'|]; [|discriminate].
    apply bind_ok in H as ([r n1] & A & H). injection H as <- <-. rewrite ids_inner.
    assert (G : n <= n1 /\ Permutation (flat_map ids r) (map uuid (seq n (n1 - n)))).
    { revert n r n1 A. induction IH as [|c cs Hc _ IHc]; intros n r n1 A.
      - injection A as <- <-. split; [lia|]. rewrite Nat.sub_diag. reflexivity.
      - cbn [auxs] in A. fold (auxs uuid) in A. apply bind_ok in A as ([a n2] & A1 & A).
        apply bind_ok in A as ([r' n3] & A2 & A). injection A as <- <-.
        destruct (Hc _ _ _ A1) as [L1 P1]. destruct (IHc _ _ _ A2) as [L2 P2]. split; [lia|].
        cbn. rewrite P1, P2. replace (n3 - n) with ((n2 - n) + (n3 - n2)) by lia.
        rewrite seq_app, map_app. replace (n + (n2 - n)) with n2 by lia. reflexivity. }
    destruct G as [L G]. split; [lia|]. rewrite G. replace (S n1 - n) with (S (n1 - n)) by lia.
    rewrite seq_S, map_app. replace (n + (n1 - n)) with n1 by lia. cbn [map]. apply Permutation_cons_append.
Qed.

Lemma transform_ids : forall uuid c a es, (forall i j, uuid i = uuid j -> i = j) ->
  transform uuid c = Ok (a, es) -> NoDup (map ast_id (ast_nodes a)).
Proof.
  intros uuid c a es HU H. unfold transform in H. apply bind_ok in H as ([s e] & _ & H).
  apply bind_ok in H as ([a' n] & A & H). injection H as <- <-. destruct (aux_ids _ _ _ _ _ A) as [_ P].
  eapply Permutation_NoDup; [symmetry; exact P|]. apply FinFun.Injective_map_NoDup; [exact HU|apply seq_NoDup].
Qed.

Definition get_list (id : str) : list ast -> option ast := fix go (cs : list ast) :=
  match cs with [] => None | x :: cs' => match ast_get x id with Some r => Some r | None => go cs' end end.
Lemma ast_get_inner : forall k i cs l id, ast_get (AInner k i cs l) id =
  if str_eqb i id then Some (AInner k i cs l) else get_list id cs.
Proof. reflexivity. Qed.

Lemma ast_get_sound : forall a id x, ast_get a id = Some x -> In x (ast_nodes a) /\ ast_id x = id.
Proof.
  intro a. induction a as [k i v l|k i cs l IH] using ast_ind'; intros id x H.
  - cbn in H. destruct (str_eqb i id) eqn:E; [|discriminate]. injection H as <-. apply str_eqb_eq in E. split; [left; reflexivity|exact E].
  - rewrite ast_get_inner in H. destruct (str_eqb i id) eqn:E.
    + injection H as <-. apply str_eqb_eq in E. split; [left; reflexivity|exact E].
    + clear E. enough (G : (exists y, In y cs /\ In x (ast_nodes y)) /\ ast_id x = id).
      { destruct G as [(y & I1 & I2) G]. split; [|exact G]. right. apply in_flat_map. eauto. }
      induction IH as [|c cs Hc _ IHc]; [discriminate|]. cbn [get_list] in H. destruct (ast_get c id) as [r|] eqn:E.
      * injection H as <-. destruct (Hc _ _ E) as [A B]. split; [|exact B]. exists c. split; [left; reflexivity|exact A].
      * fold (get_list id) in H. destruct (IHc H) as [(y & A & B) C]. split; [|exact C]. exists y. split; [right; exact A|exact B].
Qed.

Lemma ast_get_some : forall a id, In id (ids a) -> exists x, ast_get a id = Some x.
Proof.
  intro a. induction a as [k i v l|k i cs l IH] using ast_ind'; intros id H.
  - cbn in H. destruct H as [->|[]]. cbn. rewrite (proj2 (str_eqb_eq id id) eq_refl). eauto.
  - rewrite ids_inner in H. rewrite ast_get_inner. destruct (str_eqb i id) eqn:E; [eauto|].
    destruct H as [->|H]; [rewrite (proj2 (str_eqb_eq id id) eq_refl) in E; discriminate|]. clear E.
    induction IH as [|c cs Hc _ IHc]; [destruct H|]. cbn in H. apply in_app_or in H. cbn [get_list].
    destruct (ast_get c id) as [r|] eqn:E; [eauto|]. fold (get_list id). destruct H as [H|H]; [|auto].
    destruct (Hc _ H) as [x Hx]. congruence.
Qed.

Lemma NoDup_map_inj : forall (A B : Type) (f : A -> B) l, NoDup (map f l) -> forall x y, In x l -> In y l -> f x = f y -> x = y.
Proof.
  intros A B f l. induction l as [|a l IH]; intros N x y Hx Hy E; [destruct Hx|]. cbn in N. inversion N as [|? ? N1 N2]; subst.
  destruct Hx as [<-|Hx], Hy as [<-|Hy]; auto.
  - destruct N1. rewrite E. apply in_map, Hy.
  - destruct N1. rewrite <- E. apply in_map, Hx.
Qed.

Theorem ast_get_node : forall a, NoDup (map ast_id (ast_nodes a)) -> forall x, In x (ast_nodes a) -> ast_get a (ast_id x) = Some x.
Proof.
  intros a N x Hx. destruct (ast_get_some a (ast_id x)) as [y Hy]; [apply in_map, Hx|]. rewrite Hy.
  apply ast_get_sound in Hy as [A B]. f_equal. eapply NoDup_map_inj; eassumption.
Qed.
Theorem ast_get_none : forall a id, ~ In id (map ast_id (ast_nodes a)) -> ast_get a id = None.
Proof.
  intros a id H. destruct (ast_get a id) as [x|] eqn:E; [|reflexivity]. apply ast_get_sound in E as [A <-].
  destruct H. apply in_map, A.
Qed.
