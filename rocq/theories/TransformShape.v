(** Error-free documents yield trees of the AST grammar. *)
From Coq Require Import String List NArith Arith Bool Lia.
From Verif Require Import Base Tokens CST AST SpecCST ParserProofs2 TransformError Transform SpecTransform TransformProofs
  TransformGrammar.
Import ListNotations.

Lemma flat_items : forall o lo body c close, Forall (fun x => g_expr x \/ is_newline x) body ->
  (close = [] \/ exists lc, close = [CLeaf c None lc]) -> forall x,
  In x (flat (CLeaf o None lo :: body ++ close)) ->
  (exists e, In e body /\ exists xs l, e = CInner CExpr xs l /\ In x xs /\ g_item x) \/ exists k v l, x = CLeaf k v l.
Proof.
  intros o lo body c close HB HC x HX. unfold flat in HX. cbn in HX. destruct HX as [<-|HX]; [right; eauto|].
  rewrite flat_map_app in HX. apply in_app_or in HX as [HX|HX].
  - apply in_flat_map in HX as (e & HE & HX). rewrite Forall_forall in HB. destruct (HB e HE) as [G|[l ->]].
    + inversion G as [items l NE HF]; subst. left. exists (CInner CExpr items l). split; [exact HE|].
      exists items, l. split; [reflexivity|]. split; [exact HX|]. rewrite Forall_forall in HF. auto.
    + cbn in HX. destruct HX as [<-|[]]. right; eauto.
  - destruct HC as [->|[lc ->]]; cbn in HX; [destruct HX|]. destruct HX as [<-|[]]. right; eauto.
Qed.

Definition shaped (x : cst) : Prop := g_item x -> forall a, means x a -> ag_item any_word a.

Lemma means_leaf_item : forall k v l a, means (CLeaf k v l) a -> ag_item any_word a.
Proof.
  intros k v l a M. inversion M as [k0 k' s i l0 N| | | | |]; subst. apply AG_word.
  destruct k; try discriminate; injection N as <-; cbn; tauto.
Qed.

Lemma shape : forall c, shaped c /\ forall xs l, c = CInner CExpr xs l -> Forall shaped xs.
Proof.
  intro c. induction c as [k v l|k cs l IH] using cst_ind'; split; try discriminate.
  - intros G a M. eapply means_leaf_item; exact M.
  - intros G a M.
    inversion M as [|s i l0 l'|k0 o c k' cs0 l0 lo m ld f args lc gs am af aas i CK FE HM HF HA Mm Mf MA| | |]; subst.
    + apply AG_word. cbn; tauto.
    + inversion G as [| | | |k0 o' c' lo' body close l0 H1 H2 H3]; subst; try discriminate.
      assert (IT : forall x b, In x (flat (CLeaf o' None lo' :: body ++ close)) -> means x b -> ag_item any_word b).
      { intros x b HX MX. destruct (flat_items _ _ _ _ _ H2 H3 x HX) as [(e & HE & xs & le & -> & HX' & GX)|(k1 & v1 & l1 & ->)].
        - rewrite Forall_forall in IH.
          assert (SX : Forall shaped xs) by (apply (proj2 (IH (CInner CExpr xs le) ltac:(right; apply in_or_app; auto))) with le; reflexivity).
          rewrite Forall_forall in SX. eapply SX; eauto.
        - eapply means_leaf_item; exact MX. }
      rewrite FE in IT. apply AG_item. apply AG_command.
      * destruct k; try discriminate; injection CK as <- <- <-; cbn; tauto.
      * assert (I : ag_item any_word am) by (eapply (IT m); [right; left; reflexivity|exact Mm]).
        destruct HM as [(v1 & l1 & ->)|(c1 & l1 & ->)].
        -- inversion Mm as [k1 k1' s i1 l2 N| | | | |]; subst. injection N as <-. apply AG_name.
        -- inversion Mm as [| |k1 o1 c1' k1' cs1 l2 lo1 m1 ld1 f1 args1 lc1 gs1 am1 af1 aas1 i1 CK1| | |]; subst.
           injection CK1 as <- <- <-. apply AG_macro. inversion I; subst; assumption.
      * assert (I : ag_item any_word af) by (eapply (IT f); [do 3 right; left; reflexivity|exact Mf]).
        destruct HF as [(v1 & l1 & ->)|(c1 & l1 & ->)].
        -- inversion Mf as [k1 k1' s i1 l2 N| | | | |]; subst. injection N as <-. apply AG_name.
        -- inversion Mf as [| |k1 o1 c1' k1' cs1 l2 lo1 m1 ld1 f1 args1 lc1 gs1 am1 af1 aas1 i1 CK1| | |]; subst.
           injection CK1 as <- <- <-. apply AG_macro. inversion I; subst; assumption.
      * assert (SUB : forall g x, In g gs -> In x g -> In x args).
        { intros g x A B. destruct HA as [[_ ->]|HA]; [destruct A|].
          apply (cs_sub _ _ HA g x A) in B. apply filter_In in B. tauto. }
        assert (NE : forall g, In g gs -> g <> []).
        { destruct HA as [[_ ->]|HA]; [intros g []|]. clear -HA.
          induction HA as [g Hg _|g c rest gs Hg _ _ _ IH]; intros g' [<-|H]; auto. }
        assert (IT' : forall x b, In x args -> means x b -> ag_item any_word b).
        { intros x b HX. apply IT. do 4 right. apply in_or_app. auto. }
        clear -MA SUB NE IT'. induction MA as [|g a gs aas (i' & as' & l' & -> & _ & F) MA IHA]; [constructor|].
        constructor; [|apply IHA; intros; [eapply SUB; [right; eassumption|eassumption]|apply NE; right; assumption]].
        apply AG_expr.
        -- intros ->. inversion F; subst. apply (NE []); [left|]; reflexivity.
        -- assert (S' : forall x, In x g -> In x args) by (intros x; apply SUB; left; reflexivity).
           clear -F IT' S'. induction F as [|x b g as' Mx F IHF]; [constructor|].
           constructor; [eapply IT'; [apply S'; left; reflexivity|exact Mx]|apply IHF; intros y HY; apply S'; right; exact HY].
    + inversion G; subst; discriminate.
    + inversion G; subst; discriminate.
    + inversion G; subst; discriminate.
  - intros xs l0 [= -> -> <-]. eapply Forall_impl; [|exact IH]. intros x H. apply H.
Qed.

Lemma expr_shape : forall e a, g_expr e -> means e a -> ag_expr any_word a.
Proof.
  intros e a G M. inversion G as [items l NE HF]; subst.
  inversion M as [| | |xs ys i l0 F| |]; subst; [discriminate|].
  apply AG_expr.
  - intros ->. inversion F; subst. contradiction.
  - clear -HF F. induction F as [|x y xs ys Mx F IH]; constructor.
    + exact (proj1 (shape x) (Forall_inv HF) y Mx).
    + exact (IH (Forall_inv_tail HF)).
Qed.

Lemma stmt_shape : forall s a, g_stmt s -> means s a -> ag_stmt any_word a.
Proof.
  intros s a (x & cs & l & -> & Gx & Gc) M. inversion M as [| | | |xs ys i l0 F|]; subst; [discriminate|].
  exists i, ys, l. split; [reflexivity|].
  assert (A : Forall (fun e => inner e = true -> g_expr e) (x :: cs)).
  { assert (E : forall e, g_expr_or_close e -> inner e = true -> g_expr e).
    { intros e [G|(k & le & -> & _)] H; [exact G|discriminate]. }
    constructor; [auto|]. clear -Gc E. induction Gc as [|n y cs [ln ->] Hy _ IH]; [constructor|].
    constructor; [discriminate|]. constructor; auto. }
  assert (B : Forall g_expr (filter inner (x :: cs))).
  { apply Forall_forall. intros e HE. apply filter_In in HE as [HE I]. rewrite Forall_forall in A. auto. }
  clear -B F. revert B. induction F as [|e y es ys Me F IH]; intro B; [constructor|].
  constructor; [exact (expr_shape _ _ (Forall_inv B) Me)|exact (IH (Forall_inv_tail B))].
Qed.

Theorem document_shape : forall c a, g_document c -> means c a -> ag_document any_word a.
Proof.
  intros c a (ps & lst & ns & le & l & -> & P & L & N) M.
  inversion M as [| | | | |xs ys i l0 F]; subst; [discriminate|].
  exists i, ys, l. split; [reflexivity|].
  assert (NL : forall x, is_newline x -> inner x = true -> g_stmt x) by (intros x [lx ->]; discriminate).
  assert (A : Forall (fun e => inner e = true -> g_stmt e) (ps ++ lst ++ ns ++ [CLeaf LEOF None le])).
  { repeat (apply Forall_app; split).
    - clear -P NL. induction P as [|s n1 n2 ns cs Hs H1 H2 Hn _ IH]; [constructor|].
      constructor; [auto|]. constructor; [auto|]. constructor; [auto|]. apply Forall_app. split; [|exact IH].
      eapply Forall_impl; [|exact Hn]. auto.
    - destruct L as [->|(s & -> & Hs)]; constructor; auto.
    - eapply Forall_impl; [|exact N]. auto.
    - constructor; [discriminate|constructor]. }
  assert (B : Forall g_stmt (filter inner (ps ++ lst ++ ns ++ [CLeaf LEOF None le]))).
  { apply Forall_forall. intros e HE. apply filter_In in HE as [HE I]. rewrite Forall_forall in A. auto. }
  clear -B F. revert B. induction F as [|e y es ys Me F IH]; intro B; [constructor|].
  constructor; [exact (stmt_shape _ _ (Forall_inv B) Me)|exact (IH (Forall_inv_tail B))].
Qed.
