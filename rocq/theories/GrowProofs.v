(** The location of a node that children are added to. *)
From Coq Require Import String List Arith Bool Lia.
From Verif Require Import Base Tokens CST AST SpecTok SpecCST SpecGrow ParserLocations.
Import ListNotations.

Lemma pos_le_trans : forall a b c, pos_le a b -> pos_le b c -> pos_le a c.
Proof. unfold pos_le. intros. lia. Qed.

Lemma pos_le_refl : forall a, pos_le a a.
Proof. unfold pos_le. intros. lia. Qed.

Lemma merge_last_line : forall a b,
  let m := merge_location a b in
  pline (lend a) <= pline (lend m) /\ pline (lend b) <= pline (lend m) /\ (lend m = lend a \/ lend m = lend b).
Proof.
  intros a b. unfold merge_location. cbn [lend].
  destruct (Nat.compare_spec (pline (lend a)) (pline (lend b))) as [E|L|L];
    [destruct (Nat.compare _ _)|..]; cbn; auto with arith; repeat split; auto; lia.
Qed.

Definition hull (m : loc) (l : loc) (ls : list loc) : Prop :=
  earliest (lstart m) (map lstart (l :: ls)) /\ on_last_line (lend m) (map lend (l :: ls)).

Lemma hull_step : forall m l x ls, hull m (merge_location l x) ls -> hull m l (x :: ls).
Proof.
  intros m l x ls [[A1 A2] [B1 B2]]. cbn [map] in *.
  destruct (merge_start l x) as (S1 & S2 & S3). destruct (merge_last_line l x) as (E1 & E2 & E3).
  apply Forall_cons_iff in A2 as [A2 A3]. apply Forall_cons_iff in B2 as [B2 B3].
  split; split; cbn [map].
  - destruct A1 as [A1|A1]; [|do 2 right; exact A1]. rewrite <- A1. destruct S3 as [->| ->]; [left|right; left]; reflexivity.
  - constructor; [eapply pos_le_trans; eauto|]. constructor; [eapply pos_le_trans; eauto|exact A3].
  - destruct B1 as [B1|B1]; [|do 2 right; exact B1]. rewrite <- B1. destruct E3 as [->| ->]; [left|right; left]; reflexivity.
  - constructor; [lia|]. constructor; [lia|exact B3].
Qed.

Lemma hull_self : forall l, hull l l [].
Proof.
  intros l. split; split; cbn [map].
  - left; reflexivity.
  - constructor; [apply pos_le_refl|constructor].
  - left; reflexivity.
  - constructor; [apply le_n|constructor].
Qed.

Theorem cst_grow : forall xs k cs l, exists m,
  grow cst_add (CInner k cs l) xs = Ok (CInner k (cs ++ xs) m) /\ hull m l (map cst_location xs).
Proof.
  induction xs as [|x xs IH]; intros k cs l.
  - exists l. rewrite app_nil_r. split; [reflexivity|apply hull_self].
  - destruct (IH k (cs ++ [x]) (merge_location l (cst_location x))) as (m & E & H).
    exists m. rewrite <- app_assoc in E. split; [exact E|]. cbn [map]. apply hull_step. exact H.
Qed.

Theorem ast_grow : forall xs k i cs l, exists m,
  grow ast_add (AInner k i cs l) xs = Ok (AInner k i (cs ++ xs) m) /\ hull m l (map ast_location xs).
Proof.
  induction xs as [|x xs IH]; intros k i cs l.
  - exists l. rewrite app_nil_r. split; [reflexivity|apply hull_self].
  - destruct (IH k i (cs ++ [x]) (merge_location l (ast_location x))) as (m & E & H).
    exists m. rewrite <- app_assoc in E. split; [exact E|]. cbn [map]. apply hull_step. exact H.
Qed.
