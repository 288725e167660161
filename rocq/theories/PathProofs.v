(** Directories of paths. *)
From Coq Require Import String List NArith ZArith Bool Lia.
From Verif Require Import Base Json Server SpecLsp.
Import ListNotations.

Lemma split_app : forall a b cur, split_slash cur (a ++ 47%N :: b) = split_slash cur a ++ split_slash [] b.
Proof.
  induction a as [|c a IH]; intros b cur; cbn [app split_slash]; [reflexivity|].
  destruct (c =? 47)%N; [rewrite IH; reflexivity|apply IH].
Qed.

Lemma components_app : forall a b, components (a ++ 47%N :: b) = components a ++ components b.
Proof. intros a b. unfold components. rewrite split_app, filter_app. reflexivity. Qed.

Lemma components_nil : components [] = [].
Proof. reflexivity. Qed.

Lemma split_word : forall w cur, ~ In 47%N w -> split_slash cur w = [cur ++ w].
Proof.
  induction w as [|c w IH]; intros cur H; cbn [split_slash]; [rewrite app_nil_r; reflexivity|].
  assert (C : (c =? 47)%N = false) by (apply N.eqb_neq; intro E; apply H; left; auto).
  rewrite C, IH by (intro I; apply H; right; exact I). rewrite <- app_assoc. reflexivity.
Qed.

Lemma components_word : forall w, ~ In 47%N w -> w <> [] -> components w = [w].
Proof.
  intros w H N. unfold components. rewrite split_word by exact H. cbn [app filter]. destruct w; [congruence|reflexivity].
Qed.

Lemma components_slashes : forall n a, components (a ++ repeat 47%N n) = components a.
Proof.
  induction n as [|n IH]; intro a; cbn [repeat]; [rewrite app_nil_r; reflexivity|].
  rewrite components_app. rewrite <- (app_nil_l (repeat 47%N n)), IH, components_nil, app_nil_r. reflexivity.
Qed.

Lemma drop_slashes_spec : forall r, exists n, r = repeat 47%N n ++ drop_slashes r
  /\ forall x, drop_slashes r <> 47%N :: x.
Proof.
  induction r as [|c r IH]; [exists 0; split; [reflexivity|discriminate]|].
  destruct (N.eq_dec c 47) as [->|N].
  - destruct IH as (n & E & H). exists (S n). cbn [drop_slashes repeat app]. rewrite <- E. auto.
  - exists 0. assert (D : drop_slashes (c :: r) = c :: r).
    { cbn [drop_slashes]. destruct c as [|c]; [reflexivity|]. do 6 (destruct c; try reflexivity); exfalso; apply N; reflexivity. }
    rewrite D. split; [reflexivity|]. intros x E. congruence.
Qed.

Lemma drop_component_spec : forall r, exists w, r = w ++ drop_component r /\ ~ In 47%N w
  /\ (drop_component r = [] \/ exists x, drop_component r = 47%N :: x).
Proof.
  induction r as [|c r IH]; [exists []; repeat split; auto|].
  destruct (N.eq_dec c 47) as [->|N].
  - exists []. cbn [drop_component app]. repeat split; auto. right. eauto.
  - destruct IH as (w & E & H & T). exists (c :: w).
    assert (D : drop_component (c :: r) = drop_component r).
    { cbn [drop_component]. destruct c as [|c]; [reflexivity|]. do 6 (destruct c; try reflexivity); exfalso; apply N; reflexivity. }
    rewrite D. cbn [app]. rewrite <- E. repeat split; auto. intros [F|F]; auto.
Qed.

Lemma rev_repeat : forall (n : nat) (x : N), rev (repeat x n) = repeat x n.
Proof.
  induction n as [|n IH]; intro x; [reflexivity|]. cbn [repeat rev]. rewrite IH.
  clear IH. induction n as [|n IH]; [reflexivity|]. cbn [repeat app]. rewrite IH. reflexivity.
Qed.

Lemma parent_spec : forall path, absolute path ->
  (components path = [] /\ parent path = None)
  \/ (components path <> [] /\ exists d, parent path = Some d /\ absolute d
      /\ components d = removelast (components path)
      /\ (d = [47%N] \/ (last d 0%N <> 47%N /\ exists rest, path = d ++ 47%N :: rest))).
Proof.
  intros path (tail & A). unfold parent.
  destruct (drop_slashes_spec (rev path)) as (n & E & H1).
  set (r1 := drop_slashes (rev path)) in *.
  assert (P1 : path = rev r1 ++ repeat 47%N n).
  { rewrite <- (rev_involutive path), E, rev_app_distr, rev_repeat. reflexivity. }
  assert (C1 : components path = components (rev r1)) by (rewrite P1; apply components_slashes).
  destruct r1 as [|c r1']; [left; rewrite C1; split; reflexivity|]. right.
  set (r1 := c :: r1') in *.
  destruct (drop_component_spec r1) as (w & E2 & Hw & T).
  assert (Wn : w <> []).
  { intro W. subst w. cbn [app] in E2. destruct T as [T|(x & T)]; [rewrite T in E2; discriminate|].
    apply (H1 x). rewrite E2. exact T. }
  destruct (drop_slashes_spec (drop_component r1)) as (k & E3 & H3).
  set (r3 := drop_slashes (drop_component r1)) in *.
  assert (P2 : rev r1 = rev r3 ++ repeat 47%N k ++ rev w).
  { rewrite E2, E3, !rev_app_distr, rev_repeat, app_assoc. reflexivity. }
  assert (K : exists k', k = S k').
  { destruct k as [|k']; [|eauto]. exfalso. cbn [repeat app] in E3. destruct T as [T|(x & T)].
    - rewrite T in E2. rewrite app_nil_r in E2.
      rewrite P1, P2, <- E3, T in A. cbn [rev app repeat] in A.
      destruct (rev w) as [|y w'] eqn:RW.
      + apply Wn. rewrite <- (rev_involutive w), RW. reflexivity.
      + injection A as -> _. apply Hw. apply in_rev. rewrite RW. left. reflexivity.
    - rewrite E3 in T. exact (H3 x T). }
  destruct K as (k' & ->).
  assert (Cw : components (rev w) = [rev w]).
  { apply components_word.
    - intro I. apply Hw. apply in_rev. exact I.
    - intro W. apply Wn. rewrite <- (rev_involutive w), W. reflexivity. }
  assert (C2 : components path = components (rev r3) ++ [rev w]).
  { rewrite C1, P2. replace (repeat 47%N (S k')) with (repeat 47%N k' ++ [47%N]) by (symmetry; apply (repeat_cons k' 47%N)).
    replace (rev r3 ++ (repeat 47%N k' ++ [47%N]) ++ rev w) with ((rev r3 ++ repeat 47%N k') ++ 47%N :: rev w).
    2:{ rewrite <- !app_assoc. reflexivity. }
    rewrite components_app, components_slashes, Cw. reflexivity. }
  split; [rewrite C2; intro Z; apply app_eq_nil in Z as [_ Z]; discriminate|].
  destruct r3 as [|c3 r3'] eqn:R3.
  - exists [47%N]. split; [reflexivity|]. split; [exists []; reflexivity|]. split; [|left; reflexivity].
    rewrite C2. reflexivity.
  - exists (rev (c3 :: r3')). split; [reflexivity|].
    assert (Pd : path = rev (c3 :: r3') ++ 47%N :: (repeat 47%N k' ++ rev w ++ repeat 47%N n)).
    { rewrite P1, P2. cbn [repeat]. rewrite <- !app_assoc. reflexivity. }
    split.
    { destruct (rev (c3 :: r3')) as [|y ys] eqn:RR.
      - exfalso. cbn [rev] in RR. destruct (rev r3'); discriminate.
      - rewrite Pd in A. cbn [app] in A. injection A as -> _. exists ys. reflexivity. }
    split; [rewrite C2, removelast_last; reflexivity|].
    right. split; [|eexists; exact Pd]. cbn [rev]. rewrite last_last. intro X. subst c3. exact (H3 r3' eq_refl).
Qed.

Definition grandparent (path : str) : option str :=
  match parent path with Some d => parent d | None => None end.

Lemma grandparent_spec : forall path, absolute path ->
  (length (components path) < 2 /\ grandparent path = None)
  \/ (length (components path) >= 2 /\ exists root, grandparent path = Some root /\ project_root path root).
Proof.
  intros path A. unfold grandparent.
  destruct (parent_spec path A) as [[C ->]|(C & d & -> & Ad & Cd & Td)].
  - left. rewrite C. split; [cbn; lia|reflexivity].
  - destruct (parent_spec d Ad) as [[C2 ->]|(C2 & root & -> & Ar & Cr & Tr)].
    + left. split; [|reflexivity]. rewrite Cd in C2. destruct (components path) as [|a [|b l]]; cbn; try lia. discriminate.
    + right. split.
      * rewrite Cd in C2. destruct (components path) as [|a [|b l]]; cbn; try lia; exfalso; apply C2; reflexivity.
      * exists root. split; [reflexivity|]. split; [exact Ar|]. split; [rewrite Cr, Cd; reflexivity|].
        destruct Tr as [Tr|(L & rest & Tr)]; [left; exact Tr|]. right. split; [exact L|].
        destruct Td as [->|(_ & rest' & ->)].
        -- exfalso. apply C2. reflexivity.
        -- rewrite Tr. exists (rest ++ 47%N :: rest'). rewrite <- app_assoc. reflexivity.
Qed.

Lemma app_same_tail : forall (a b : str) x y, a ++ x = b ++ y -> exists t, a = b ++ t \/ b = a ++ t.
Proof.
  induction a as [|c a IH]; intros b x y E; [exists b; right; reflexivity|].
  destruct b as [|d b]; [exists (c :: a); left; reflexivity|].
  cbn in E. injection E as -> E. destruct (IH b x y E) as (t & [->| ->]); exists t; auto.
Qed.

Lemma all_slashes : forall r, components r = [] -> r = repeat 47%N (length r).
Proof.
  intros r. induction r as [r IH] using (well_founded_induction (Wf_nat.well_founded_ltof _ (@length N))). intro H.
  destruct r as [|c r] using rev_ind; [reflexivity|]. clear IHr.
  destruct (N.eq_dec c 47) as [->|N].
  - rewrite components_app, components_nil, app_nil_r in H.
    rewrite (IH r) at 1; [|unfold Wf_nat.ltof; rewrite app_length; cbn; lia|exact H].
    rewrite app_length. cbn [length]. rewrite Nat.add_1_r. symmetry. apply repeat_cons.
  - exfalso. unfold components in H.
    assert (X : forall r cur, exists a w, split_slash cur (r ++ [c]) = a ++ [w] /\ w <> []).
    { clear r IH H. induction r as [|d r IHr]; intro cur; cbn [app split_slash].
      - apply N.eqb_neq in N. rewrite N. exists [], (cur ++ [c]). split; [reflexivity|]. destruct cur; discriminate.
      - destruct (d =? 47)%N; [|apply IHr]. destruct (IHr []) as (a & w & E & W). rewrite E. exists (cur :: a), w. auto. }
    destruct (X r []) as (a & w & E & W). rewrite E, filter_app in H. apply app_eq_nil in H as [_ H].
    cbn in H. destruct w; [congruence|discriminate].
Qed.

Lemma project_root_unique : forall path r1 r2, project_root path r1 -> project_root path r2 -> r1 = r2.
Proof.
  assert (Slash : forall r, absolute r -> components r = [] -> last r 0%N <> 47%N -> False).
  { intros r (x & A) C L. apply all_slashes in C. subst r. cbn [length] in C.
    apply L. replace (repeat 47%N (S (length x))) with (repeat 47%N (length x) ++ [47%N]) in C
      by (symmetry; apply (repeat_cons (length x) 47%N)). rewrite C, last_last. reflexivity. }
  assert (Ext : forall r t, components (r ++ t) = components r -> last r 0%N <> 47%N -> last (r ++ t) 0%N <> 47%N ->
    (t = [] \/ exists t', t = 47%N :: t') -> t = []).
  { intros r t C L1 L2 [T|(t' & ->)]; [exact T|]. rewrite components_app in C.
    assert (C' : components t' = []).
    { apply (app_inv_head (components r)). rewrite C, app_nil_r. reflexivity. }
    apply all_slashes in C'. exfalso. apply L2. rewrite C'.
    replace (47%N :: repeat 47%N (length t')) with (repeat 47%N (length t') ++ [47%N]) by (symmetry; apply (repeat_cons (length t') 47%N)).
    rewrite app_assoc, last_last. reflexivity. }
  assert (Tail : forall (r t x y : str), r ++ t ++ 47%N :: x = r ++ 47%N :: y -> t = [] \/ exists t', t = 47%N :: t').
  { intros r t x y E. apply app_inv_head in E. destruct t as [|c t]; [auto|]. right. cbn in E. injection E as -> _. eauto. }
  intros path r1 r2 (A1 & C1 & D1) (A2 & C2 & D2).
  destruct D1 as [->|(L1 & x1 & P1)]; destruct D2 as [->|(L2 & x2 & P2)].
  - reflexivity.
  - exfalso. apply (Slash r2 A2); [rewrite C2, <- C1; reflexivity|exact L2].
  - exfalso. apply (Slash r1 A1); [rewrite C1, <- C2; reflexivity|exact L1].
  - rewrite P1 in P2. destruct (app_same_tail _ _ _ _ P2) as (t & [E|E]).
    + subst r1. rewrite <- app_assoc in P2. apply Tail in P2.
      rewrite (Ext r2 t); [apply app_nil_r|congruence|exact L2|exact L1|exact P2].
    + subst r2. rewrite <- app_assoc in P2. symmetry in P2. apply Tail in P2.
      rewrite (Ext r1 t); [symmetry; apply app_nil_r|congruence|exact L1|exact L2|exact P2].
Qed.
