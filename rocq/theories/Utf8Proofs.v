(** Bytes that are UTF-8 are those of one text. *)
From Coq Require Import String List NArith ZArith Arith Bool Lia.
From Verif Require Import Base Utf8.
Import ListNotations.
#[local] Open Scope N_scope.
Ltac Zify.zify_post_hook ::= Z.to_euclidean_division_equations.
Lemma two_char : forall b0 b1, two b0 b1 = true -> let c := ((b0 - 0xC0) * 64 + (b1 - 0x80)) in scalar c /\ utf8_char c = [b0; b1].
Proof.
  intros b0 b1 H c. unfold two, cont in H. unfold scalar, utf8_char, c.
  replace (_ <? 0x80) with false by lia. replace (_ <? 0x800) with true by lia. split; [lia|]. repeat f_equal; lia.
Qed.
Lemma three_char : forall b0 b1 b2, three b0 b1 b2 = true ->
  let c := ((b0 - 0xE0) * 4096 + (b1 - 0x80) * 64 + (b2 - 0x80)) in scalar c /\ utf8_char c = [b0; b1; b2].
Proof.
  intros b0 b1 b2 H c. unfold three, cont in H. unfold scalar, utf8_char, c.
  replace (_ <? 0x80) with false by lia. replace (_ <? 0x800) with false by lia. replace (_ <? 0x10000) with true by lia.
  split; [lia|]. repeat f_equal; lia.
Qed.
Lemma four_char : forall b0 b1 b2 b3, four b0 b1 b2 b3 = true ->
  let c := ((b0 - 0xF0) * 262144 + (b1 - 0x80) * 4096 + (b2 - 0x80) * 64 + (b3 - 0x80)) in scalar c /\ utf8_char c = [b0; b1; b2; b3].
Proof.
  intros b0 b1 b2 b3 H c. unfold four, cont in H. unfold scalar, utf8_char, c.
  replace (_ <? 0x80) with false by lia. replace (_ <? 0x800) with false by lia. replace (_ <? 0x10000) with false by lia.
  split; [lia|]. repeat f_equal; lia.
Qed.

Lemma from_utf8_inv_len : forall n b s, (length b <= n)%nat -> from_utf8 b = Some s -> Forall scalar s /\ b = utf8 s.
Proof.
  induction n as [|n IH]; intros b s L E.
  - destruct b; [|cbn in L; lia]. injection E as <-. split; [constructor|reflexivity].
  - destruct b as [|b0 r0]; [injection E as <-; split; [constructor|reflexivity]|].
    assert (K : forall c r s' p, (length r <= n)%nat -> opt_cons c (from_utf8 r) = Some s' -> scalar c -> utf8_char c = p ->
      Forall scalar s' /\ p ++ r = utf8 s').
    { intros c r s' p Lr Es Sc Cc. destruct (from_utf8 r) as [s0|] eqn:Er; [|discriminate].
      injection Es as <-. destruct (IH r s0 Lr Er) as [F ->]. split; [constructor; assumption|]. rewrite <- Cc. reflexivity. }
    cbn [length] in L. cbn [from_utf8] in E.
    destruct (b0 <? 0x80) eqn:B.
    { apply (K b0 r0 s [b0]); [lia|exact E|unfold scalar; lia|unfold utf8_char; rewrite B; reflexivity]. }
    destruct r0 as [|b1 r1]; [discriminate|]. cbn [length] in L.
    destruct (two b0 b1) eqn:T2.
    { destruct (two_char b0 b1 T2) as [X Y]. apply (K _ r1 s [b0; b1] ltac:(lia) E X Y). }
    destruct r1 as [|b2 r2]; [discriminate|]. cbn [length] in L.
    destruct (three b0 b1 b2) eqn:T3.
    { destruct (three_char b0 b1 b2 T3) as [X Y]. apply (K _ r2 s [b0; b1; b2] ltac:(lia) E X Y). }
    destruct r2 as [|b3 r3]; [discriminate|]. cbn [length] in L.
    destruct (four b0 b1 b2 b3) eqn:T4; [|discriminate].
    destruct (four_char b0 b1 b2 b3 T4) as [X Y]. apply (K _ r3 s [b0; b1; b2; b3] ltac:(lia) E X Y).
Qed.

Theorem from_utf8_inv : forall b s, from_utf8 b = Some s -> Forall scalar s /\ b = utf8 s.
Proof. intros b s. exact (from_utf8_inv_len (length b) b s (le_n _)). Qed.
