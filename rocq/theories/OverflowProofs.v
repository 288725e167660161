(** When the machine integers of the tokenizer suffice, and how deep it recurses. *)
From Coq Require Import String List NArith ZArith Bool Lia Arith.
From Verif Require Import Base Tokens Graphemes Tokenizer SpecTok TokenizerRun Overflow.
Import ListNotations.

Lemma brackets_app : forall a b, brackets (a ++ b) = brackets a + brackets b.
Proof. intros a b. unfold brackets. rewrite filter_app, app_length. reflexivity. Qed.

Lemma nul_eqb : forall g, gcls_eqb (cls g) GNul = str_eqb g [0%N].
Proof.
  intro g. destruct (str_eqb g [0%N]) eqn:E.
  - apply str_eqb_eq in E. subst g. reflexivity.
  - destruct (gcls_eqb (cls g) GNul) eqn:E2; [|reflexivity].
    apply is_nul_eq in E2. subst g. discriminate.
Qed.

Section Bounds.
  Variable seg : str -> list str.
  Hypothesis L : seg_laws seg.

  (** ** Depth *)
  Lemma dispatch_depth : forall gs n st toks s, seg s = gs -> okp st (hd2 gs) ->
    n <= length (until_nul gs) -> dispatch seg n (conc st toks s) = Fuel.
  Proof.
    induction gs as [|g gs IH]; intros n st toks s Hs Hok H; cbn [until_nul] in H.
    - destruct n; [reflexivity|cbn in H; lia].
    - rewrite <- nul_eqb in H. destruct (gcls_eqb (cls g) GNul) eqn:En.
      + destruct n; [reflexivity|cbn in H; lia].
      + destruct n as [|n]; [reflexivity|]. cbn [dispatch]. cbn [hd2] in Hok.
        rewrite (step_conc seg L _ _ _ _ _ _ Hs Hok En).
        destruct (apply_arm (st_arm g (hd2 gs) st) g st) as [o st'] eqn:Ea.
        apply IH; [eapply seg_tail; eauto|eapply step_ok; eauto|cbn in H; lia].
  Qed.

  Lemma dispatch_enough : forall gs n st toks s, seg s = gs -> okp st (hd2 gs) ->
    length (until_nul gs) < n -> dispatch seg n (conc st toks s) = Ok (toks ++ run gs st).
  Proof.
    induction gs as [|g gs IH]; intros n st toks s Hs Hok H; cbn [until_nul] in H;
      (destruct n as [|n]; [lia|]); cbn [dispatch run].
    - exact (step_nul seg _ [] st toks s Hs Hok eq_refl).
    - cbn [hd2] in Hok. rewrite <- nul_eqb in H.
      destruct (gcls_eqb (cls g) GNul) eqn:En; [exact (step_nul seg _ _ st toks s Hs Hok En)|].
      rewrite (step_conc seg L _ _ _ _ _ _ Hs Hok En).
      destruct (apply_arm (st_arm g (hd2 gs) st) g st) as [o st'] eqn:Ea.
      rewrite IH; [rewrite app_assoc; reflexivity|eapply seg_tail; eauto|eapply step_ok; eauto|cbn in H; lia].
  Qed.

  Theorem depth : forall s n,
    dispatch seg n (t_start s) =
    if n <=? length (until_nul (seg s)) then Fuel else tokenize_str seg s.
  Proof.
    intros s n. change (t_start s) with (conc g_init [] s).
    destruct (Nat.leb_spec n (length (until_nul (seg s)))) as [H|H].
    - apply (dispatch_depth (seg s)); auto. apply okp_init.
    - rewrite (tokenize_run seg L). apply (dispatch_enough (seg s)); auto. apply okp_init.
  Qed.

  (** ** Overflow *)
  Lemma arm_bracket : forall g g2 st, let a := st_arm g g2 st in
    (Z.abs (arm_a a) + Z.abs (arm_s a) + Z.abs (arm_c a) <= Z.of_nat (brackets g))%Z.
  Proof.
    intros g g2 st a. unfold a, st_arm.
    destruct (cls g) eqn:E; destruct (cls g2), (g_look st), (g_nested st);
      cbn - [brackets Z.of_nat]; try lia;
      match goal with
      | |- context [brackets g] =>
        assert (B : brackets g = 1) by
          (destruct g as [|c [|d g]]; cbn in E; try discriminate;
           destruct c as [|p]; try discriminate; repeat (destruct p as [p|p|]; try discriminate); reflexivity);
        rewrite B; lia
      end.
  Qed.

  Lemma i32_ok : forall z, (Z.abs z < 2 ^ 31)%Z -> i32 z = true.
  Proof. intros z H. unfold i32. apply andb_true_iff. rewrite Z.leb_le, Z.ltb_lt. lia. Qed.

  Lemma usize_ok : forall n, (Z.of_nat n < 2 ^ 64)%Z -> usize n = true.
  Proof. intros n H. apply Z.ltb_lt. exact H. Qed.

  Lemma ends : forall st toks s, at_end seg (conc st toks s) = gcls_eqb (cls (hd2 (seg s))) GNul.
  Proof. intros. unfold at_end, conc. cbn [t_untreated]. rewrite separate_hd. reflexivity. Qed.

  Lemma checked_same : forall gs fuel st toks s, seg s = gs -> okp st (hd2 gs) ->
    (Z.abs (g_a st) + Z.abs (g_s st) + Z.abs (g_c st) + Z.of_nat (brackets (concat gs)) < 2 ^ 31)%Z ->
    (Z.of_nat (g_line st + length gs) < 2 ^ 64)%Z ->
    (Z.of_nat (g_sc st + length (g_pg st) + length gs) < 2 ^ 64)%Z ->
    dispatch_checked seg fuel (conc st toks s) = dispatch seg fuel (conc st toks s).
  Proof.
    induction gs as [|g gs IH]; intros fuel st toks s Hs Hok HB HL HC;
      (destruct fuel as [|fuel]; [reflexivity|]); cbn [dispatch dispatch_checked].
    - rewrite ends, Hs. cbn [negb andb].
      change (negb (gcls_eqb (cls (hd2 [])) GNul)) with false. cbn [andb].
      rewrite !(step_nul seg _ [] st toks s Hs Hok eq_refl). reflexivity.
    - rewrite ends, Hs. cbn [hd2] in *. destruct (gcls_eqb (cls g) GNul) eqn:En.
      + cbn [negb andb]. rewrite !(step_nul seg _ (g :: gs) st toks s Hs Hok En). reflexivity.
      + cbn [concat] in HB. rewrite brackets_app in HB. cbn [length] in HL, HC.
        assert (SF : sums_fit (conc st toks s) = true).
        { unfold sums_fit, conc. cbn [t_angle t_curly t_square t_column].
          rewrite !i32_ok by lia. rewrite usize_ok by lia. reflexivity. }
        rewrite SF. cbn [negb andb].
        rewrite !(step_conc seg L _ _ _ _ _ _ Hs Hok En).
        pose proof (arm_bracket g (hd2 gs) st) as AB. cbn zeta in AB.
        destruct (apply_arm (st_arm g (hd2 gs) st) g st) as [o st'] eqn:Ea.
        assert (ST : (Z.abs (g_a st') + Z.abs (g_s st') + Z.abs (g_c st') + Z.of_nat (brackets (concat gs)) < 2 ^ 31)%Z /\
                     g_line st' <= S (g_line st) /\
                     g_sc st' + length (g_pg st') <= S (g_sc st + length (g_pg st))).
        { destruct (st_arm g (hd2 gs) st); cbn in Ea, AB; injection Ea as <- <-;
            cbn [g_a g_s g_c g_line g_sc g_pg]; rewrite ?app_length; cbn [length]; (split; [lia|split; lia]). }
        destruct ST as (S1 & S2 & S3).
        assert (F : fits (conc st' (toks ++ o) (concat gs)) = true).
        { unfold fits, conc. cbn [t_angle t_curly t_square t_line].
          rewrite !i32_ok by lia. rewrite usize_ok by lia. reflexivity. }
        rewrite F. apply IH; [eapply seg_tail; eauto|eapply step_ok; eauto|exact S1|lia|lia].
  Qed.

  Theorem no_overflow : forall s, (Z.of_nat (brackets s) < 2 ^ 31)%Z -> (Z.of_nat (length s) < 2 ^ 64)%Z ->
    tokenize_checked seg s = tokenize_str seg s.
  Proof.
    intros s HB HL. unfold tokenize_checked, tokenize_str. change (t_start s) with (conc g_init [] s).
    pose proof (length_seg seg L s) as HS.
    apply (checked_same (seg s)); [reflexivity|apply okp_init|..]; cbn [g_init g_a g_s g_c g_line g_sc g_pg length].
    - rewrite (seg_concat seg L). cbn. exact HB.
    - lia.
    - lia.
  Qed.

  (** Only opening brackets. *)
  Lemma seg_open : forall n, seg (repeat 91%N n) = repeat [91%N] n.
  Proof.
    intro n. rewrite (seg_ascii seg L).
    - induction n; cbn; congruence.
    - apply Forall_forall. intros c H. apply repeat_spec in H. subst c. split; [reflexivity|discriminate].
  Qed.

  Lemma open_overflows : forall m fuel st toks, m < fuel ->
    g_a st = 0%Z -> g_c st = 0%Z -> g_pg st = [] -> (0 <= g_s st < 2 ^ 31)%Z -> (2 ^ 31 <= g_s st + Z.of_nat m)%Z ->
    dispatch_checked seg fuel (conc st toks (repeat 91%N m)) = overflow.
  Proof.
    induction m as [|m IH]; intros fuel st toks HF HA HC HP HS HM; [lia|].
    destruct fuel as [|fuel]; [lia|]. cbn [dispatch_checked].
    assert (Hs : seg (repeat 91%N (S m)) = [91%N] :: repeat [91%N] m) by apply seg_open.
    rewrite ends, Hs. cbn [hd2].
    change (gcls_eqb (cls [91%N]) GNul) with false. cbn [negb andb].
    destruct (sums_fit _); [|reflexivity]. cbn [negb].
    rewrite (step_conc seg L _ [91%N] (repeat [91%N] m) st toks (repeat 91%N (S m)) Hs (or_introl HP) eq_refl).
    assert (A : st_arm [91%N] (hd2 (repeat [91%N] m)) st = ASquareO).
    { unfold st_arm. destruct m; cbn [repeat hd2]; destruct (g_look st), (g_nested st); reflexivity. }
    rewrite A. cbn [apply_arm].
    assert (EC : concat (repeat [91%N] m) = repeat 91%N m) by (clear; induction m; cbn; congruence).
    rewrite EC.
    match goal with |- (if fits (conc ?st2 ?t2 ?s2) then _ else _) = _ =>
      destruct (fits (conc st2 t2 s2)) eqn:F; [|reflexivity]; apply IH end;
      cbn [g_a g_s g_c g_pg arm_a arm_s arm_c]; try lia; auto.
    unfold fits, conc in F. cbn [t_angle t_curly t_square t_line g_a g_s g_c arm_a arm_s arm_c] in F.
    apply andb_true_iff in F as [F _]. apply andb_true_iff in F as [_ F].
    unfold i32 in F. apply andb_true_iff in F as [_ F]. apply Z.ltb_lt in F. lia.
  Qed.

  Theorem overflows : forall n, (2 ^ 31 <= Z.of_nat n)%Z -> tokenize_checked seg (repeat 91%N n) = overflow.
  Proof.
    intros n H. unfold tokenize_checked. change (t_start (repeat 91%N n)) with (conc g_init [] (repeat 91%N n)).
    apply open_overflows; cbn [g_init g_a g_s g_c g_pg]; try reflexivity; try lia.
    rewrite repeat_length. lia.
  Qed.
End Bounds.
