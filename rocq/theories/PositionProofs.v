(** When exactly the positions of tokens are the positions in the text (C05, C66). *)
From Coq Require Import String List NArith ZArith Arith Bool Lia.
From Verif Require Import Base Tokens Graphemes Tokenizer SpecTok TokenizerRun TokenizerProofs TokenizerProofs2
  SpecServer.
Import ListNotations.

Lemma own_cons : forall t ts, own_lines (t :: ts) <->
  (tk t <> TkNewLine -> ~ In 10%N (tok_src (tk t))) /\ own_lines ts.
Proof.
  intros t ts. unfold own_lines. split.
  - intro H. split; [apply H; left; reflexivity|]. intros u I. apply H. right. exact I.
  - intros [H1 H2] u [<-|I]; [exact H1|apply H2; exact I].
Qed.

Lemma tiled_line : forall w ts l c ts1 t ts2, tiled w l c ts -> ts = ts1 ++ t :: ts2 ->
  pline (lstart (tl t)) = l + countk newline ts1.
Proof.
  intros w ts l c ts1. revert ts l c. induction ts1 as [|u ts1 IH]; intros ts l c t ts2 T ->.
  - cbn [app tiled] in T. destruct T as [-> _]. cbn. lia.
  - cbn [app tiled] in T. destruct T as [_ T]. unfold countk. cbn [filter].
    destruct (tk u) eqn:K; cbn [newline];
      (rewrite (IH _ _ _ _ _ T eq_refl); unfold countk; cbn [length]; lia).
Qed.

Lemma lines_in_source : forall ts, countk newline ts <= count_occ N.eq_dec (source ts) 10%N.
Proof.
  induction ts as [|t ts IH]; [cbn; lia|]. unfold source in *. cbn [map concat]. rewrite count_occ_app.
  unfold countk in *. cbn [filter]. destruct (tk t); cbn [newline]; try lia.
  cbn [length tok_src]. cbn. lia.
Qed.

Lemma own_by_count : forall ts, count_occ N.eq_dec (source ts) 10%N = countk newline ts -> own_lines ts.
Proof.
  induction ts as [|t ts IH]; intro H; [intros u []|]. apply own_cons.
  pose proof (lines_in_source ts) as Le.
  unfold source in *. cbn [map concat] in H. rewrite count_occ_app in H.
  unfold countk in *. cbn [filter] in H.
  assert (D : tk t = TkNewLine \/ newline (tk t) = false) by (destruct (tk t); auto).
  destruct D as [D|D].
  - rewrite D in H. cbn [newline length tok_src] in H. split; [congruence|].
    apply IH. cbn in H. lia.
  - rewrite D in H. split; [|apply IH; lia].
    intros _ I. apply (count_occ_In N.eq_dec) in I. lia.
Qed.

Section Laws.
  Variable seg : str -> list str.
  Hypothesis L : seg_laws seg.

  Lemma cut_own_pos : forall l c gs ts, cut l c gs ts ->
    forall s pre pre1 pre2, seg s = pre ++ gs -> pre = pre1 ++ pre2 ->
    concat pre2 = after_lf (concat pre) -> c = length pre2 ->
    l = count_occ N.eq_dec (concat pre) 10%N ->
    forall ts1 t ts2, ts = ts1 ++ t :: ts2 -> own_lines ts1 ->
    lstart (tl t) = true_pos seg (concat pre ++ source ts1).
  Proof.
    induction 1 as [l c gs H|l c k p gs ts Hp Hv Hc IH];
      intros s pre pre1 pre2 Hs Hpre Haf Hcol Hl ts1 t ts2 E Hown.
    - destruct ts1 as [|t1 ts1]; [|destruct ts1; discriminate E].
      injection E as <- <-. cbn [tl span lstart source map concat]. rewrite app_nil_r.
      unfold true_pos. rewrite <- Haf. subst l c.
      rewrite (seg_mid seg L s pre1 pre2 gs); [reflexivity|]. rewrite Hs, Hpre, app_assoc. reflexivity.
    - destruct ts1 as [|t1 ts1].
      + injection E as <- <-. cbn [tl span lstart source map concat]. rewrite app_nil_r.
        unfold true_pos. rewrite <- Haf. subst l c.
        rewrite (seg_mid seg L s pre1 pre2 (p ++ gs)); [reflexivity|].
        rewrite Hs, Hpre, <- app_assoc. reflexivity.
      + injection E as <- E. apply own_cons in Hown as [Hk Hown]. cbn [tk] in Hk.
        replace (concat pre ++ source (mktok k (TokenizerRun.span l c (length p)) :: ts1))
          with (concat (pre ++ p) ++ source ts1)
          by (unfold source; cbn [map concat tk]; rewrite (valid_src _ _ _ Hv), concat_app, app_assoc; reflexivity).
        destruct (newline k) eqn:Ek.
        * destruct k; try discriminate Ek. cbn [valid tok_src] in Hv. subst p.
          apply (IH s (pre ++ [[10%N]]) (pre ++ [[10%N]]) []) with (ts2 := ts2); auto.
          -- rewrite Hs, <- app_assoc. reflexivity.
          -- rewrite app_nil_r. reflexivity.
          -- rewrite concat_app. cbn [concat app]. rewrite after_lf_lf by (intros []). reflexivity.
          -- rewrite concat_app, count_occ_app. cbn [concat app]. cbn. lia.
        * assert (Hnl : ~ In 10%N (concat p)).
          { rewrite <- (valid_src _ _ _ Hv). apply Hk. intros ->. discriminate Ek. }
          apply (IH s (pre ++ p) pre1 (pre2 ++ p)) with (ts2 := ts2); auto.
          -- rewrite Hs, <- app_assoc. reflexivity.
          -- rewrite Hpre, <- app_assoc. reflexivity.
          -- rewrite !concat_app, after_lf_app, Haf by exact Hnl. reflexivity.
          -- rewrite app_length. lia.
          -- rewrite concat_app, count_occ_app, (count_none (concat p)) by exact Hnl. lia.
  Qed.

  Lemma true_pos_exactly : forall s ts, tokenize_str seg s = Ok ts ->
    forall ts1 t ts2, ts = ts1 ++ t :: ts2 ->
    (lstart (tl t) = true_pos seg (source ts1) <-> own_lines ts1).
  Proof.
    intros s ts H ts1 t ts2 E. split; intro P.
    - apply own_by_count. apply (f_equal pline) in P.
      rewrite (tiled_line _ _ _ _ _ _ _ (tokenize_tiled seg L s ts H) E) in P. cbn in P. lia.
    - apply (cut_own_pos _ _ _ _ (tokenize_cut seg L s ts H) s [] [] []) with (ts2 := ts2); auto.
  Qed.

  (** Clusters of one UTF-16 unit. *)
  Definition unit_cluster (g : str) : Prop := exists c, g = [c] /\ (c < 0x10000)%N.

  Lemma utf16_app : forall a b, utf16_length (a ++ b) = (utf16_length a + utf16_length b)%N.
  Proof.
    induction a as [|x a IH]; intro b; [reflexivity|]. cbn [app utf16_length fold_right].
    fold (utf16_length (a ++ b)). fold (utf16_length a). rewrite IH. lia.
  Qed.

  Lemma utf16_positive : forall x s, (1 <= utf16_length (x :: s))%N.
  Proof. intros x s. cbn [utf16_length fold_right]. destruct (x <? 0x10000)%N; lia. Qed.

  Lemma utf16_one : forall g, utf16_length g = 1%N <-> unit_cluster g.
  Proof.
    intro g. split.
    - destruct g as [|x [|y g]]; intro H.
      + discriminate H.
      + exists x. split; [reflexivity|]. cbn in H. destruct (x <? 0x10000)%N eqn:E; [|discriminate H].
        apply N.ltb_lt. exact E.
      + exfalso. pose proof (utf16_positive y g) as P. cbn [utf16_length fold_right] in H, P.
        destruct (x <? 0x10000)%N; lia.
    - intros (c & -> & Hc). cbn. apply N.ltb_lt in Hc. rewrite Hc. reflexivity.
  Qed.

  Lemma utf16_clusters_ge : forall gs, ~ In [] gs -> (N.of_nat (length gs) <= utf16_length (concat gs))%N.
  Proof.
    induction gs as [|g gs IH]; intro Hn; [cbn; lia|]. cbn [concat length]. rewrite utf16_app.
    destruct g as [|x g]; [exfalso; apply Hn; left; reflexivity|].
    pose proof (utf16_positive x g). assert (~ In [] gs) by (intro; apply Hn; right; assumption).
    specialize (IH H0). lia.
  Qed.

  Lemma utf16_clusters : forall gs, ~ In [] gs ->
    (utf16_length (concat gs) = N.of_nat (length gs) <-> Forall unit_cluster gs).
  Proof.
    induction gs as [|g gs IH]; intro Hn; [split; [constructor|reflexivity]|].
    assert (Hn' : ~ In [] gs) by (intro; apply Hn; right; assumption).
    cbn [concat length]. rewrite utf16_app. pose proof (utf16_clusters_ge gs Hn') as Ge.
    destruct g as [|x g]; [exfalso; apply Hn; left; reflexivity|]. pose proof (utf16_positive x g) as Gp.
    split.
    - intro H. constructor; [apply utf16_one; lia|]. apply IH; [exact Hn'|lia].
    - intro H. inversion H as [|? ? H1 H2]; subst. apply utf16_one in H1. apply IH in H2; [|exact Hn']. lia.
  Qed.

  Lemma utf16_exactly : forall s ts, tokenize_str seg s = Ok ts ->
    forall ts1 t ts2, ts = ts1 ++ t :: ts2 ->
    (fst (SpecServer.span t) = utf16_position (source ts1) <->
     own_lines ts1 /\ Forall (fun g => exists c, g = [c] /\ (c < 0x10000)%N) (seg (after_lf (source ts1)))).
  Proof.
    intros s ts H ts1 t ts2 E. fold unit_cluster.
    pose proof (true_pos_exactly s ts H ts1 t ts2 E) as X.
    pose proof (utf16_clusters _ (seg_nonempty seg L (after_lf (source ts1)))) as Y.
    rewrite (seg_concat seg L) in Y.
    assert (Z : own_lines ts1 -> lstart (tl t) = true_pos seg (source ts1)) by (apply X).
    split.
    - intro P. unfold SpecServer.span, utf16_position in P. cbn [fst] in P.
      injection P as P1 P2. apply Nnat.Nat2N.inj in P1.
      assert (O : own_lines ts1).
      { apply own_by_count. rewrite <- P1.
        rewrite (tiled_line _ _ _ _ _ _ _ (tokenize_tiled seg L s ts H) E). lia. }
      split; [exact O|]. apply Y. rewrite <- P2, (Z O). reflexivity.
    - intros [O F]. unfold SpecServer.span, utf16_position. cbn [fst]. rewrite (Z O). unfold true_pos.
      cbn [pline pchar]. apply Y in F. rewrite F. reflexivity.
  Qed.
End Laws.
