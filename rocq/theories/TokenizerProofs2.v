(** Positions, lexical classes, plain lines, escapes and composition. *)
From Coq Require Import String List NArith ZArith Bool Lia Arith.
From Verif Require Import Base Tokens Graphemes Tokenizer TokenizerRun SpecTok TokenizerProofs.
Import ListNotations.

Lemma existsb_lf : forall s, existsb (N.eqb 10) s = true <-> In 10%N s.
Proof.
  intro s. rewrite existsb_exists. split.
  - intros (x & H & E). apply N.eqb_eq in E. subst x. exact H.
  - intro H. exists 10%N. split; [exact H|reflexivity].
Qed.

Lemma existsb_lf_false : forall s, ~ In 10%N s -> existsb (N.eqb 10) s = false.
Proof. intros s H. destruct (existsb (N.eqb 10) s) eqn:E; [|reflexivity]. apply existsb_lf in E; contradiction. Qed.

Lemma after_lf_none : forall s, ~ In 10%N s -> after_lf s = s.
Proof.
  intros [|c s] H; [reflexivity|]. cbn [after_lf].
  rewrite existsb_lf_false by (intro; apply H; right; auto).
  destruct (N.eqb c 10) eqn:E; [|reflexivity].
  apply N.eqb_eq in E. subst c. exfalso. apply H. left; reflexivity.
Qed.

Lemma after_lf_lf : forall a b, ~ In 10%N b -> after_lf (a ++ 10%N :: b) = b.
Proof.
  intros a b Hb. induction a as [|c a IH]; cbn [app after_lf].
  - rewrite existsb_lf_false by exact Hb. reflexivity.
  - assert (E : existsb (N.eqb 10) (a ++ 10%N :: b) = true)
      by (apply existsb_lf; apply in_or_app; right; left; reflexivity).
    rewrite E. exact IH.
Qed.

Lemma after_lf_app : forall a b, ~ In 10%N b -> after_lf (a ++ b) = after_lf a ++ b.
Proof.
  intros a b Hb. induction a as [|c a IH]; cbn [app].
  - cbn. apply after_lf_none; exact Hb.
  - cbn [after_lf]. rewrite existsb_app, (existsb_lf_false b) by exact Hb. rewrite orb_false_r.
    destruct (existsb (N.eqb 10) a); [exact IH|]. destruct (N.eqb c 10); reflexivity.
Qed.

Lemma count_none : forall s, ~ In 10%N s -> count_occ N.eq_dec s 10%N = 0.
Proof. intros s H. apply count_occ_not_In. exact H. Qed.

(** No line feed is part of a larger cluster or directly before a closing bracket. *)
Definition lf_safe (gs : list str) : Prop :=
  (forall g, In g gs -> In LF g -> g = [LF]) /\
  (forall a b g, gs = a ++ [LF] :: g :: b -> closercls (cls g) = false).

Lemma lf_safe_app : forall p gs, lf_safe (p ++ gs) -> lf_safe gs.
Proof.
  intros p gs [H1 H2]. split.
  - intros g Hg. apply H1. apply in_or_app; auto.
  - intros a b g E. apply (H2 (p ++ a) b g). rewrite E, <- app_assoc. reflexivity.
Qed.

Lemma valid_nolf : forall k p gs, valid k p (hd2 gs) -> lf_safe (p ++ gs) -> newline k = false ->
  ~ In LF (concat p).
Proof.
  intros k p gs Hv [H1 H2] Hk Hin. apply in_concat in Hin as (g & Hg & Hl).
  assert (g = [LF]) by (apply H1; [apply in_or_app; auto|auto]). subst g.
  destruct k; cbn [valid newline] in *; try contradiction; try discriminate Hk;
    try (subst p; destruct Hg as [E|[]]; discriminate E);
    try (destruct Hv as [_ Hv]; rewrite Forall_forall in Hv; apply Hv in Hg; discriminate Hg).
  destruct Hv as (_ & q & g & -> & Hq & Hb & Hn & Hc).
  apply in_app_or in Hg as [Hg|[->|[]]].
  - rewrite Forall_forall in Hq. apply Hq in Hg. discriminate Hg.
  - destruct Hc as [Hc|Hc]; [discriminate Hc|].
    destruct gs as [|g2 gs]; [discriminate Hc|]. cbn [hd2] in Hc.
    rewrite (H2 q gs g2) in Hc; [discriminate Hc|]. rewrite <- app_assoc. reflexivity.
Qed.

Section Laws.
  Variable seg : str -> list str.
  Hypothesis L : seg_laws seg.

  (** C05 *)
  Lemma cut_true_pos : forall l c gs ts, cut l c gs ts ->
    forall s pre pre1 pre2, seg s = pre ++ gs -> pre = pre1 ++ pre2 ->
    concat pre2 = after_lf (concat pre) -> c = length pre2 ->
    l = count_occ N.eq_dec (concat pre) 10%N -> lf_safe gs ->
    forall ts1 t ts2, ts = ts1 ++ t :: ts2 ->
    lstart (tl t) = true_pos seg (concat pre ++ source ts1).
  Proof.
    induction 1 as [l c gs H|l c k p gs ts Hp Hv Hc IH];
      intros s pre pre1 pre2 Hs Hpre Haf Hcol Hl Hsafe ts1 t ts2 E.
    - destruct ts1 as [|t1 ts1]; [|destruct ts1; discriminate E].
      injection E as <- <-. cbn [tl span lstart source map concat]. rewrite app_nil_r.
      unfold true_pos. rewrite <- Haf. subst l c.
      rewrite (seg_mid seg L s pre1 pre2 gs); [reflexivity|]. rewrite Hs, Hpre, app_assoc. reflexivity.
    - destruct ts1 as [|t1 ts1].
      + injection E as <- <-. cbn [tl span lstart source map concat]. rewrite app_nil_r.
        unfold true_pos. rewrite <- Haf. subst l c.
        rewrite (seg_mid seg L s pre1 pre2 (p ++ gs)); [reflexivity|].
        rewrite Hs, Hpre, <- app_assoc. reflexivity.
      + injection E as <- E.
        replace (concat pre ++ source (mktok k (span l c (length p)) :: ts1))
          with (concat (pre ++ p) ++ source ts1)
          by (unfold source; cbn [map concat tk]; rewrite (valid_src _ _ _ Hv), concat_app, app_assoc; reflexivity).
        destruct (newline k) eqn:Ek.
        * destruct k; try discriminate Ek. cbn [valid tok_src] in Hv. subst p.
          apply (IH s (pre ++ [[10%N]]) (pre ++ [[10%N]]) []) with (ts2 := ts2); auto.
          -- rewrite Hs, <- app_assoc. reflexivity.
          -- rewrite app_nil_r. reflexivity.
          -- rewrite concat_app. cbn [concat app]. rewrite after_lf_lf by (intros []). reflexivity.
          -- rewrite concat_app, count_occ_app. cbn [concat app]. cbn. lia.
          -- eapply lf_safe_app; exact Hsafe.
        * assert (Hnl : ~ In LF (concat p)) by (eapply valid_nolf; eauto).
          apply (IH s (pre ++ p) pre1 (pre2 ++ p)) with (ts2 := ts2); auto.
          -- rewrite Hs, <- app_assoc. reflexivity.
          -- rewrite Hpre, <- app_assoc. reflexivity.
          -- rewrite !concat_app, after_lf_app, Haf by exact Hnl. reflexivity.
          -- rewrite app_length. lia.
          -- rewrite concat_app, count_occ_app, (count_none (concat p)) by exact Hnl. lia.
          -- eapply lf_safe_app; exact Hsafe.
  Qed.

  Lemma in_split_concat : forall (g : str) gs, In g gs -> exists a b, concat gs = a ++ g ++ b.
  Proof.
    intros g gs H. apply in_split in H as (x & y & ->). exists (concat x), (concat y).
    rewrite concat_app. reflexivity.
  Qed.

  Lemma lf_safe_text : forall s,
    ~ occurs [13%N; 10%N] s -> ~ occurs [10%N; 62%N] s -> ~ occurs [10%N; 125%N] s -> ~ occurs [10%N; 93%N] s ->
    lf_safe (seg s).
  Proof.
    intros s H0 H1 H2 H3. split.
    - intros g Hg Hl. destruct (seg_lf_cluster seg L s g Hg Hl) as [->| ->]; [reflexivity|].
      exfalso. apply H0. apply in_split_concat in Hg as (a & b & E).
      rewrite (seg_concat seg L) in E. exists a, b. exact E.
    - intros a b g E. destruct (closercls (cls g)) eqn:Ec; [exfalso|reflexivity].
      assert (Hs : s = concat a ++ [10%N] ++ g ++ concat b)
        by (rewrite <- (seg_concat seg L s), E, concat_app; reflexivity).
      destruct (cls g) eqn:Eg; try discriminate Ec;
        (apply cls_inv in Eg; [|discriminate]; subst g; cbn in Hs).
      + apply H1. exists (concat a), (concat b). exact Hs.
      + apply H2. exists (concat a), (concat b). exact Hs.
      + apply H3. exists (concat a), (concat b). exact Hs.
  Qed.

  Lemma tokenize_true_pos : forall s ts,
    ~ occurs [13%N; 10%N] s -> ~ occurs [10%N; 62%N] s -> ~ occurs [10%N; 125%N] s -> ~ occurs [10%N; 93%N] s ->
    tokenize_str seg s = Ok ts ->
    forall ts1 t ts2, ts = ts1 ++ t :: ts2 -> lstart (tl t) = true_pos seg (source ts1).
  Proof.
    intros s ts H0 H1 H2 H3 H ts1 t ts2 E. apply (tokenize_cut seg L) in H.
    apply (cut_true_pos _ _ _ _ H s [] [] []) with (ts2 := ts2); auto.
    apply lf_safe_text; assumption.
  Qed.

  (** C06 *)
  Lemma okcls_special : forall g c, okcls (cls g) = true -> special c -> g <> [c].
  Proof.
    intros g c H Hs ->. unfold special in Hs. cbn in Hs.
    repeat (destruct Hs as [<-|Hs]; [vm_compute in H; discriminate H|]). destruct Hs.
  Qed.

  Lemma not_okcls_special : forall g, okcls (cls g) = false -> exists c, special c /\ g = [c].
  Proof.
    intros g H. exists (cls_char (cls g)). split.
    - unfold special. destruct (cls g); try discriminate H; cbn; intuition.
    - apply cls_inv; [reflexivity|]. intro E. rewrite E in H. discriminate H.
  Qed.

  Lemma closer_char : forall g, closercls (cls g) = true -> exists c, In c (lit ">}]") /\ g = [c].
  Proof.
    intros g H. exists (cls_char (cls g)). split.
    - destruct (cls g); try discriminate H; cbn; intuition.
    - apply cls_inv; [reflexivity|]. intro E. rewrite E in H. discriminate H.
  Qed.

  Lemma cut_next_closer : forall l c gs ts, cut l c gs ts -> closercls (cls (hd2 gs)) = true ->
    exists d r, In d (lit ">}]") /\ source ts = d :: r.
  Proof.
    intros l c gs ts H Hc. inversion H as [? ? ? He|? ? k p gs' ts' Hp Hv Hct]; subst.
    - destruct He as [->|He]; [discriminate Hc|]. rewrite He in Hc. discriminate Hc.
    - destruct p as [|g p]; [congruence|]. cbn [app hd2] in Hc.
      apply closer_char in Hc as (d & Hd & ->). unfold source. cbn [map concat tk].
      rewrite (valid_src _ _ _ Hv). cbn [concat app]. eauto.
  Qed.

  Lemma cut_lex : forall l c gs ts, cut l c gs ts -> seg (concat gs) = gs -> ~ In [] gs ->
    forall ts1 t ts2, ts = ts1 ++ t :: ts2 ->
    match tk t with
    | TkText v | TkModule v => v <> [] /\ forall x, special x -> ~ In [x] (seg v)
    | TkIdent v => exists q g, seg v = q ++ [g] /\ (forall x, special x -> ~ In [x] q) /\
        g <> [92%N] /\ g <> [0%N] /\
        ((exists x, special x /\ g = [x]) -> exists d r, In d (lit ">}]") /\ source ts2 = d :: r)
    | _ => True
    end.
  Proof.
    induction 1 as [l c gs H|l c k p gs ts Hp Hv Hc IH]; intros Hs Hne ts1 t ts2 E.
    - destruct ts1 as [|? [|]]; try discriminate E. injection E as <- <-. exact I.
    - destruct ts1 as [|t1 ts1].
      + injection E as <- <-.
        cbn [tk]. assert (Ep : seg (concat p) = p) by (eapply (seg_mid seg L _ [] p gs); exact Hs).
        assert (Hcp : concat p <> []).
        { destruct p as [|g p]; [congruence|]. destruct g; [|discriminate].
          exfalso. apply Hne. apply in_or_app. left; left; reflexivity. }
        destruct k; try exact I; cbn [valid] in Hv.
        * destruct Hv as [-> Hv]. split; [exact Hcp|]. rewrite Ep. rewrite Forall_forall in Hv.
          intros x Hx Hin. apply Hv in Hin. apply (okcls_special _ x Hin Hx). reflexivity.
        * destruct Hv as [-> Hv]. split; [exact Hcp|]. rewrite Ep. rewrite Forall_forall in Hv.
          intros x Hx Hin. apply Hv in Hin. apply (okcls_special _ x Hin Hx). reflexivity.
        * destruct Hv as (-> & q & g & Eq & Hq & Hb & Hn & Ho). exists q, g. rewrite Ep.
          split; [exact Eq|]. split; [|split; [|split]].
          -- rewrite Forall_forall in Hq.
             intros x Hx Hin. apply Hq in Hin. apply (okcls_special _ x Hin Hx). reflexivity.
          -- intros ->. apply Hb. reflexivity.
          -- intros ->. apply Hn. reflexivity.
          -- intros (x & Hx & ->). destruct Ho as [Ho|Ho].
             ++ exfalso. apply (okcls_special _ x Ho Hx). reflexivity.
             ++ eapply cut_next_closer; eauto.
      + injection E as _ E. eapply IH; eauto.
        * eapply (seg_suffix seg L p). exact Hs.
        * intro Hg. apply Hne. apply in_or_app; auto.
  Qed.

  Lemma tokenize_lex : forall s ts, tokenize_str seg s = Ok ts ->
    forall ts1 t ts2, ts = ts1 ++ t :: ts2 ->
    match tk t with
    | TkText v | TkModule v => v <> [] /\ forall x, special x -> ~ In [x] (seg v)
    | TkIdent v => exists q g, seg v = q ++ [g] /\ (forall x, special x -> ~ In [x] q) /\
        g <> [92%N] /\ g <> [0%N] /\
        ((exists x, special x /\ g = [x]) -> exists d r, In d (lit ">}]") /\ source ts2 = d :: r)
    | _ => True
    end.
  Proof.
    intros s ts H. apply (tokenize_cut seg L) in H. apply (cut_lex _ _ _ _ H).
    - rewrite (seg_concat seg L). reflexivity.
    - apply (seg_nonempty seg L).
  Qed.

  (** ASCII inputs behave the same under every lawful segmenter. *)
  Lemma tokenize_ascii : forall seg' s, seg_laws seg' -> Forall (fun c => (c < 128)%N /\ c <> CR) s ->
    tokenize_str seg s = tokenize_str seg' s.
  Proof.
    intros seg' s L' H. rewrite (tokenize_run seg L), (tokenize_run seg' L').
    rewrite (seg_ascii seg L s H), (seg_ascii seg' L' s H). reflexivity.
  Qed.
End Laws.

(** ** Plain lines (C07) *)
Definition calm (st : gst) : Prop := g_nested st = false /\ g_look st = false.

Lemma choose_calm_ok : forall c c2, okcls c = true ->
  choose c c2 false false = (if okcls c2 then APush else AText).
Proof. intros [] []; cbn; intro; congruence || reflexivity. Qed.

Lemma run_line : forall gsl st tail, calm st -> Forall (fun g => okcls (cls g) = true) gsl -> gsl <> [] ->
  (tail = [] \/ hd2 tail = [LF]) ->
  run (gsl ++ tail) st =
    mktok (TkText (concat (g_pg st ++ gsl))) (span (g_line st) (g_sc st) (length (g_pg st ++ gsl)))
    :: run tail (mkG (g_line st) (g_sc st + length (g_pg st ++ gsl)) [] (g_a st) (g_s st) (g_c st) (g_look st)).
Proof.
  induction gsl as [|g gsl IH]; intros st tail [Hn Hl] Hf Hne Ht; [congruence|].
  inversion Hf as [|? ? Hg Hf']; subst.
  cbn [app run].
  assert (En : gcls_eqb (cls g) GNul = false) by (destruct (cls g); try discriminate Hg; reflexivity).
  rewrite En. unfold st_arm. rewrite Hn, Hl, (choose_calm_ok _ _ Hg).
  destruct gsl as [|g' gsl].
  - cbn [app].
    assert (E2 : okcls (cls (hd2 tail)) = false).
    { destruct Ht as [->| ->]; reflexivity. }
    rewrite E2. cbn [apply_arm]. cbn [app arm_kind arm_look arm_a arm_s arm_c].
    rewrite ?Hl, !Z.add_0_r, !app_length. cbn [length]. rewrite !Nat.add_1_r. reflexivity.
  - cbn [app hd2]. inversion Hf' as [|? ? Hg' Hf'']; subst. rewrite Hg'. cbn [apply_arm app].
    rewrite app_comm_cons.
    rewrite (IH (mkG (g_line st) (g_sc st) (g_pg st ++ [g]) (g_a st) (g_s st) (g_c st) (g_look st)) tail);
      cbn [g_pg g_line g_sc g_a g_s g_c g_look]; auto; try discriminate.
    + rewrite <- !app_assoc, ?Hl. reflexivity.
    + split; assumption.
Qed.

Section Lines.
  Variable seg : str -> list str.
  Hypothesis L : seg_laws seg.

  Lemma seg_lf_split : forall a, (forall a', a <> a' ++ [13%N]) -> seg (a ++ [LF]) = seg a ++ [[LF]].
  Proof.
    intros a Ha. pose proof (seg_concat seg L (a ++ [LF])) as E.
    assert (Hn : seg (a ++ [LF]) <> []).
    { intro E0. rewrite E0 in E. cbn in E. symmetry in E. apply app_eq_nil in E as [_ E]. discriminate E. }
    destruct (exists_last Hn) as (gs0 & g1 & Es).
    rewrite Es, concat_app in E. cbn [concat] in E. rewrite app_nil_r in E.
    assert (Hne : g1 <> []).
    { intro; subst. apply (seg_nonempty seg L (a ++ [LF])). rewrite Es. apply in_or_app; right; left; reflexivity. }
    destruct (exists_last Hne) as (g0 & y & ->).
      rewrite app_assoc in E. apply app_inj_tail in E as [E ->].
      assert (Hin : In (g0 ++ [LF]) (seg (a ++ [LF]))) by (rewrite Es; apply in_or_app; right; left; reflexivity).
      destruct (seg_lf_cluster seg L _ _ Hin) as [Eg|Eg].
      + apply in_or_app; right; left; reflexivity.
      + change [LF] with ([] ++ [LF]) in Eg at 2. apply app_inj_tail in Eg as [-> _]. cbn [app].
        rewrite app_nil_r in E. rewrite Es. cbn [app]. f_equal. rewrite <- E. symmetry.
        eapply (seg_prefix seg L). exact Es.
      + exfalso. change [CR; LF] with ([CR] ++ [LF]) in Eg. apply app_inj_tail in Eg as [-> _].
        apply (Ha (concat gs0)). symmetry. exact E.
  Qed.

  Lemma plain_clusters : forall s, (forall c, In c s -> ~ In c markup /\ c <> 10%N /\ c <> 0%N) ->
    Forall (fun g => okcls (cls g) = true) (seg s).
  Proof.
    intros s H. apply Forall_forall. intros g Hg.
    destruct (in_split_concat g (seg s) Hg) as (a & b & E). rewrite (seg_concat seg L) in E.
    destruct (okcls (cls g)) eqn:Ec; [reflexivity|exfalso].
    assert (Hc : g = [cls_char (cls g)]) by (apply cls_inv; [reflexivity|intro E'; rewrite E' in Ec; discriminate Ec]).
    destruct (H (cls_char (cls g))) as (Hm & Hl & Hz).
    { rewrite E. apply in_or_app; right. apply in_or_app; left. rewrite Hc at 2. left; reflexivity. }
    destruct (cls g); try discriminate Ec; cbn in *; intuition congruence.
  Qed.

  Lemma calm_line : forall st l sc, calm st ->
    calm (mkG l sc [] (g_a st) (g_s st) (g_c st) (g_look st)).
  Proof. intros st l sc H. exact H. Qed.

  Lemma run_plain_line : forall x st tail, calm st -> g_pg st = [] ->
    Forall (fun g => okcls (cls g) = true) (seg x) -> (tail = [] \/ hd2 tail = [LF]) ->
    exists st', calm st' /\ g_pg st' = [] /\
      map tk (run (seg x ++ tail) st) = line_kinds x ++ map tk (run tail st').
  Proof.
    intros x st tail Hc Hp Hf Ht. destruct (seg x) as [|g gs] eqn:E.
    - exists st. split; [exact Hc|]. split; [exact Hp|].
      pose proof (seg_concat seg L x) as Ex. rewrite E in Ex. cbn in Ex. subst x. reflexivity.
    - eexists. rewrite run_line; auto; [|discriminate].
      split; [|split]; [apply calm_line; exact Hc|reflexivity|].
      cbn [map tk]. rewrite Hp. cbn [app]. rewrite <- E, (seg_concat seg L).
      destruct x; [rewrite (seg_nil seg L) in E; discriminate E|]. reflexivity.
  Qed.

  Lemma run_nl : forall st tail, calm st -> g_pg st = [] ->
    exists st', calm st' /\ g_pg st' = [] /\ map tk (run ([LF] :: tail) st) = TkNewLine :: map tk (run tail st').
  Proof.
    intros st tail [Hn Hl] Hp. cbn [run]. unfold st_arm. rewrite Hn, Hl.
    assert (E : choose (cls [LF]) (cls (hd2 tail)) false false = ANl)
      by (destruct (cls (hd2 tail)); reflexivity).
    rewrite E. cbn [gcls_eqb cls LF apply_arm app map tk arm_kind].
    eexists. split; [|split]; [| |reflexivity].
    - unfold calm, g_nested in *. cbn [g_a g_s g_c g_look arm_a arm_s arm_c arm_look].
      rewrite !Z.add_0_r. auto.
    - reflexivity.
  Qed.

  Lemma tokenize_plain : forall ls ts,
    (forall l, In l ls -> (forall c, In c l -> ~ In c markup /\ c <> 10%N /\ c <> 0%N) /\
                          (forall l', l <> l' ++ [13%N])) ->
    tokenize_str seg (join_lines ls) = Ok ts -> map tk ts = lines_kinds ls.
  Proof.
    intros ls ts Hls H. rewrite (tokenize_run seg L) in H. injection H as <-.
    assert (G : forall st, calm st -> g_pg st = [] ->
              map tk (run (seg (join_lines ls)) st) = lines_kinds ls).
    { clear -L Hls. induction ls as [|l ls IH]; intros st Hc Hp.
      - cbn. rewrite (seg_nil seg L). reflexivity.
      - assert (Hl := Hls l (or_introl eq_refl)). destruct Hl as [Hl Hcr].
        apply plain_clusters in Hl.
        destruct ls as [|l2 ls].
        + cbn [join_lines lines_kinds].
          destruct (run_plain_line l st [] Hc Hp Hl (or_introl eq_refl)) as (st' & _ & _ & E).
          rewrite app_nil_r in E. rewrite E. reflexivity.
        + assert (Ej : join_lines (l :: l2 :: ls) = (l ++ [LF]) ++ join_lines (l2 :: ls))
            by (rewrite <- app_assoc; reflexivity).
          rewrite Ej, (seg_lf seg L), (seg_lf_split l Hcr), <- app_assoc. cbn [app].
          destruct (run_plain_line l st ([LF] :: seg (join_lines (l2 :: ls))) Hc Hp Hl (or_intror eq_refl))
            as (st1 & Hc1 & Hp1 & E1).
          etransitivity; [exact E1|].
          destruct (run_nl st1 (seg (join_lines (l2 :: ls))) Hc1 Hp1) as (st2 & Hc2 & Hp2 & E2).
          rewrite E2. rewrite IH; auto. intros x Hx. apply Hls. right; exact Hx. }
    apply G; [split; reflexivity|reflexivity].
  Qed.
End Lines.

(** ** Shifting (C08) and composition (C09) *)
Definition g_sum (st : gst) : Z := (g_a st + g_s st + g_c st)%Z.

Definition sim (dl dc : nat) (st1 st2 : gst) : Prop :=
  g_line st2 = g_line st1 + dl /\
  g_sc st2 = (if g_line st1 =? 0 then g_sc st1 + dc else g_sc st1) /\
  g_pg st2 = g_pg st1 /\ g_sum st2 = g_sum st1 /\ g_look st2 = g_look st1.

Lemma nested_sum : forall st, g_nested st = (g_sum st >? 0)%Z.
Proof. intro st. unfold g_nested, g_sum. f_equal. lia. Qed.

Lemma shift_span : forall dl dc st1 st2 k w, sim dl dc st1 st2 ->
  mktok k (span (g_line st2) (g_sc st2) w) = shift_tok dl dc (mktok k (span (g_line st1) (g_sc st1) w)).
Proof.
  intros dl dc st1 st2 k w (Hl & Hc & _). unfold shift_tok, shift_pos, span.
  cbn [tk tl lstart lend pline pchar]. rewrite Hl, Hc. destruct (g_line st1 =? 0); [|reflexivity].
  replace (g_sc st1 + w + dc) with (g_sc st1 + dc + w) by lia. reflexivity.
Qed.

Lemma run_sim : forall gs dl dc st1 st2, sim dl dc st1 st2 ->
  run gs st2 = map (shift_tok dl dc) (run gs st1).
Proof.
  induction gs as [|g gs IH]; intros dl dc st1 st2 Hsim; cbn [run].
  - cbn [map]. rewrite (shift_span _ _ _ _ _ _ Hsim). reflexivity.
  - destruct (gcls_eqb (cls g) GNul).
    + cbn [map]. rewrite (shift_span _ _ _ _ _ _ Hsim). reflexivity.
    + assert (Ha : st_arm g (hd2 gs) st2 = st_arm g (hd2 gs) st1).
      { unfold st_arm. rewrite !nested_sum. destruct Hsim as (_ & _ & _ & -> & ->). reflexivity. }
      rewrite Ha. pose proof Hsim as (Hl & Hc & Hp & Hs & Hk).
      destruct (st_arm g (hd2 gs) st1); cbn [apply_arm map app];
        rewrite ?(shift_span dl dc st1 st2 _ _ Hsim), ?Hp; f_equal; apply IH;
        unfold sim, g_sum in *; cbn [g_line g_sc g_pg g_a g_s g_c g_look arm_a arm_s arm_c arm_look];
        repeat split; rewrite ?Hp; auto; try lia;
        rewrite ?Hl, ?Hc; destruct (g_line st1 =? 0); lia.
Qed.

Section Escape.
  Variable seg : str -> list str.
  Hypothesis L : seg_laws seg.

  (** A leading backslash is one token; the rest is tokenized as if it were not there. *)
  Lemma tokenize_backslash : forall s ts, seg (92%N :: s) = [92%N] :: seg s ->
    tokenize_str seg s = Ok ts ->
    tokenize_str seg (92%N :: s) =
      Ok (mktok TkBackSlash (mkloc (mkpos 0 0) (mkpos 0 1)) :: map (shift_tok 0 1) ts).
  Proof.
    intros s ts Hs H. rewrite (tokenize_run seg L) in *. injection H as <-. f_equal.
    rewrite Hs. cbn [run]. change (gcls_eqb (cls [92%N]) GNul) with false. cbv iota.
    change (st_arm [92%N] (hd2 (seg s)) g_init) with ABack. cbn [apply_arm g_init g_pg length app].
    f_equal. apply run_sim. unfold sim, g_sum; cbn. auto.
  Qed.
End Escape.

Definition lfg : str := [LF].
Definition nx (gs : list str) (nxt : str) : str := match gs with [] => nxt | g :: _ => g end.

(** Execution of a prefix. *)
Fixpoint exec (gs : list str) (nxt : str) (st : gst) : list token * gst :=
  match gs with
  | [] => ([], st)
  | g :: gs' =>
    let g2 := nx gs' nxt in
    let (o, st1) := apply_arm (st_arm g g2 st) g st in
    let (o', st2) := exec gs' nxt st1 in (o ++ o', st2)
  end.

Lemma run_exec : forall gs1 gs2 st, ~ In nul gs1 ->
  run (gs1 ++ gs2) st = fst (exec gs1 (hd2 gs2) st) ++ run gs2 (snd (exec gs1 (hd2 gs2) st)).
Proof.
  induction gs1 as [|g gs1 IH]; intros gs2 st Hn; [reflexivity|].
  cbn [app run exec].
  assert (En : gcls_eqb (cls g) GNul = false).
  { destruct (gcls_eqb (cls g) GNul) eqn:E; [|reflexivity]. apply is_nul_eq in E. subst g.
    exfalso. apply Hn. left; reflexivity. }
  rewrite En.
  replace (hd2 (gs1 ++ gs2)) with (nx gs1 (hd2 gs2))
    by (destruct gs1; reflexivity).
  destruct (apply_arm _ g st) as [o st1].
  rewrite IH by (intro; apply Hn; right; auto).
  destruct (exec gs1 (hd2 gs2) st1) as [o' st2]. cbn [fst snd]. rewrite app_assoc. reflexivity.
Qed.

Lemma choose_nl : forall c2 nested, choose GNl c2 false nested = ANl.
Proof. intros [] []; reflexivity. Qed.

(** The lookahead after a final line feed does not matter when no name is pending. *)
Lemma exec_lf : forall gs st n1 n2,
  g_look (snd (exec (gs ++ [lfg]) n1 st)) = false ->
  closercls (cls n1) = false ->
  exec (gs ++ [lfg]) n2 st = exec (gs ++ [lfg]) n1 st.
Proof.
  induction gs as [|g gs IH]; intros st n1 n2 Hl Hn1.
  - cbn [app exec nx] in *. unfold st_arm in *. change (cls lfg) with GNl in *.
    destruct (g_look st) eqn:El.
    + exfalso.
      assert (E1 : choose GNl (cls n1) true (g_nested st) = ANl)
        by (destruct (cls n1), (g_nested st); try reflexivity; discriminate Hn1).
      rewrite E1 in Hl. cbn in Hl. congruence.
    + rewrite !choose_nl. reflexivity.
  - cbn [app exec] in *.
    assert (E : nx (gs ++ [lfg]) n2 = nx (gs ++ [lfg]) n1) by (destruct gs; reflexivity).
    rewrite E. destruct (apply_arm _ g st) as [o st1].
    rewrite (IH st1 n1 n2).
    + reflexivity.
    + destruct (exec (gs ++ [lfg]) n1 st1); exact Hl.
    + exact Hn1.
Qed.

(** Counters and flags from the tokens. *)
Lemma exec_state : forall gs nxt st o st', exec gs nxt st = (o, st') -> okp st (hd2 (gs ++ [nxt])) ->
  g_line st' = g_line st + countk newline o /\
  (g_sum st' = g_sum st + Z.of_nat (countk opening o) - Z.of_nat (countk closing o))%Z /\
  g_look st' = fold_left (fun b t => match tk t with
                        | TkAngleOpen | TkSquareOpen | TkCurlyOpen => true
                        | TkIdent _ => false
                        | _ => b
                        end) o (g_look st) /\
  okp st' nxt.
Proof.
  induction gs as [|g gs IH]; intros nxt st o st' H Hok.
  - cbn in H. injection H as <- <-. cbn. repeat split; auto; lia.
  - cbn [exec] in H. cbn [app hd2] in Hok.
    set (g2 := nx gs nxt) in *.
    assert (Eg2 : g2 = hd2 (gs ++ [nxt])) by (destruct gs; reflexivity).
    destruct (apply_arm (st_arm g g2 st) g st) as [o1 st1] eqn:Ea.
    destruct (exec gs nxt st1) as [o2 st2] eqn:Ee. injection H as <- <-.
    pose proof (step_ok _ _ _ _ _ Hok Ea) as Hok1. rewrite Eg2 in Hok1.
    destruct (IH _ _ _ _ Ee Hok1) as (H1 & H2 & H3 & H4).
    split; [|split; [|split; [|exact H4]]].
    + rewrite H1. destruct (st_arm g g2 st); cbn in Ea; injection Ea as <- <-;
        unfold countk; cbn [app filter tk newline arm_kind length g_line]; lia.
    + rewrite H2. destruct (st_arm g g2 st); cbn in Ea; injection Ea as <- <-;
        unfold g_sum, countk; cbn [app filter tk opening closing arm_kind length g_a g_s g_c arm_a arm_s arm_c];
        lia.
    + rewrite H3, fold_left_app. f_equal.
      destruct (st_arm g g2 st); cbn in Ea; injection Ea as <- <-; reflexivity.
Qed.

Section Compose.
  Variable seg : str -> list str.
  Hypothesis L : seg_laws seg.

  Lemma exec_sc_lf : forall gs st nxt, g_look (snd (exec (gs ++ [lfg]) nxt st)) = false ->
    closercls (cls nxt) = false ->
    g_sc (snd (exec (gs ++ [lfg]) nxt st)) = 0 /\ g_pg (snd (exec (gs ++ [lfg]) nxt st)) = [].
  Proof.
    induction gs as [|g gs IH]; intros st nxt Hl Hn1.
    - cbn [app exec nx] in *. unfold st_arm in *. change (cls lfg) with GNl in *.
      assert (E1 : choose GNl (cls nxt) (g_look st) (g_nested st) = ANl)
        by (destruct (cls nxt), (g_look st), (g_nested st); try reflexivity; discriminate Hn1).
      rewrite E1. cbn. auto.
    - cbn [app exec] in *. destruct (apply_arm _ g st) as [o st1]. specialize (IH st1 nxt).
      destruct (exec (gs ++ [lfg]) nxt st1). cbn in *. auto.
  Qed.

  Lemma tokenize_compose : forall a b ta ea tb, (forall a', a <> a' ++ [13%N]) ->
    ~ In NUL a ->
    tokenize_str seg (a ++ [LF]) = Ok (ta ++ [ea]) ->
    countk opening ta = countk closing ta -> pending ta = false ->
    tokenize_str seg b = Ok tb ->
    tokenize_str seg (a ++ [LF] ++ b) = Ok (ta ++ map (shift_tok (countk newline ta) 0) tb).
  Proof.
    intros a b ta ea tb Hcr Hnul Ha Hbal Hpend Hb.
    rewrite (tokenize_run seg L) in *. injection Hb as <-. injection Ha as Ha. f_equal.
    rewrite app_assoc, (seg_lf seg L).
    pose proof (seg_lf_split seg L a Hcr) as Hsp. change [[LF]] with [lfg] in Hsp.
    rewrite Hsp in *.
    assert (Hn : ~ In nul (seg a ++ [lfg])).
    { intro Hin. apply in_app_or in Hin as [Hin|[E|[]]]; [|discriminate E].
      apply in_split_concat in Hin as (x & y & E). rewrite (seg_concat seg L) in E.
      apply Hnul. rewrite E. apply in_or_app; right; left; reflexivity. }
    rewrite run_exec by exact Hn.
    rewrite <- (app_nil_r (seg a ++ [lfg])) in Ha. rewrite run_exec in Ha by exact Hn.
    cbn [hd2 run] in Ha.
    destruct (exec (seg a ++ [lfg]) nul g_init) as [o st] eqn:Ee. cbn [fst snd] in Ha.
    apply app_inj_tail in Ha as [-> _].
    destruct (exec_state _ _ _ _ _ Ee (okp_init _)) as (H1 & H2 & H3 & _).
    assert (Hl : g_look st = false) by (rewrite H3; exact Hpend).
    assert (Ee2 : exec (seg a ++ [lfg]) (hd2 (seg b)) g_init = (ta, st)).
    { rewrite (exec_lf _ _ nul); [exact Ee| |reflexivity]. rewrite Ee. exact Hl. }
    rewrite Ee2. cbn [fst snd]. f_equal. apply run_sim.
    destruct (exec_sc_lf (seg a) g_init nul) as [Hsc Hpg]; [rewrite Ee; exact Hl|reflexivity|].
    rewrite Ee in Hsc, Hpg. cbn [snd] in *.
    unfold sim. rewrite H1, Hsc, Hpg, H2, Hl, Hbal. cbn. repeat split; auto; lia.
  Qed.
End Compose.
