(** Proofs about semantic tokens. *)
From Coq Require Import String List NArith ZArith Bool Lia ZifyBool Arith.
From Verif Require Import Base Tokens Graphemes Tokenizer SpecTok TokenizerProofs TokenizerProofs2
  TokenizerRun TokenizerWitness SemTok SpecServer PropsTokenizer.
Import ListNotations.

Section Tiled.
  Variable width : str -> nat.
  Hypothesis width_le : forall v, width v <= length v.

  Lemma source_cons : forall t ts, source (t :: ts) = tok_src (tk t) ++ source ts.
  Proof. reflexivity. Qed.

  Lemma tiled_bounds : forall ts l c t, tiled width l c ts -> In t ts ->
    pline (lstart (tl t)) <= l + length (source ts) /\ pchar (lend (tl t)) <= c + length (source ts)
    /\ pchar (lstart (tl t)) <= pchar (lend (tl t)).
  Proof.
    induction ts as [|t0 ts IH]; intros l c t T I; [destruct I|].
    cbn [tiled] in T. destruct T as [T0 T]. rewrite source_cons, app_length.
    pose proof (width_le (tok_src (tk t0))) as W.
    set (w := width (tok_src (tk t0))) in *.
    destruct I as [<-|I].
    - rewrite T0. cbn. lia.
    - destruct (tk t0) eqn:K;
        match type of T with tiled _ ?l' ?c' _ => destruct (IH l' c' t T I) as (A & B & C) end;
        cbn [tok_src length] in *; lia.
  Qed.

  Lemma separate_decode : forall checks ts l c l' c',
    tiled width l' c' ts ->
    (N.of_nat (l' + length (source ts)) < 4294967296)%N ->
    (N.of_nat (c' + length (source ts)) < 4294967296)%N ->
    (l = l' /\ c <= c' \/ l < l') ->
    exists sts, separate_go checks (N.of_nat l) (N.of_nat c) ts = Ok sts
      /\ map fst (decode (N.of_nat l) (N.of_nat c) sts) = map span ts
      /\ map token_type sts = map (fun t => token_kind_to_type (tk t)) ts.
  Proof.
    intros checks. induction ts as [|t ts IH]; intros l c l' c' T Bl Bc P; [exists []; auto|].
    pose proof (tiled_bounds (t :: ts) l' c' t T (or_introl eq_refl)) as (_ & _ & _).
    cbn [tiled] in T. destruct T as [T0 T].
    rewrite source_cons, app_length in Bl, Bc.
    pose proof (width_le (tok_src (tk t))) as W.
    set (w := width (tok_src (tk t))) in *.
    cbn [separate_go]. rewrite T0. cbn [lstart lend pline pchar].
    unfold as_u32. rewrite (N.mod_small (N.of_nat l')) by lia. rewrite (N.mod_small (N.of_nat c')) by lia.
    unfold u32_sub, usize_sub, sub_mod.
    replace (N.of_nat l <=? N.of_nat l')%N with true by lia. cbn [bind].
    replace (N.of_nat c' <=? N.of_nat (c' + w))%N with true by lia.
    replace (N.of_nat (c' + w) - N.of_nat c')%N with (N.of_nat w) by lia.
    assert (R : exists sts, separate_go checks (N.of_nat l') (N.of_nat c') ts = Ok sts
      /\ map fst (decode (N.of_nat l') (N.of_nat c') sts) = map span ts
      /\ map token_type sts = map (fun t => token_kind_to_type (tk t)) ts).
    { destruct (tk t) eqn:K; cbn [tok_src length] in *;
        match type of T with tiled _ ?a ?b _ => apply (IH l' c' a b T); lia end. }
    destruct R as (sts & E & D & Ty).
    assert (Sp : span t = (N.of_nat l', N.of_nat c', N.of_nat w)).
    { unfold span. rewrite T0. cbn. f_equal. lia. }
    destruct (N.of_nat l' - N.of_nat l =? 0)%N eqn:Z.
    - replace (N.of_nat c <=? N.of_nat c')%N with true by lia. cbn [bind].
      rewrite E. cbn [bind]. eexists. split; [reflexivity|]. cbn [map decode delta_line delta_start].
      rewrite Z. cbn [fst sem_length token_type]. rewrite (N.mod_small (N.of_nat w)) by lia.
      replace (N.of_nat l + (N.of_nat l' - N.of_nat l))%N with (N.of_nat l') by lia.
      replace (N.of_nat c + (N.of_nat c' - N.of_nat c))%N with (N.of_nat c') by lia.
      rewrite Sp, D, Ty. split; reflexivity.
    - cbn [bind]. rewrite E. cbn [bind]. eexists. split; [reflexivity|].
      cbn [map decode delta_line delta_start].
      rewrite Z. cbn [fst sem_length token_type]. rewrite (N.mod_small (N.of_nat w)) by lia.
      replace (N.of_nat l + (N.of_nat l' - N.of_nat l))%N with (N.of_nat l') by lia.
      rewrite Sp, D, Ty. split; reflexivity.
  Qed.
End Tiled.

Lemma clusters_le : forall seg, seg_laws seg -> forall v, length (seg v) <= length v.
Proof.
  intros seg L v. rewrite <- (seg_concat seg L v) at 2.
  pose proof (seg_nonempty seg L v) as N. induction (seg v) as [|g gs IH]; cbn; [lia|].
  rewrite app_length. destruct g as [|x g]; [exfalso; apply N; left; reflexivity|].
  cbn. specialize (IH (fun I => N (or_intror I))). lia.
Qed.

Lemma semantic_tokens_decode : forall seg, seg_laws seg -> forall checks s ts,
  tokenize_str seg s = Ok ts -> (N.of_nat (length s) < 4294967296)%N ->
  exists sts, separate checks ts = Ok sts
    /\ map fst (decode 0 0 sts) = map span ts
    /\ map token_type sts = map (fun t => token_kind_to_type (tk t)) ts.
Proof.
  intros seg L checks s ts H B.
  destruct (tokenize_lossless seg L s ts H) as (rest & E & _).
  apply (separate_decode (fun v => length (seg v)) (clusters_le seg L) checks ts 0 0 0 0).
  - apply (C04_ranges_tile seg L s ts H).
  - rewrite E, app_length in B. lia.
  - rewrite E, app_length in B. lia.
  - left. lia.
Qed.

Lemma shown_type : forall k n, shown_as k = Some n ->
  nth_error legend (N.to_nat (token_kind_to_type k)) = Some n.
Proof. intros [] n H; cbn in H; try discriminate; injection H as <-; reflexivity. Qed.

Lemma hidden_type : forall k, shown_as k = None -> token_kind_to_type k = 100%N.
Proof. intros [] H; cbn in H; try discriminate; reflexivity. Qed.

(** Every answer contains a type outside the legend: that of the end of file. *)
Lemma always_outside : forall seg, seg_laws seg -> forall checks s ts sts,
  tokenize_str seg s = Ok ts -> (N.of_nat (length s) < 4294967296)%N ->
  separate checks ts = Ok sts -> exists t, In t sts /\ nth_error legend (N.to_nat (token_type t)) = None.
Proof.
  intros seg L checks s ts sts H B E.
  destruct (semantic_tokens_decode seg L checks s ts H B) as (sts' & E' & _ & Ty).
  rewrite E in E'. injection E' as <-.
  destruct (C02_single_final_eof seg L s ts H) as (bd & e & -> & _).
  rewrite map_app in Ty. cbn in Ty.
  assert (I : In 100%N (map token_type sts)) by (rewrite Ty; apply in_or_app; right; left; reflexivity).
  apply in_map_iff in I as (t & Et & I). exists t. split; [exact I|]. rewrite Et. reflexivity.
Qed.

(** * Columns *)

Lemma utf16_ascii : forall s, (forall c, In c s -> (c < 128)%N) -> utf16_length s = N.of_nat (length s).
Proof.
  induction s as [|c s IH]; intro H; [reflexivity|]. cbn [utf16_length fold_right length].
  fold (utf16_length s). rewrite IH by (intros; apply H; right; assumption).
  specialize (H c (or_introl eq_refl)). destruct (c <? 0x10000)%N eqn:E; lia.
Qed.

Lemma after_lf_in : forall s c, In c (after_lf s) -> In c s.
Proof.
  induction s as [|x s IH]; intros c I; [exact I|]. cbn [after_lf] in I.
  destruct (existsb (N.eqb 10) s); [right; apply IH; exact I|].
  destruct (N.eqb x 10); [right; exact I|exact I].
Qed.

Lemma source_app : forall a b, source (a ++ b) = source a ++ source b.
Proof. intros a b. unfold source. rewrite map_app, concat_app. reflexivity. Qed.

Lemma occurs_13 : forall s, (forall c, In c s -> c <> 13%N) -> ~ occurs [13; 10]%N s.
Proof.
  intros s H (a & b & ->). apply (H 13%N); [|reflexivity].
  apply in_or_app. right. left. reflexivity.
Qed.

Lemma utf16_columns : forall seg, seg_laws seg -> forall s ts,
  Forall (fun c => (c < 128)%N /\ c <> 13%N) s ->
  ~ occurs [10; 62]%N s -> ~ occurs [10; 125]%N s -> ~ occurs [10; 93]%N s ->
  tokenize_str seg s = Ok ts ->
  forall ts1 t ts2, ts = ts1 ++ t :: ts2 ->
  fst (span t) = utf16_position (source ts1).
Proof.
  intros seg L s ts A O1 O2 O3 H ts1 t ts2 E.
  rewrite Forall_forall in A.
  assert (P : lstart (tl t) = true_pos seg (source ts1)).
  { eapply tokenize_true_pos; try eassumption. apply occurs_13. intros c I. apply A in I. tauto. }
  destruct (tokenize_lossless seg L s ts H) as (rest & Es & _).
  assert (A1 : forall c, In c (source ts1) -> (c < 128)%N /\ c <> 13%N).
  { intros c I. apply A. rewrite Es, E, source_app. apply in_or_app. left. apply in_or_app. left. exact I. }
  unfold span, utf16_position. cbn [fst]. rewrite P. unfold true_pos. cbn [pline pchar].
  f_equal. rewrite utf16_ascii.
  - rewrite (seg_ascii seg L).
    + rewrite map_length. reflexivity.
    + apply Forall_forall. intros c I. apply A1, after_lf_in, I.
  - intros c I. apply after_lf_in in I. apply A1 in I. tauto.
Qed.

(** A text of one character outside the basic plane. *)
Lemma utf16_refuted : forall seg, seg_laws seg ->
  exists s ts ts1 t ts2, tokenize_str seg s = Ok ts /\ ts = ts1 ++ t :: ts2 /\ source ts1 = s
    /\ fst (span t) = (0%N, 1%N) /\ utf16_position (source ts1) = (0%N, 2%N).
Proof.
  intros seg L. exists [0x1D4B3%N].
  destruct (C01_tokenize_total seg L [0x1D4B3%N]) as (ts & H). exists ts.
  assert (K : map tk ts = [TkText [0x1D4B3%N]; TkEOF]).
  { apply (C07_plain_lines seg L [[0x1D4B3%N]] ts); [|exact H].
    intros l [<-|[]]. split.
    - intros c [<-|[]]. repeat split; try discriminate. vm_compute. intuition discriminate.
    - intros [|x l'] E; [discriminate|]. destruct l'; discriminate. }
  pose proof (C04_ranges_tile seg L _ ts H) as T.
  destruct ts as [|t1 [|t2 [|t3 ts]]]; cbn in K; try discriminate.
  injection K as K1 K2. cbn [tiled] in T. rewrite K1 in T. cbn [tok_src] in T.
  destruct T as (_ & T2 & _).
  assert (S1 : seg [0x1D4B3%N] = [[0x1D4B3%N]]).
  { pose proof (seg_concat seg L [0x1D4B3%N]) as C. pose proof (seg_nonempty seg L [0x1D4B3%N]) as N.
    destruct (seg [0x1D4B3%N]) as [|[|x g] gs]; [discriminate|exfalso; apply N; left; reflexivity|].
    cbn in C. injection C as -> C. destruct g; [|discriminate]. cbn in C.
    destruct gs as [|[|y g] gs]; [reflexivity|exfalso; apply N; right; left; reflexivity|discriminate]. }
  rewrite S1 in T2. cbn [length] in T2.
  exists [t1], t2, []. split; [exact H|]. split; [reflexivity|].
  assert (Sr : source [t1] = [0x1D4B3%N]) by (unfold source; cbn; rewrite K1; reflexivity).
  split; [exact Sr|]. split; [unfold span; rewrite T2; reflexivity|]. rewrite Sr. reflexivity.
Qed.
