(** Proofs about the tokenizer. *)
From Coq Require Import String List NArith ZArith Bool Lia Arith.
From Verif Require Import Base Tokens Graphemes Tokenizer TokenizerRun SpecTok.
Import ListNotations.

(** Classes of graphemes that may be inside a text or a module name. *)
Definition okcls (c : gcls) : bool :=
  match c with GOther | GSpace | GDot | GComma => true | _ => false end.
Definition closercls (c : gcls) : bool :=
  match c with GGt | GRBrace | GRBrack => true | _ => false end.

Definition cls_char (c : gcls) : N :=
  match c with
  | GBack => 92 | GLt => 60 | GGt => 62 | GLBrace => 123 | GRBrace => 125 | GLBrack => 91
  | GRBrack => 93 | GDot => 46 | GComma => 44 | GSpace => 32 | GNl => 10 | GNul => 0 | GOther => 1
  end%N.

Lemma cls_inv : forall g c, cls g = c -> c <> GOther -> g = [cls_char c].
Proof.
  intros g c H Hc. subst c.
  destruct g as [|x [|y g]]; cbn in *; try congruence.
  destruct x as [|p]; [reflexivity|].
  repeat (destruct p as [p|p|]; try reflexivity; try (exfalso; apply Hc; reflexivity)).
Qed.

(** What a token kind says about the graphemes [p] it was made of and the next one. *)
Definition valid (k : tkind) (p : list str) (g2 : str) : Prop :=
  match k with
  | TkText s | TkModule s => s = concat p /\ Forall (fun g => okcls (cls g) = true) p
  | TkIdent s => s = concat p /\ exists q g, p = q ++ [g] /\ Forall (fun g => okcls (cls g) = true) q /\
      cls g <> GBack /\ cls g <> GNul /\ (okcls (cls g) = true \/ closercls (cls g2) = true)
  | TkEmpty | TkEOF => False
  | k => p = [tok_src k]
  end.

Inductive cut : nat -> nat -> list str -> list token -> Prop :=
| cut_eof : forall l c gs, gs = [] \/ hd2 gs = nul -> cut l c gs [mktok TkEOF (span l c 0)]
| cut_tok : forall l c k p gs ts, p <> [] -> valid k p (hd2 gs) ->
    cut (if newline k then S l else l) (if newline k then 0 else c + length p) gs ts ->
    cut l c (p ++ gs) (mktok k (span l c (length p)) :: ts).

Lemma choose_text_ok : forall c c2 look nested, c <> GNul ->
  choose c c2 look nested = AText \/ choose c c2 look nested = AModule \/
  choose c c2 look nested = APush -> okcls c = true.
Proof. intros [] [] [] [] Hn [H|[H|H]]; try (exfalso; apply Hn; reflexivity); vm_compute in *; congruence. Qed.

Lemma choose_ident_ok : forall c c2 look nested, c <> GNul ->
  choose c c2 look nested = AIdent -> c <> GBack /\ (okcls c = true \/ closercls c2 = true).
Proof.
  intros [] [] [] [] Hn H; try (exfalso; apply Hn; reflexivity); vm_compute in H; try discriminate H;
    (split; [discriminate|]); (left; reflexivity) || (right; reflexivity).
Qed.

Lemma choose_single : forall c c2 look nested a,
  choose c c2 look nested = a ->
  match a with
  | ABack => c = GBack | AAngleO => c = GLt | AAngleC => c = GGt | ACurlyO => c = GLBrace
  | ACurlyC => c = GRBrace | ASquareO => c = GLBrack | ASquareC => c = GRBrack
  | ADot => c = GDot | AComma => c = GComma | ASpace => c = GSpace | ANl => c = GNl
  | _ => True
  end.
Proof. intros [] [] [] [] a <-; vm_compute; exact I || reflexivity. Qed.

Lemma run_cut : forall gs st, okp st (hd2 gs) -> Forall (fun g => okcls (cls g) = true) (g_pg st) ->
  cut (g_line st) (g_sc st) (g_pg st ++ gs) (run gs st).
Proof.
  induction gs as [|g gs IH]; intros st Hok Hpool.
  - cbn [run]. destruct Hok as [Hp|Hp]; [|discriminate Hp]. rewrite Hp. apply cut_eof; auto.
  - cbn [run]. destruct (gcls_eqb (cls g) GNul) eqn:En.
    + apply gcls_eqb_eq in En. cbn [hd2] in Hok.
      destruct Hok as [Hp|Hp]; [|rewrite En in Hp; discriminate Hp].
      rewrite Hp. apply cut_eof. right. apply cls_nul. exact En.
    + assert (Hn : cls g <> GNul) by (intro E; rewrite E in En; discriminate En).
      destruct (apply_arm (st_arm g (hd2 gs) st) g st) as [o st'] eqn:Ea.
      pose proof (step_ok _ _ _ _ _ Hok Ea) as Hok'.
      pose proof (step_pg g (hd2 gs) st Hok) as Hpg.
      unfold st_arm in *.
      pose proof (choose_single (cls g) (cls (hd2 gs)) (g_look st) (g_nested st) _ eq_refl) as Hs.
      pose proof (choose_text_ok (cls g) (cls (hd2 gs)) (g_look st) (g_nested st) Hn) as Ht.
      pose proof (choose_ident_ok (cls g) (cls (hd2 gs)) (g_look st) (g_nested st) Hn) as Hi.
      destruct (choose (cls g) (cls (hd2 gs)) (g_look st) (g_nested st)) eqn:Earm;
        cbn in Ea; injection Ea as <- <-;
        try (destruct Hpg as [Hpg|Hpg]; [discriminate Hpg|]);
        try (apply cls_inv in Hs; [|discriminate]; subst g; (try rewrite Hpg in Hok'); rewrite Hpg; cbn [app length] in Hok' |- *;
             match goal with |- cut ?l ?c (?x :: gs) (mktok ?k _ :: run gs ?s2) =>
               apply (cut_tok l c k [x] gs); [discriminate|reflexivity|];
               specialize (IH s2 Hok' (Forall_nil _)); exact IH end).
      * (* identifier *)
        destruct (Hi eq_refl) as [Hb Hc].
        replace (g_pg st ++ g :: gs) with ((g_pg st ++ [g]) ++ gs) by (rewrite <- app_assoc; reflexivity).
        replace (S (length (g_pg st))) with (length (g_pg st ++ [g])) by (rewrite app_length; cbn; lia).
        cbn [app]. apply cut_tok.
        -- intro E; apply app_eq_nil in E as [_ E]; discriminate E.
        -- cbn [valid arm_kind]. split; [reflexivity|]. exists (g_pg st), g; auto.
        -- cbn [newline arm_kind]. replace (length (g_pg st ++ [g])) with (S (length (g_pg st)))
             by (rewrite app_length; cbn; lia).
           specialize (IH _ Hok' (Forall_nil _)). exact IH.
      * replace (g_pg st ++ g :: gs) with ((g_pg st ++ [g]) ++ gs) by (rewrite <- app_assoc; reflexivity).
        replace (S (length (g_pg st))) with (length (g_pg st ++ [g])) by (rewrite app_length; cbn; lia).
        cbn [app]. apply cut_tok.
        -- intro E; apply app_eq_nil in E as [_ E]; discriminate E.
        -- cbn [valid arm_kind]. split; [reflexivity|]. apply Forall_app; split; auto.
        -- cbn [newline arm_kind]. replace (length (g_pg st ++ [g])) with (S (length (g_pg st)))
             by (rewrite app_length; cbn; lia).
           specialize (IH _ Hok' (Forall_nil _)). exact IH.
      * replace (g_pg st ++ g :: gs) with ((g_pg st ++ [g]) ++ gs) by (rewrite <- app_assoc; reflexivity).
        replace (S (length (g_pg st))) with (length (g_pg st ++ [g])) by (rewrite app_length; cbn; lia).
        cbn [app]. apply cut_tok.
        -- intro E; apply app_eq_nil in E as [_ E]; discriminate E.
        -- cbn [valid arm_kind]. split; [reflexivity|]. apply Forall_app; split; auto.
        -- cbn [newline arm_kind]. replace (length (g_pg st ++ [g])) with (S (length (g_pg st)))
             by (rewrite app_length; cbn; lia).
           specialize (IH _ Hok' (Forall_nil _)). exact IH.
      * cbn [app]. replace (g_pg st ++ g :: gs) with ((g_pg st ++ [g]) ++ gs) by (rewrite <- app_assoc; reflexivity).
        apply (IH _ Hok'). cbn [g_pg]. apply Forall_app; split; auto.
Qed.

Lemma cut_init : forall gs, cut 0 0 gs (run gs g_init).
Proof. intro gs. apply (run_cut gs g_init); [apply okp_init|constructor]. Qed.

Section Laws.
  Variable seg : str -> list str.
  Hypothesis L : seg_laws seg.

  Lemma tokenize_cut : forall s ts, tokenize_str seg s = Ok ts -> cut 0 0 (seg s) ts.
  Proof.
    intros s ts H. rewrite tokenize_run in H by exact L. injection H as <-. apply cut_init.
  Qed.

  (** C01 *)
  Lemma tokenize_total : forall s, exists ts, tokenize_str seg s = Ok ts.
  Proof. intro s. rewrite (tokenize_run seg L). eauto. Qed.

  (** C02 *)
  Lemma cut_eof_last : forall l c gs ts, cut l c gs ts ->
    exists body e, ts = body ++ [mktok TkEOF e] /\
      Forall (fun t => tk t <> TkEOF /\ tk t <> TkEmpty) body.
  Proof.
    induction 1 as [l c gs H|l c k p gs ts Hp Hv Hc (body & e & -> & Hb)].
    - exists [], (span l c 0). split; [reflexivity|constructor].
    - exists (mktok k (span l c (length p)) :: body), e. split; [reflexivity|].
      constructor; [|exact Hb]. cbn. split; intros ->; exact Hv.
  Qed.

  Lemma valid_src : forall k p g2, valid k p g2 -> tok_src k = concat p.
  Proof.
    intros k p g2 H. destruct k; cbn [valid tok_src] in *; try contradiction;
      try (subst p; reflexivity); apply H.
  Qed.

  Lemma cut_source : forall l c gs ts, cut l c gs ts ->
    exists rest, concat gs = source ts ++ concat rest /\ (rest = [] \/ hd2 rest = nul).
  Proof.
    induction 1 as [l c gs H|l c k p gs ts Hp Hv Hc (rest & E & Hr)].
    - exists gs. split; [reflexivity|exact H].
    - exists rest. split; [|exact Hr].
      unfold source in *. cbn [map concat tk]. rewrite concat_app, E, app_assoc.
      rewrite (valid_src _ _ _ Hv). reflexivity.
  Qed.

  Lemma cut_src_nonul : forall l c gs ts, cut l c gs ts ->
    (forall g, In g gs -> In NUL g -> g = [NUL]) -> ~ In NUL (source ts).
  Proof.
    induction 1 as [l c gs H|l c k p gs ts Hp Hv Hc IH]; intros Hg.
    - intros [].
    - unfold source. cbn [map concat tk]. intro Hin. apply in_app_or in Hin as [Hin|Hin].
      + rewrite (valid_src _ _ _ Hv) in Hin. apply in_concat in Hin as (g & Hgp & Hn).
        assert (g = [NUL]) by (apply Hg; [apply in_or_app; auto|auto]). subst g.
        destruct k; cbn [valid] in Hv; try contradiction;
          try (subst p; destruct Hgp as [E|[]]; discriminate E);
          try (destruct Hv as [_ Hv]; rewrite Forall_forall in Hv; apply Hv in Hgp; discriminate Hgp).
        destruct Hv as (_ & q & g & -> & Hq & Hb & Hnn & _).
        apply in_app_or in Hgp as [Hgp|[->|[]]].
        * rewrite Forall_forall in Hq. apply Hq in Hgp. discriminate Hgp.
        * apply Hnn. reflexivity.
      + apply IH; auto. intros g Hi. apply Hg. apply in_or_app; auto.
  Qed.

  (** C03 *)
  Lemma tokenize_lossless : forall s ts, tokenize_str seg s = Ok ts ->
    exists rest, s = source ts ++ rest /\ (rest = [] \/ exists r, rest = NUL :: r) /\
      ~ In NUL (source ts).
  Proof.
    intros s ts H. apply tokenize_cut in H.
    pose proof (cut_source _ _ _ _ H) as (rest & E & Hr).
    rewrite (seg_concat seg L) in E. exists (concat rest). split; [exact E|]. split.
    - destruct Hr as [->|Hr]; [left; reflexivity|]. destruct rest as [|g rest]; [left; reflexivity|].
      cbn [hd2] in Hr. subst g. right. exists (concat rest). reflexivity.
    - eapply cut_src_nonul; [exact H|]. apply (seg_nul seg L).
  Qed.

  Lemma tokenize_lossless_nonul : forall s ts, tokenize_str seg s = Ok ts -> ~ In NUL s -> source ts = s.
  Proof.
    intros s ts H Hn. apply tokenize_lossless in H as (rest & E & [->|(r & ->)] & _).
    - rewrite app_nil_r in E. auto.
    - exfalso. apply Hn. rewrite E. apply in_or_app. right; left; reflexivity.
  Qed.

  (** C04 *)
  Lemma seg_suffix : forall pre s gs, seg s = pre ++ gs -> seg (concat gs) = gs.
  Proof.
    induction pre as [|g pre IH]; intros s gs H.
    - cbn [app] in H. rewrite <- H, (seg_concat seg L). reflexivity.
    - cbn [app] in H. apply (seg_tail seg L) in H. eapply IH; eauto.
  Qed.

  Lemma seg_mid : forall s a p b, seg s = a ++ p ++ b -> seg (concat p) = p.
  Proof.
    intros s a p b H. apply seg_suffix in H. eapply (seg_prefix seg L); eauto.
  Qed.

  Lemma cut_tiled : forall l c gs ts, cut l c gs ts ->
    seg (concat gs) = gs -> tiled (fun s => length (seg s)) l c ts.
  Proof.
    induction 1 as [l c gs H|l c k p gs ts Hp Hv Hc IH]; intros Hg.
    - cbn. rewrite (seg_nil seg L). cbn. split; [reflexivity|exact I].
    - cbn [tiled tk tl]. rewrite (valid_src _ _ _ Hv).
      assert (Ep : seg (concat p) = p) by (eapply (seg_mid _ [] p gs); exact Hg).
      rewrite Ep. split; [reflexivity|].
      assert (Hgs : seg (concat gs) = gs) by (eapply (seg_suffix p); exact Hg).
      specialize (IH Hgs). destruct k; exact IH.
  Qed.

  Lemma tokenize_tiled : forall s ts, tokenize_str seg s = Ok ts ->
    tiled (fun s => length (seg s)) 0 0 ts.
  Proof.
    intros s ts H. apply tokenize_cut in H. eapply cut_tiled; [exact H|].
    rewrite (seg_concat seg L). reflexivity.
  Qed.
End Laws.
