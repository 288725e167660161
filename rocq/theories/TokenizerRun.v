(** A list machine equivalent to [dispatch], used only in proofs. *)
From Coq Require Import String List NArith ZArith Bool Lia Arith.
From Verif Require Import Base Tokens Graphemes Tokenizer.
Import ListNotations.

Record gst := mkG {
  g_line : nat;
  g_sc : nat;            (* start column of the pending token *)
  g_pg : list str;       (* graphemes in the pool *)
  g_a : Z; g_s : Z; g_c : Z;
  g_look : bool
}.

Definition g_init : gst := mkG 0 0 [] 0 0 0 false.

Definition hd2 (gs : list str) : str := match gs with [] => nul | g :: _ => g end.

Definition g_nested (st : gst) : bool := (g_a st + g_c st + g_s st >? 0)%Z.

Definition arm_kind (a : arm) (s : str) : tkind :=
  match a with
  | ABack => TkBackSlash | AIdent => TkIdent s | AAngleO => TkAngleOpen | AAngleC => TkAngleClose
  | ACurlyO => TkCurlyOpen | ACurlyC => TkCurlyClose | ASquareO => TkSquareOpen
  | ASquareC => TkSquareClose | ADot => TkDot | AComma => TkComma | ASpace => TkWhiteSpace
  | ANl => TkNewLine | AModule => TkModule s | AText => TkText s | APush => TkEmpty
  end.

Definition arm_a (a : arm) : Z := match a with AAngleO => 1 | AAngleC => -1 | _ => 0 end.
Definition arm_s (a : arm) : Z := match a with ASquareO => 1 | ASquareC => -1 | _ => 0 end.
Definition arm_c (a : arm) : Z := match a with ACurlyO => 1 | ACurlyC => -1 | _ => 0 end.
Definition arm_look (a : arm) (b : bool) : bool :=
  match a with AIdent => false | AAngleO | ASquareO | ACurlyO => true | _ => b end.

Definition span (l c w : nat) : loc := mkloc (mkpos l c) (mkpos l (c + w)).

Definition apply_arm (a : arm) (g : str) (st : gst) : list token * gst :=
  match a with
  | APush => ([], mkG (g_line st) (g_sc st) (g_pg st ++ [g]) (g_a st) (g_s st) (g_c st) (g_look st))
  | _ =>
    let w := S (length (g_pg st)) in
    ([mktok (arm_kind a (concat (g_pg st ++ [g]))) (span (g_line st) (g_sc st) w)],
     mkG (match a with ANl => S (g_line st) | _ => g_line st end)
         (match a with ANl => 0 | _ => g_sc st + w end)
         [] (g_a st + arm_a a) (g_s st + arm_s a) (g_c st + arm_c a) (arm_look a (g_look st)))
  end.

Definition st_arm (g g2 : str) (st : gst) : arm :=
  choose (cls g) (cls g2) (g_look st) (g_nested st).

Fixpoint run (gs : list str) (st : gst) : list token :=
  match gs with
  | [] => [mktok TkEOF (span (g_line st) (g_sc st) 0)]
  | g :: gs' =>
    if gcls_eqb (cls g) GNul then [mktok TkEOF (span (g_line st) (g_sc st) 0)]
    else let (o, st') := apply_arm (st_arm g (hd2 gs') st) g st in o ++ run gs' st'
  end.

(** A grapheme class that can follow a pooled grapheme. *)
Definition plainc (c : gcls) (look nested : bool) : bool :=
  match c with
  | GOther => true
  | GSpace | GDot => negb look && negb nested
  | GComma => negb nested
  | _ => false
  end.

Definition okp (st : gst) (g : str) : Prop :=
  g_pg st = [] \/ plainc (cls g) (g_look st) (g_nested st) = true.

Definition textlike (a : arm) : bool :=
  match a with AIdent | AModule | AText | APush => true | _ => false end.

Lemma okp_init : forall g, okp g_init g.
Proof. left; reflexivity. Qed.

Lemma choose_plain : forall c c2 look nested,
  plainc c look nested = true -> textlike (choose c c2 look nested) = true.
Proof. intros [] [] [] []; vm_compute; intro; congruence. Qed.

Lemma choose_push : forall c c2 look nested,
  choose c c2 look nested = APush -> plainc c2 look nested = true.
Proof. intros [] [] [] []; vm_compute; intro; congruence. Qed.

Lemma step_ok : forall g g2 st o st', okp st g ->
  apply_arm (st_arm g g2 st) g st = (o, st') -> okp st' g2.
Proof.
  intros g g2 st o st' Hok H. unfold st_arm in H.
  destruct (choose (cls g) (cls g2) (g_look st) (g_nested st)) eqn:E; cbn in H;
    injection H as <- <-; try (left; reflexivity).
  right. apply choose_push in E. exact E.
Qed.

Lemma step_pg : forall g g2 st, okp st g ->
  textlike (st_arm g g2 st) = true \/ g_pg st = [].
Proof.
  intros g g2 st [H|H]; [right; exact H|left; apply choose_plain; exact H].
Qed.

Lemma cls_nul : forall g, cls g = GNul <-> g = nul.
Proof.
  intro g; split; [|intros ->; reflexivity].
  destruct g as [|c [|d g]]; cbn; try discriminate.
  destruct c as [|p]; [reflexivity|].
  repeat (destruct p as [p|p|]; try discriminate).
Qed.

Lemma gcls_eqb_eq : forall a b, gcls_eqb a b = true <-> a = b.
Proof. intros [] []; cbn; split; intro; congruence. Qed.

Lemma is_nul_eq : forall g, gcls_eqb (cls g) GNul = true <-> g = nul.
Proof. intro g; rewrite gcls_eqb_eq; apply cls_nul. Qed.

(** Concrete tokenizer state of a machine state. *)
Definition conc (st : gst) (toks : list token) (s : str) : tokenizer :=
  mkT (Some (g_line st)) (Some (g_sc st + length (g_pg st))) (Some (g_line st)) (Some (g_sc st))
      (Some s) (Some (concat (g_pg st))) (Some toks)
      (Some (g_a st)) (Some (g_s st)) (Some (g_c st)) (Some (g_look st)).

Lemma concat_cons : forall (g : str) gs, concat (g :: gs) = g ++ concat gs.
Proof. reflexivity. Qed.

Section Equiv.
  Variable seg : str -> list str.
  Hypothesis L : seg_laws seg.

  Lemma separate_cons : forall s g gs, seg s = g :: gs -> separate seg s = (g, concat gs).
  Proof. intros s g gs H. unfold separate. rewrite H. destruct gs; reflexivity. Qed.

  Lemma separate_hd : forall s, fst (separate seg s) = hd2 (seg s).
  Proof. intro s. unfold separate. destruct (seg s) as [|g [|g' gs]]; reflexivity. Qed.

  (** One call on a concrete state, whatever the recursive call is. *)
  Lemma step_conc : forall k g gs st toks s, seg s = g :: gs -> okp st g -> gcls_eqb (cls g) GNul = false ->
    dispatch_step seg k (conc st toks s) =
    let (o, st') := apply_arm (st_arm g (hd2 gs) st) g st in k (conc st' (toks ++ o) (concat gs)).
  Proof.
    intros k g gs st toks s Hs Hok En.
    pose proof (separate_cons _ _ _ Hs) as Hsep.
    assert (Htl : seg (concat gs) = gs) by (eapply seg_tail; eauto).
    unfold dispatch_step. cbn [conc t_untreated t_pool t_column ok_or bind].
    rewrite Hsep, En.
    pose proof (separate_hd (concat gs)) as Hh2. rewrite Htl in Hh2.
    destruct (separate seg (concat gs)) as [h2 tl2]. cbn [fst] in Hh2. subst h2.
    cbn [t_angle t_curly t_square t_look ok_or bind].
    destruct (apply_arm (st_arm g (hd2 gs) st) g st) as [o st'] eqn:Ea.
    pose proof (step_pg g (hd2 gs) st Hok) as Hpg.
    destruct (st_arm g (hd2 gs) st) eqn:Earm; cbn in Ea; injection Ea as <- <-;
    unfold st_arm, g_nested in Earm;
    cbn [conc t_angle t_curly t_square t_look ok_or bind]; rewrite Earm; clear Earm;
    unfold text_tokenize, identifier_tokenize, module_tokenize, newline_tokenize,
      backslash_tokenize, angle_open_tokenize, angle_close_tokenize, curly_open_tokenize,
      curly_close_tokenize, square_open_tokenize, square_close_tokenize,
      dot_tokenize, comma_tokenize, whitespace_tokenize, single_tokenize;
    cbn [conc t_untreated t_pool t_column t_tokens t_line t_start_line t_start_column
         t_angle t_curly t_square t_look ok_or bind]; rewrite ?Hsep;
    cbn [conc t_untreated t_pool t_column t_tokens t_line t_start_line t_start_column
         t_angle t_curly t_square t_look ok_or bind];
    unfold merge;
    cbn [conc t_untreated t_pool t_column t_tokens t_line t_start_line t_start_column
         t_angle t_curly t_square t_look or_self];
    try (destruct Hpg as [Hpg|Hpg]; [discriminate Hpg|]);
    unfold conc; cbn [g_line g_sc g_pg g_a g_s g_c g_look];
    rewrite ?concat_app; cbn [concat arm_kind];
    rewrite ?app_nil_r, ?app_length; cbn [length];
    rewrite ?Hpg; cbn [concat app length];
    rewrite ?Z.add_0_r, ?Nat.add_0_r, ?Z.sub_1_r, ?Nat.add_1_r, ?Nat.add_succ_r;
    unfold span, unit_loc; rewrite ?Nat.add_0_r, ?Nat.add_1_r, ?Nat.add_succ_r, ?Nat.add_0_r;
    try reflexivity.
  Qed.

  Lemma step_nul : forall k gs st toks s, seg s = gs -> okp st (hd2 gs) -> gcls_eqb (cls (hd2 gs)) GNul = true ->
    dispatch_step seg k (conc st toks s) = Ok (toks ++ [mktok TkEOF (span (g_line st) (g_sc st) 0)]).
  Proof.
    intros k gs st toks s Hs Hok En. unfold dispatch_step. cbn [conc t_untreated t_pool t_column ok_or bind].
    pose proof (separate_hd s) as Hh. rewrite Hs in Hh. destruct (separate seg s) as [h tl2]. cbn [fst] in Hh. subst h.
    rewrite En. cbn [t_tokens t_line t_column ok_or bind].
    destruct Hok as [Hp|Hp].
    - rewrite Hp. unfold span. cbn [length]. rewrite !Nat.add_0_r. reflexivity.
    - apply gcls_eqb_eq in En. rewrite En in Hp. discriminate Hp.
  Qed.

  Lemma dispatch_run : forall gs fuel st toks s,
    seg s = gs -> length gs < fuel -> okp st (hd2 gs) ->
    dispatch seg fuel (conc st toks s) = Ok (toks ++ run gs st).
  Proof.
    induction gs as [|g gs IH]; intros fuel st toks s Hs Hf Hok;
      (destruct fuel as [|fuel]; [lia|]); cbn [dispatch run].
    - exact (step_nul _ [] st toks s Hs Hok eq_refl).
    - cbn [hd2] in Hok. destruct (gcls_eqb (cls g) GNul) eqn:En; [exact (step_nul _ _ st toks s Hs Hok En)|].
      rewrite (step_conc _ _ _ _ _ _ Hs Hok En).
      destruct (apply_arm (st_arm g (hd2 gs) st) g st) as [o st'] eqn:Ea.
      rewrite IH; [rewrite app_assoc; reflexivity|eapply seg_tail; eauto|cbn in Hf; lia|eapply step_ok; eauto].
  Qed.

  Lemma length_seg : forall s, length (seg s) <= length s.
  Proof.
    intro s. pose proof (seg_nonempty seg L s) as Hne. rewrite <- (seg_concat seg L s) at 2.
    induction (seg s) as [|g gs IH]; [auto|].
    cbn [concat length]. rewrite app_length.
    destruct g; [exfalso; apply Hne; left; reflexivity|].
    cbn [length]. assert (~ In [] gs) by (intro; apply Hne; right; auto).
    specialize (IH H). lia.
  Qed.

  Theorem tokenize_run : forall s, tokenize_str seg s = Ok (run (seg s) g_init).
  Proof.
    intro s. unfold tokenize_str.
    change (t_start s) with (conc g_init [] s).
    rewrite (dispatch_run (seg s)); auto.
    - pose proof (length_seg s). lia.
    - apply okp_init.
  Qed.
End Equiv.
