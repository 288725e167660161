(** The extended grapheme cluster rules of UAX #29 (Unicode 16, as implemented by
    unicode-segmentation 1.12.0, the version in /repo/Cargo.lock) as a left-to-right machine,
    and the proof that they satisfy [seg_laws].

    This file models the external crate's documented behaviour, not its code. The character
    property table [cl] is a parameter; only its values on ASCII are constrained. *)
From Coq Require Import List NArith Bool Lia.
From Verif Require Import Base Graphemes.
Import ListNotations.

(** Grapheme_Cluster_Break, refined by Extended_Pictographic and Indic_Conjunct_Break. *)
Inductive gcb :=
| BOther | BCR | BLF | BControl | BExtend | BInExtend | BLinker | BZWJ | BPrepend | BSpacing
| BL | BV | BT | BLV | BLVT | BRI | BPict | BConsonant.

Inductive emo := ENone | EPict | EZwj.
Inductive con := CNone | CCons | CLinked.
Record ust := mkU { u_prev : gcb; u_ri : bool; u_emo : emo; u_con : con }.

(** State after the first character of a cluster. *)
Definition u_start (c : gcb) : ust :=
  mkU c (match c with BRI => true | _ => false end)
        (match c with BPict => EPict | _ => ENone end)
        (match c with BConsonant => CCons | _ => CNone end).

(** State after one more character of the same cluster. *)
Definition u_next (st : ust) (c : gcb) : ust :=
  mkU c
      (match c with BRI => negb (u_ri st) | _ => false end)
      (match c, u_emo st with
       | BPict, _ => EPict
       | (BExtend | BInExtend | BLinker), EPict => EPict
       | BZWJ, EPict => EZwj
       | _, _ => ENone
       end)
      (match c, u_con st with
       | BConsonant, _ => CCons
       | (BInExtend | BZWJ), x => x
       | BLinker, CCons => CLinked
       | BLinker, x => x
       | _, _ => CNone
       end).

(** Is there a boundary before [c]? Rules GB3-GB999 in order. *)
Definition u_brk (st : ust) (c : gcb) : bool :=
  match u_prev st, c with
  | BCR, BLF => false                                        (* GB3 *)
  | (BControl | BCR | BLF), _ => true                        (* GB4 *)
  | _, (BControl | BCR | BLF) => true                        (* GB5 *)
  | BL, (BL | BV | BLV | BLVT) => false                      (* GB6 *)
  | (BLV | BV), (BV | BT) => false                           (* GB7 *)
  | (BLVT | BT), BT => false                                 (* GB8 *)
  | _, (BExtend | BInExtend | BLinker | BZWJ | BSpacing) => false  (* GB9, GB9a *)
  | BPrepend, _ => false                                     (* GB9b *)
  | _, BConsonant => match u_con st with CLinked => false | _ => true end  (* GB9c *)
  | _, BPict => match u_emo st with EZwj => false | _ => true end          (* GB11 *)
  | _, BRI => negb (u_ri st)                                 (* GB12, GB13 *)
  | _, _ => true                                             (* GB999 *)
  end.

(** The table agrees with Unicode on ASCII, and only U+000D / U+000A are CR / LF. *)
Record ascii_table (cl : N -> gcb) : Prop := {
  cl_cr : forall c, cl c = BCR <-> c = CR;
  cl_lf : forall c, cl c = BLF <-> c = LF;
  cl_nul : cl NUL = BControl;
  cl_ascii : forall c, (c < 128)%N -> c <> CR -> c <> LF -> cl c = BControl \/ cl c = BOther
}.

Section Seg.
  Variable cl : N -> gcb.

  Fixpoint go (acc : str) (st : ust) (s : str) : list str :=
    match s with
    | [] => [acc]
    | c :: s' =>
      if u_brk st (cl c) then acc :: go [c] (u_start (cl c)) s'
      else go (acc ++ [c]) (u_next st (cl c)) s'
    end.

  Definition useg (s : str) : list str :=
    match s with [] => [] | c :: s' => go [c] (u_start (cl c)) s' end.

  Lemma go_concat : forall s acc st, concat (go acc st s) = acc ++ s.
  Proof.
    induction s as [|c s IH]; intros acc st; cbn [go].
    - cbn. rewrite app_nil_r. reflexivity.
    - destruct (u_brk st (cl c)).
      + cbn [concat]. rewrite IH. reflexivity.
      + rewrite IH, <- app_assoc. reflexivity.
  Qed.

  Lemma useg_concat : forall s, concat (useg s) = s.
  Proof. intros [|c s]; [reflexivity|]. cbn [useg]. rewrite go_concat. reflexivity. Qed.

  Lemma go_nonempty : forall s acc st, acc <> [] -> ~ In [] (go acc st s).
  Proof.
    induction s as [|c s IH]; intros acc st Ha; cbn [go].
    - intros [E|[]]. contradiction.
    - destruct (u_brk st (cl c)).
      + intros [E|H]; [contradiction|]. revert H. apply IH. discriminate.
      + apply IH. intro E. apply app_eq_nil in E as [_ E]. discriminate E.
  Qed.

  Lemma go_tail : forall s acc st g gs, go acc st s = g :: gs -> useg (concat gs) = gs.
  Proof.
    induction s as [|c s IH]; intros acc st g gs H; cbn [go] in H.
    - injection H as <- <-. reflexivity.
    - destruct (u_brk st (cl c)).
      + injection H as <- <-. rewrite go_concat. reflexivity.
      + eapply IH; exact H.
  Qed.

  Lemma go_prefix : forall s acc st gs1 gs2, gs1 <> [] -> go acc st s = gs1 ++ gs2 ->
    exists s', concat gs1 = acc ++ s' /\ go acc st s' = gs1.
  Proof.
    induction s as [|c s IH]; intros acc st gs1 gs2 Hne H; cbn [go] in H.
    - destruct gs1 as [|g gs1]; [congruence|]. injection H as <- H.
      destruct gs1; [|discriminate H]. exists []. split; reflexivity.
    - destruct (u_brk st (cl c)) eqn:E.
      + destruct gs1 as [|g gs1]; [congruence|]. injection H as <- H.
        destruct gs1 as [|g1 gs1].
        * exists []. split; reflexivity.
        * destruct (IH _ _ (g1 :: gs1) gs2 ltac:(discriminate) H) as (s' & H1 & H2).
          exists (c :: s'). split.
          -- cbn [concat] in *. rewrite H1. reflexivity.
          -- cbn [go]. rewrite E, H2. reflexivity.
      + destruct (IH _ _ gs1 gs2 Hne H) as (s' & H1 & H2).
        exists (c :: s'). split.
        * rewrite H1, <- app_assoc. reflexivity.
        * cbn [go]. rewrite E. exact H2.
  Qed.

  Hypothesis T : ascii_table cl.

  Lemma u_brk_lf : forall st c, u_prev st = BLF -> u_brk st c = true.
  Proof. intros st c H. unfold u_brk. rewrite H. destruct c; reflexivity. Qed.

  Lemma u_brk_control : forall st c, u_prev st = BControl -> u_brk st c = true.
  Proof. intros st c H. unfold u_brk. rewrite H. destruct c; reflexivity. Qed.

  Lemma u_brk_before_control : forall st, u_brk st BControl = true.
  Proof. intros st. unfold u_brk. destruct (u_prev st); reflexivity. Qed.

  Lemma u_brk_before_cr : forall st, u_brk st BCR = true.
  Proof. intros st. unfold u_brk. destruct (u_prev st); reflexivity. Qed.

  Lemma u_brk_before_lf : forall st, u_brk st BLF = false -> u_prev st = BCR.
  Proof. intros st. unfold u_brk. destruct (u_prev st); intro; congruence. Qed.

  Lemma u_brk_cr : forall st c, u_prev st = BCR -> u_brk st c = false -> c = BLF.
  Proof. intros st c H. unfold u_brk. rewrite H. destruct c; intro; congruence. Qed.

  Lemma go_lf : forall a acc st b, go acc st ((a ++ [LF]) ++ b) = go acc st (a ++ [LF]) ++ useg b.
  Proof.
    assert (Hb : forall acc st b, u_prev st = BLF -> go acc st b = acc :: useg b).
    { intros acc st [|c b] H; [reflexivity|]. cbn [go]. rewrite u_brk_lf by exact H. reflexivity. }
    assert (El : cl LF = BLF) by (apply (cl_lf cl T); reflexivity).
    induction a as [|c a IH]; intros acc st b; cbn [app go].
    - rewrite El. destruct (u_brk st BLF); rewrite ?(Hb [LF]), ?(Hb (acc ++ [LF])); reflexivity.
    - destruct (u_brk st (cl c)); rewrite IH; reflexivity.
  Qed.

  Definition good (acc : str) (st : ust) : Prop :=
    (exists a c, acc = a ++ [c] /\ u_prev st = cl c) /\
    (u_prev st = BCR -> acc = [CR]) /\
    (In LF acc -> acc = [LF] \/ acc = [CR; LF]) /\
    (In LF acc -> u_prev st = BLF) /\
    (In NUL acc -> acc = [NUL]).

  Lemma good_start : forall c, good [c] (u_start (cl c)).
  Proof.
    intro c. split; [exists [], c; auto|]. cbn [u_start u_prev]. split.
    - intro H. apply (cl_cr cl T) in H. congruence.
    - split; [|split]; intros [E|[]]; subst; auto.
      apply (cl_lf cl T). reflexivity.
  Qed.

  Lemma good_next : forall acc st c, good acc st -> u_brk st (cl c) = false ->
    good (acc ++ [c]) (u_next st (cl c)).
  Proof.
    intros acc st c ((a & d & Ea & Ep) & H1 & H2 & H3 & H4) Hb.
    split; [exists acc, c; auto|]. cbn [u_next u_prev].
    assert (Hprev : u_prev st <> BLF) by (intro E; rewrite u_brk_lf in Hb; congruence).
    split; [|split; [|split]].
    - intro H. rewrite H, u_brk_before_cr in Hb. discriminate Hb.
    - intro H. apply in_app_or in H as [H|[->|[]]].
      + apply H3 in H. contradiction.
      + right. assert (El : cl LF = BLF) by (apply (cl_lf cl T); reflexivity).
        rewrite El in Hb. apply u_brk_before_lf in Hb. rewrite (H1 Hb). reflexivity.
    - intro H. apply in_app_or in H as [H|[->|[]]].
      + apply H3 in H. contradiction.
      + apply (cl_lf cl T). reflexivity.
    - intro H. apply in_app_or in H as [H|[->|[]]].
      + apply H4 in H. rewrite H in Ea.
        change [NUL] with ([] ++ [NUL]) in Ea. apply app_inj_tail in Ea as [_ <-].
        rewrite (cl_nul cl T) in Ep. rewrite u_brk_control in Hb by exact Ep. discriminate Hb.
      + rewrite (cl_nul cl T), u_brk_before_control in Hb. discriminate Hb.
  Qed.

  Lemma go_good : forall s acc st, good acc st ->
    forall g, In g (go acc st s) ->
    (In LF g -> g = [LF] \/ g = [CR; LF]) /\ (In NUL g -> g = [NUL]).
  Proof.
    induction s as [|c s IH]; intros acc st Hg g Hin; cbn [go] in Hin.
    - destruct Hin as [<-|[]]. destruct Hg as (_ & _ & ? & _ & ?). auto.
    - destruct (u_brk st (cl c)) eqn:Hb.
      + destruct Hin as [<-|Hin].
        * destruct Hg as (_ & _ & ? & _ & ?). auto.
        * eapply IH; [apply good_start|exact Hin].
      + eapply IH; [apply good_next; eauto|exact Hin].
  Qed.

  Lemma ascii_cls : forall c, (c < 128)%N /\ c <> CR -> cl c = BControl \/ cl c = BOther \/ cl c = BLF.
  Proof.
    intros c [H1 H2]. destruct (N.eq_dec c LF) as [->|H3].
    - right; right. apply (cl_lf cl T). reflexivity.
    - destruct (cl_ascii cl T c H1 H2 H3); auto.
  Qed.

  Lemma go_ascii : forall s c, ((c < 128)%N /\ c <> CR) -> Forall (fun c => (c < 128)%N /\ c <> CR) s ->
    go [c] (u_start (cl c)) s = [c] :: map (fun c => [c]) s.
  Proof.
    induction s as [|d s IH]; intros c Hc Hs; [reflexivity|].
    inversion Hs as [|? ? Hd Hs']; subst. cbn [go].
    assert (Hb : u_brk (u_start (cl c)) (cl d) = true).
    { destruct (ascii_cls c Hc) as [E|[E|E]], (ascii_cls d Hd) as [E'|[E'|E']];
        rewrite E, E'; reflexivity. }
    rewrite Hb, IH by assumption. reflexivity.
  Qed.

  Theorem useg_laws : seg_laws useg.
  Proof.
    constructor.
    - apply useg_concat.
    - intros [|c s]; [intros []|]. apply go_nonempty. discriminate.
    - intros [|c s] g gs H; [discriminate H|]. eapply go_tail; exact H.
    - intros s gs1 gs2 H. destruct gs1 as [|g gs1]; [reflexivity|].
      destruct s as [|c s]; [discriminate H|]. cbn [useg] in H.
      destruct (go_prefix _ _ _ (g :: gs1) gs2 ltac:(discriminate) H) as (s' & E1 & E2).
      rewrite E1. cbn [app useg]. exact E2.
    - intros [|c a] b.
      + assert (El : cl LF = BLF) by (apply (cl_lf cl T); reflexivity).
        cbn [app useg go]. destruct b as [|d b]; [reflexivity|]. cbn [go].
        rewrite u_brk_lf; [reflexivity|]. exact El.
      + cbn [app useg]. apply go_lf.
    - intros [|c s] g Hg Hl; [destruct Hg|]. eapply go_good; [apply good_start|exact Hg|exact Hl].
    - intros [|c s] g Hg Hl; [destruct Hg|]. eapply go_good; [apply good_start|exact Hg|exact Hl].
    - intros [|c s] H; [reflexivity|]. inversion H; subst. cbn [useg map]. apply go_ascii; assumption.
  Qed.
End Seg.

(** A concrete table: ASCII exactly, some non-ASCII samples of each kind, everything else [BOther].
    It makes the laws non-vacuous and is the segmenter used in computed examples. *)
Definition sample_table (c : N) : gcb :=
  (if c =? 13 then BCR else if c =? 10 then BLF
   else if (c <? 32) || ((127 <=? c) && (c <? 160)) then BControl
   else if (0x300 <=? c) && (c <=? 0x36F) then BInExtend
   else if c =? 0x200D then BZWJ
   else if (0x1F1E6 <=? c) && (c <=? 0x1F1FF) then BRI
   else if (0x1F300 <=? c) && (c <=? 0x1FAFF) then BPict
   else BOther)%N.

Lemma sample_table_ok : ascii_table sample_table.
Proof.
  constructor.
  - intro c. unfold sample_table. split; [|intros ->; reflexivity].
    destruct (N.eqb_spec c 13); [auto|]. repeat match goal with |- context [if ?b then _ else _] => destruct b end; discriminate.
  - intro c. unfold sample_table. split; [|intros ->; reflexivity].
    destruct (N.eqb_spec c 13); [discriminate|]. destruct (N.eqb_spec c 10); [auto|].
    repeat match goal with |- context [if ?b then _ else _] => destruct b end; discriminate.
  - reflexivity.
  - intros c Hc H1 H2. unfold sample_table.
    destruct (N.eqb_spec c 13); [contradiction|]. destruct (N.eqb_spec c 10); [contradiction|].
    destruct ((c <? 32) || ((127 <=? c) && (c <? 160)))%N; [left; reflexivity|].
    replace (0x300 <=? c)%N with false by (symmetry; apply N.leb_gt; lia).
    replace (c =? 0x200D)%N with false by (symmetry; apply N.eqb_neq; lia).
    replace (0x1F1E6 <=? c)%N with false by (symmetry; apply N.leb_gt; lia).
    replace (0x1F300 <=? c)%N with false by (symmetry; apply N.leb_gt; lia).
    right; reflexivity.
Qed.

Definition gseg : str -> list str := useg sample_table.
Definition gseg_laws : seg_laws gseg := useg_laws sample_table sample_table_ok.

(** Flags, a family emoji, an accented letter and CRLF are single clusters. *)
Example gseg_demo :
  gseg [97; 0x301; 13; 10; 0x1F1EF; 0x1F1F5; 0x1F1EF; 0x1F469; 0x200D; 0x1F467; 91]%N =
  [[97; 0x301]; [13; 10]; [0x1F1EF; 0x1F1F5]; [0x1F1EF]; [0x1F469; 0x200D; 0x1F467]; [91]]%N.
Proof. vm_compute. reflexivity. Qed.
