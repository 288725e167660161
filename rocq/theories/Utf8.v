(** UTF-8, as used by [std::str::from_utf8] and [str::as_bytes]: the well-formed byte
    sequences of the Unicode standard, table 3-7. This is the standard library of Rust,
    not the source of brack; it is modelled because server.rs works on bytes. *)
From Coq Require Import List NArith ZArith Bool Lia ZifyBool.
From Verif Require Import Base.
Import ListNotations.
Local Open Scope N_scope.

(** A Rust [Vec<u8>] or [&[u8]]; every element is below 256. *)
Definition bytes := list N.

Definition scalar (c : N) : Prop := c < 0xD800 \/ (0xE000 <= c /\ c < 0x110000).

(** [char::encode_utf8] *)
Definition utf8_char (c : N) : bytes :=
  if c <? 0x80 then [c]
  else if c <? 0x800 then [0xC0 + c / 64; 0x80 + c mod 64]
  else if c <? 0x10000 then [0xE0 + c / 4096; 0x80 + c / 64 mod 64; 0x80 + c mod 64]
  else [0xF0 + c / 262144; 0x80 + c / 4096 mod 64; 0x80 + c / 64 mod 64; 0x80 + c mod 64].

(** [str::as_bytes] *)
Definition utf8 (s : str) : bytes := concat (map utf8_char s).

(** A byte that continues a character. *)
Definition cont (b : N) : bool := (0x80 <=? b) && (b <=? 0xBF).

Definition two (b0 b1 : N) : bool := (0xC2 <=? b0) && (b0 <=? 0xDF) && cont b1.

Definition three (b0 b1 b2 : N) : bool :=
  cont b2 &&
  (((b0 =? 0xE0) && (0xA0 <=? b1) && (b1 <=? 0xBF))
   || ((0xE1 <=? b0) && (b0 <=? 0xEC) && cont b1)
   || ((b0 =? 0xED) && (0x80 <=? b1) && (b1 <=? 0x9F))
   || ((0xEE <=? b0) && (b0 <=? 0xEF) && cont b1)).

Definition four (b0 b1 b2 b3 : N) : bool :=
  cont b2 && cont b3 &&
  (((b0 =? 0xF0) && (0x90 <=? b1) && (b1 <=? 0xBF))
   || ((0xF1 <=? b0) && (b0 <=? 0xF3) && cont b1)
   || ((b0 =? 0xF4) && (0x80 <=? b1) && (b1 <=? 0x8F))).

Definition opt_cons (c : N) (o : option str) : option str :=
  match o with Some s => Some (c :: s) | None => None end.

(** [std::str::from_utf8]: [None] is [Err(Utf8Error)]. *)
Fixpoint from_utf8 (bs : bytes) : option str :=
  match bs with
  | [] => Some []
  | b0 :: r0 =>
      if b0 <? 0x80 then opt_cons b0 (from_utf8 r0)
      else match r0 with
           | [] => None
           | b1 :: r1 =>
               if two b0 b1 then opt_cons ((b0 - 0xC0) * 64 + (b1 - 0x80)) (from_utf8 r1)
               else match r1 with
                    | [] => None
                    | b2 :: r2 =>
                        if three b0 b1 b2
                        then opt_cons ((b0 - 0xE0) * 4096 + (b1 - 0x80) * 64 + (b2 - 0x80)) (from_utf8 r2)
                        else match r2 with
                             | [] => None
                             | b3 :: r3 =>
                                 if four b0 b1 b2 b3
                                 then opt_cons ((b0 - 0xF0) * 262144 + (b1 - 0x80) * 4096
                                                + (b2 - 0x80) * 64 + (b3 - 0x80)) (from_utf8 r3)
                                 else None
                             end
                    end
           end
  end.

Definition valid (bs : bytes) : Prop := from_utf8 bs <> None.

(** [str::is_char_boundary] on the bytes of a string. *)
Definition is_char_boundary (bs : bytes) (n : nat) : bool :=
  if Nat.eqb n 0 then true
  else match nth_error bs n with
       | Some b => negb (cont b)
       | None => Nat.eqb n (length bs)
       end.

Ltac Zify.zify_post_hook ::= Z.to_euclidean_division_equations.

Lemma from_utf8_char : forall c r, scalar c ->
  from_utf8 (utf8_char c ++ r) = opt_cons c (from_utf8 r).
Proof.
  intros c r Sc. unfold scalar in Sc. unfold utf8_char.
  destruct (c <? 0x80) eqn:E1; [cbn; rewrite E1; reflexivity|].
  destruct (c <? 0x800) eqn:E2.
  - cbn [app from_utf8].
    replace (0xC0 + c / 64 <? 0x80) with false by lia.
    replace (two _ _) with true by (unfold two, cont; lia).
    f_equal. lia.
  - destruct (c <? 0x10000) eqn:E3.
    + cbn [app from_utf8].
      replace (0xE0 + c / 4096 <? 0x80) with false by lia.
      replace (two _ _) with false by (unfold two, cont; lia).
      replace (three _ _ _) with true.
      * f_equal. lia.
      * unfold three, cont. symmetry. apply andb_true_iff. split; [lia|].
        rewrite !orb_true_iff. lia.
    + cbn [app from_utf8].
      replace (0xF0 + c / 262144 <? 0x80) with false by lia.
      replace (two _ _) with false by (unfold two, cont; lia).
      replace (three _ _ _) with false by (unfold three, cont; lia).
      replace (four _ _ _ _) with true.
      * f_equal. lia.
      * unfold four, cont. symmetry. apply andb_true_iff. split; [lia|].
        rewrite !orb_true_iff. lia.
Qed.

Lemma from_utf8_utf8_app : forall s r, Forall scalar s ->
  from_utf8 (utf8 s ++ r) = match from_utf8 r with Some t => Some (s ++ t) | None => None end.
Proof.
  induction s as [|c s IH]; intros r F; cbn.
  - destruct (from_utf8 r); reflexivity.
  - inversion F; subst. fold (utf8 s). rewrite <- app_assoc, from_utf8_char, IH by assumption.
    destruct (from_utf8 r); reflexivity.
Qed.

Lemma from_utf8_utf8 : forall s, Forall scalar s -> from_utf8 (utf8 s) = Some s.
Proof.
  intros s F. rewrite <- (app_nil_r (utf8 s)), from_utf8_utf8_app by exact F.
  cbn. rewrite app_nil_r. reflexivity.
Qed.

Lemma opt_cons_app : forall c (o : option str) (p : option str),
  match opt_cons c o with
  | Some s => match p with Some t => Some (s ++ t) | None => None end
  | None => None
  end = opt_cons c (match o with
                    | Some s => match p with Some t => Some (s ++ t) | None => None end
                    | None => None
                    end).
Proof. intros c [s|] [t|]; reflexivity. Qed.

Lemma from_utf8_app_len : forall n a b s, (length a <= n)%nat -> from_utf8 a = Some s ->
  from_utf8 (a ++ b) = match from_utf8 b with Some t => Some (s ++ t) | None => None end.
Proof.
  induction n as [|n IH]; intros a b s L E.
  - destruct a; [|cbn in L; lia]. cbn in E. injection E as <-. cbn. destruct (from_utf8 b); reflexivity.
  - destruct a as [|b0 r0]; [cbn in E; injection E as <-; cbn; destruct (from_utf8 b); reflexivity|].
    assert (K : forall c r s', (length r <= n)%nat -> opt_cons c (from_utf8 r) = Some s' ->
      opt_cons c (from_utf8 (r ++ b))
      = match from_utf8 b with Some t => Some (s' ++ t) | None => None end).
    { intros c r s' Lr Es. destruct (from_utf8 r) as [s0|] eqn:Er; [|discriminate].
      cbn in Es. injection Es as <-. rewrite (IH r b s0 Lr Er).
      destruct (from_utf8 b); reflexivity. }
    cbn [length] in L. cbn [app from_utf8] in E |- *.
    destruct (b0 <? 0x80); [apply K; [lia|exact E]|].
    destruct r0 as [|b1 r1]; [discriminate|]. cbn [length app] in L |- *.
    destruct (two b0 b1); [apply K; [lia|exact E]|].
    destruct r1 as [|b2 r2]; [discriminate|]. cbn [length app] in L |- *.
    destruct (three b0 b1 b2); [apply K; [lia|exact E]|].
    destruct r2 as [|b3 r3]; [discriminate|]. cbn [length app] in L |- *.
    destruct (four b0 b1 b2 b3); [apply K; [lia|exact E]|discriminate].
Qed.

Lemma from_utf8_app : forall a b s, from_utf8 a = Some s ->
  from_utf8 (a ++ b) = match from_utf8 b with Some t => Some (s ++ t) | None => None end.
Proof. intros a b s. exact (from_utf8_app_len (length a) a b s (le_n _)). Qed.

Lemma valid_app : forall a b, valid a -> valid b -> valid (a ++ b).
Proof.
  unfold valid. intros a b Va Vb. destruct (from_utf8 a) as [s|] eqn:Ea; [|contradiction].
  rewrite (from_utf8_app a b s Ea). destruct (from_utf8 b); [discriminate|contradiction].
Qed.

Lemma valid_app_inv : forall a b, valid a -> valid (a ++ b) -> valid b.
Proof.
  unfold valid. intros a b Va Vb. destruct (from_utf8 a) as [s|] eqn:Ea; [|contradiction].
  rewrite (from_utf8_app a b s Ea) in Vb. destruct (from_utf8 b); [discriminate|contradiction].
Qed.

Definition ascii (bs : bytes) : Prop := Forall (fun b => b < 0x80) bs.

Lemma ascii_valid : forall bs, ascii bs -> valid bs.
Proof.
  unfold valid. induction 1 as [|b bs Hb _ IH]; [discriminate|].
  cbn [from_utf8]. apply N.ltb_lt in Hb. rewrite Hb.
  destruct (from_utf8 bs); [discriminate|contradiction].
Qed.

Lemma ascii_utf8 : forall s, ascii s -> utf8 s = s.
Proof.
  induction 1 as [|b bs Hb _ IH]; [reflexivity|].
  unfold utf8 in *. cbn [map concat]. rewrite IH. unfold utf8_char.
  apply N.ltb_lt in Hb. rewrite Hb. reflexivity.
Qed.

(** A string starts with a byte that starts a character. *)
Lemma valid_boundary : forall a b, valid b -> is_char_boundary (a ++ b) (length a) = true.
Proof.
  intros a b V. unfold is_char_boundary.
  destruct (Nat.eqb (length a) 0); [reflexivity|].
  rewrite nth_error_app2 by lia. rewrite PeanoNat.Nat.sub_diag.
  destruct b as [|b0 r0]; cbn.
  - rewrite app_nil_r. apply PeanoNat.Nat.eqb_refl.
  - unfold valid in V. cbn in V. unfold cont.
    destruct (b0 <? 0x80) eqn:E; [lia|].
    destruct ((0x80 <=? b0) && (b0 <=? 0xBF)) eqn:C; [|reflexivity]. exfalso. apply V.
    destruct r0 as [|b1 r1]; [reflexivity|].
    replace (two b0 b1) with false by (unfold two, cont; lia).
    destruct r1 as [|b2 r2]; [reflexivity|].
    replace (three b0 b1 b2) with false by (unfold three, cont; lia).
    destruct r2 as [|b3 r3]; [reflexivity|].
    replace (four b0 b1 b2 b3) with false by (unfold four, cont; lia). reflexivity.
Qed.

Ltac Zify.zify_post_hook ::= idtac.
