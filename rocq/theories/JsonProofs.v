(** Writing JSON and reading it back. *)
From Coq Require Import String List NArith ZArith Bool Lia ZifyBool Arith.
From Verif Require Import Base Utf8 Framing SpecFraming FramingProofs FramingProofs2 Json SpecJson.
Import ListNotations.

Section Ind.
  Variable P : json -> Prop.
  Hypothesis Hnull : P JNull.
  Hypothesis Hbool : forall b, P (JBool b).
  Hypothesis Hint : forall z, P (JInt z).
  Hypothesis Hfloat : forall t, P (JFloat t).
  Hypothesis Hstr : forall s, P (JStr s).
  Hypothesis Harr : forall l, Forall P l -> P (JArr l).
  Hypothesis Hobj : forall fs, Forall (fun kv => P (snd kv)) fs -> P (JObj fs).

  Fixpoint json_ind' (j : json) : P j :=
    match j with
    | JNull => Hnull
    | JBool b => Hbool b
    | JInt z => Hint z
    | JFloat t => Hfloat t
    | JStr s => Hstr s
    | JArr l => Harr l ((fix go l : Forall P l :=
        match l with [] => Forall_nil _ | x :: l' => Forall_cons _ (json_ind' x) (go l') end) l)
    | JObj fs => Hobj fs ((fix go fs : Forall (fun kv => P (snd kv)) fs :=
        match fs with
        | [] => Forall_nil _
        | (k, x) :: fs' => Forall_cons (k, x) (json_ind' x : P (snd (k, x))) (go fs')
        end) fs)
    end.
End Ind.

(** * Strings *)

Ltac Zify.zify_post_hook ::= Z.to_euclidean_division_equations.

Lemma parse_hex00 : forall c, (c < 32)%N ->
  hex4 48 48 (hex_digit (c / 16)) (hex_digit (c mod 16)) = Some c.
Proof.
  intros c H. unfold hex4.
  assert (D : forall n, (n < 16)%N -> hex_value (hex_digit n) = Some n).
  { intros n L. unfold hex_value, hex_digit, is_digit. destruct (n <? 10)%N eqn:E.
    - replace ((48 <=? 48 + n) && (48 + n <=? 57))%N with true by lia. apply (f_equal Some). lia.
    - replace ((48 <=? 87 + n) && (87 + n <=? 57))%N with false by lia.
      replace ((97 <=? 87 + n) && (87 + n <=? 102))%N with true by lia. apply (f_equal Some). lia. }
  rewrite !D by lia. change (hex_value 48) with (Some 0%N). cbv iota. apply (f_equal Some). lia.
Qed.

Ltac Zify.zify_post_hook ::= idtac.

Lemma parse_escape : forall c r, parse_chars (escape_char c ++ r) = cons_char c (parse_chars r).
Proof.
  intros c r. unfold escape_char.
  destruct (c =? 34)%N eqn:E1; [apply N.eqb_eq in E1; subst; reflexivity|].
  destruct (c =? 92)%N eqn:E2; [apply N.eqb_eq in E2; subst; reflexivity|].
  destruct (c =? 8)%N eqn:E3; [apply N.eqb_eq in E3; subst; reflexivity|].
  destruct (c =? 9)%N eqn:E4; [apply N.eqb_eq in E4; subst; reflexivity|].
  destruct (c =? 10)%N eqn:E5; [apply N.eqb_eq in E5; subst; reflexivity|].
  destruct (c =? 12)%N eqn:E6; [apply N.eqb_eq in E6; subst; reflexivity|].
  destruct (c =? 13)%N eqn:E7; [apply N.eqb_eq in E7; subst; reflexivity|].
  destruct (c <? 32)%N eqn:E8.
  - cbn [app parse_chars].
    replace (92 =? 34)%N with false by reflexivity. replace (92 =? 92)%N with true by reflexivity.
    replace (117 =? 117)%N with true by reflexivity.
    rewrite parse_hex00 by lia.
    replace ((0xDC00 <=? c) && (c <=? 0xDFFF))%N with false by lia.
    replace ((0xD800 <=? c) && (c <=? 0xDBFF))%N with false by lia. reflexivity.
  - cbn [app parse_chars]. rewrite E1, E2, E8. reflexivity.
Qed.

Lemma parse_print_str : forall s r, parse_chars (concat (map escape_char s) ++ 34%N :: r) = Ok (s, r).
Proof.
  induction s as [|c s IH]; intro r; [reflexivity|].
  cbn [map concat]. rewrite <- app_assoc, parse_escape, IH. reflexivity.
Qed.

(** * Numbers *)

(** The text after a number does not continue it. *)
Definition stops (r : str) : Prop :=
  match r with
  | [] => True
  | c :: _ => is_digit c = false /\ c <> 46%N /\ c <> 101%N /\ c <> 69%N
  end.

Lemma take_digits_all : forall v r, forallb is_digit v = true -> stops r -> take_digits (v ++ r) = (v, r).
Proof.
  induction v as [|c v IH]; intros r F S.
  - cbn [app]. destruct r as [|c r]; [reflexivity|]. cbn [take_digits]. destruct S as [S _]. rewrite S. reflexivity.
  - cbn [forallb] in F. apply andb_true_iff in F as [C F]. cbn [app take_digits]. rewrite C, IH by assumption.
    reflexivity.
Qed.

Lemma dec_go_head : forall fuel n, (1 <= n)%N -> (n < 2 ^ N.of_nat fuel)%N ->
  exists d t, dec_go (S fuel) n = d :: t /\ d <> 48%N.
Proof.
  induction fuel as [|fuel IH]; intros n P L.
  - cbn in L. lia.
  - remember (S fuel) as f. cbn [dec_go]. destruct (n <? 10)%N eqn:E.
    + exists (48 + n)%N, []. split; [reflexivity|lia].
    + subst f.
      assert (P' : (1 <= n / 10)%N) by (apply N.div_le_lower_bound; lia).
      assert (L' : (n / 10 < 2 ^ N.of_nat fuel)%N).
      { rewrite Nat2N.inj_succ, N.pow_succ_r' in L. apply N.div_lt_upper_bound; lia. }
      destruct (IH _ P' L') as (d & t & H & N). rewrite H. exists d, (t ++ [48 + n mod 10]%N).
      split; [reflexivity|exact N].
Qed.

Lemma dec_zero_head : forall n t, dec n = 48%N :: t -> t = [].
Proof.
  intros n t H. destruct n as [|p].
  - cbn in H. congruence.
  - destruct (dec_go_head (N.size_nat (Npos p)) (Npos p)) as (d & t' & E & N); [lia|apply size_nat_bound|].
    unfold dec in H. rewrite E in H. congruence.
Qed.

Lemma parse_number_dec : forall neg n r, stops r ->
  parse_number neg (dec n ++ r)
  = if neg then if ((Z.of_N n =? 0) || (9223372036854775808 <? Z.of_N n))%Z
                then Ok (JFloat (45%N :: dec n), r) else Ok (JInt (- Z.of_N n)%Z, r)
    else if (18446744073709551615 <? Z.of_N n)%Z then Ok (JFloat (dec n), r) else Ok (JInt (Z.of_N n), r).
Proof.
  intros neg n r S. destruct (decimal_digits _ _ (dec_decimal n)) as (NE & F & V).
  unfold parse_number. rewrite take_digits_all by assumption.
  destruct (dec n) as [|d0 d] eqn:E; [congruence|].
  replace ((d0 =? 48)%N && negb (Nat.eqb (length d) 0)) with false.
  2:{ symmetry. destruct (d0 =? 48)%N eqn:Z; [|reflexivity]. apply N.eqb_eq in Z. subst d0.
      apply dec_zero_head in E. subst d. reflexivity. }
  assert (PF : parse_fraction r = Ok ([], r)).
  { destruct r as [|c r]; [reflexivity|]. cbn. destruct S as (_ & S & _). apply N.eqb_neq in S. rewrite S. reflexivity. }
  assert (PE : parse_exponent r = Ok ([], r)).
  { destruct r as [|c r]; [reflexivity|]. cbn [parse_exponent]. destruct S as (_ & _ & S1 & S2).
    apply N.eqb_neq in S1, S2. rewrite S1, S2. reflexivity. }
  rewrite PF. cbn [bind]. rewrite PE. cbn [bind]. rewrite V, !app_nil_r.
  destruct neg; reflexivity.
Qed.

(** * Values *)

(** Enough fuel for a value. *)
Fixpoint weight (j : json) : nat :=
  match j with
  | JArr l => S (fold_right (fun x n => S (weight x) + n) 0 l)
  | JObj fs => S (fold_right (fun kv n => let '(_, x) := kv in S (weight x) + n) 0 fs)
  | _ => 1
  end.

Lemma intercalate_length : forall sep l x,
  length (intercalate sep (x :: l)) = length x + fold_right (fun y n => length sep + length y + n) 0 l.
Proof.
  intros sep. induction l as [|y l IH]; intro x; [cbn; lia|].
  change (intercalate sep (x :: y :: l)) with (x ++ sep ++ intercalate sep (y :: l)).
  rewrite !app_length, IH. cbn [fold_right]. lia.
Qed.

Lemma dec_length : forall n, 1 <= length (dec n).
Proof.
  intro n. destruct (decimal_digits _ _ (dec_decimal n)) as (NE & _ & _).
  destruct (dec n); [congruence|cbn; lia].
Qed.

Lemma weight_le : forall j, plain j -> weight j <= 2 * length (print j) + 1.
Proof.
  assert (E : forall l, Forall (fun j => plain j -> weight j <= 2 * length (print j) + 1) l ->
    fold_right (fun x p => plain x /\ p) True l ->
    fold_right (fun x n => S (weight x) + n) 0 l <= 2 * length (intercalate [44%N] (map print l)) + 2).
  { intros l F P. destruct l as [|x l]; [cbn; lia|]. cbn [map].
    rewrite intercalate_length. cbn [fold_right] in *. destruct P as [Px P].
    apply Forall_cons_iff in F as [Fx F]. specialize (Fx Px).
    assert (R : fold_right (fun x n => S (weight x) + n) 0 l
                <= 2 * fold_right (fun y n => length [44%N] + length y + n) 0 (map print l)).
    { clear Fx. revert P F. induction l as [|y l IH]; intros P F; [cbn; lia|].
      cbn [fold_right map] in *. apply Forall_cons_iff in F as [Fy F]. destruct P as [Py P].
      specialize (Fy Py). specialize (IH P F). cbn [length] in *. lia. }
    lia. }
  assert (E2 : forall fs, Forall (fun kv => plain (snd kv) -> weight (snd kv) <= 2 * length (print (snd kv)) + 1) fs ->
    fold_right (fun kv p => let '(_, x) := kv in plain x /\ p) True fs ->
    fold_right (fun kv n => let '(_, x) := kv in S (weight x) + n) 0 fs
    <= 2 * length (intercalate [44%N] (map (fun kv => let '(k, v) := kv in print_str k ++ 58%N :: print v) fs)) + 2).
  { intros l F P. destruct l as [|[k x] l]; [cbn; lia|]. cbn [map].
    rewrite intercalate_length. cbn [fold_right] in *. destruct P as [Px P].
    apply Forall_cons_iff in F as [Fx F]. specialize (Fx Px). cbn [snd] in Fx.
    assert (R : fold_right (fun kv n => let '(_, x) := kv in S (weight x) + n) 0 l
                <= 2 * fold_right (fun y n => length [44%N] + length y + n) 0
                         (map (fun kv => let '(k, v) := kv in print_str k ++ 58%N :: print v) l)).
    { clear Fx. revert P F. induction l as [|[k' y] l IH]; intros P F; [cbn; lia|].
      cbn [fold_right map] in *. apply Forall_cons_iff in F as [Fy F]. destruct P as [Py P].
      specialize (Fy Py). specialize (IH P F). rewrite app_length. cbn [length snd] in *. lia. }
    rewrite app_length. cbn [length] in *. lia. }
  induction j using json_ind'; intro P; try (cbn; lia).
  - cbn [weight print]. specialize (E l H P). cbn [length]. rewrite app_length. cbn [length]. lia.
  - cbn [weight print]. specialize (E2 fs H P). cbn [length]. rewrite app_length. cbn [length]. lia.
Qed.

(** The first character of a value. *)
Definition opens (c : N) : Prop :=
  c <> 32%N /\ c <> 10%N /\ c <> 9%N /\ c <> 13%N /\ c <> 93%N /\ c <> 125%N.

Lemma opens_ws : forall c s, opens c -> skip_ws (c :: s) = c :: s.
Proof.
  intros c s (H1 & H2 & H3 & H4 & _). cbn [skip_ws].
  apply N.eqb_neq in H1, H2, H3, H4. rewrite H1, H2, H3, H4. reflexivity.
Qed.

Lemma print_opens : forall j, plain j -> exists c t, print j = c :: t /\ opens c.
Proof.
  assert (D : forall n, exists c t, dec n = c :: t /\ is_digit c = true).
  { intro n. destruct (decimal_digits _ _ (dec_decimal n)) as (NE & F & _).
    destruct (dec n) as [|c t]; [congruence|]. cbn [forallb] in F. apply andb_true_iff in F as [C _]. eauto. }
  assert (O : forall c, is_digit c = true -> opens c) by (intros c H; unfold is_digit in H; unfold opens; lia).
  intros [|[]|z|t|s|l|fs] P; cbn [print]; try (do 2 eexists; split; [reflexivity|]; unfold opens; lia);
    try (vm_compute; do 2 eexists; split; [reflexivity|]; unfold opens; repeat split; discriminate).
  - destruct z; cbn [print_int].
    + destruct (D 0%N) as (c & t & E & H). exists c, t. split; [exact E|apply O; exact H].
    + destruct (D (Z.to_N (Zpos p))) as (c & t & E & H). exists c, t. split; [exact E|apply O; exact H].
    + do 2 eexists. split; [reflexivity|]. unfold opens. lia.
  - destruct P.
Qed.

Definition limit {A} : res A := Err (lit "recursion limit exceeded").

(** Reading back a written value, or the error for one that is nested too deeply. *)
Lemma parse_print : forall j, plain j -> forall fuel d r, weight j <= fuel -> 1 <= d -> stops r ->
  parse_value fuel d (print j ++ r) = if Nat.ltb (nesting j) d then Ok (j, r) else limit.
Proof.
  induction j using json_ind'; intros P fuel d r W D St;
    (destruct fuel as [|f]; [cbn in W; lia|]).
  - replace (Nat.ltb (nesting JNull) d) with true by (symmetry; apply Nat.ltb_lt; cbn; lia). reflexivity.
  - replace (Nat.ltb (nesting (JBool b)) d) with true by (symmetry; apply Nat.ltb_lt; cbn; lia).
    destruct b; reflexivity.
  - replace (Nat.ltb (nesting (JInt z)) d) with true by (symmetry; apply Nat.ltb_lt; cbn; lia).
    assert (Pos : forall n, z = Z.of_N n -> parse_value (S f) d (dec n ++ r) = Ok (JInt z, r)).
    { intros n E. destruct (decimal_digits _ _ (dec_decimal n)) as (NE & F & _).
      pose proof (parse_number_dec false n r St) as PN.
      destruct (dec n) as [|c t] eqn:En; [congruence|]. cbn [forallb] in F. apply andb_true_iff in F as [C _].
      cbn [app] in *. cbn [parse_value]. rewrite opens_ws by (unfold is_digit in C; unfold opens; lia).
      rewrite C.
      replace (c =? 110)%N with false by (unfold is_digit in C; lia).
      replace (c =? 116)%N with false by (unfold is_digit in C; lia).
      replace (c =? 102)%N with false by (unfold is_digit in C; lia).
      replace (c =? 34)%N with false by (unfold is_digit in C; lia).
      replace (c =? 45)%N with false by (unfold is_digit in C; lia).
      rewrite PN. cbn [plain] in P. replace (18446744073709551615 <? Z.of_N n)%Z with false by lia.
      rewrite E. reflexivity. }
    cbn [print]. destruct z as [|p|p]; cbn [print_int].
    + apply (Pos 0%N). reflexivity.
    + apply (Pos (Npos p)). reflexivity.
    + cbn [app parse_value]. change (skip_ws (45%N :: dec (Npos p) ++ r)) with (45%N :: dec (Npos p) ++ r).
      cbv iota. change (45 =? 110)%N with false. change (45 =? 116)%N with false.
      change (45 =? 102)%N with false. change (45 =? 34)%N with false. change (45 =? 45)%N with true. cbv iota.
      rewrite (parse_number_dec true (Npos p) r St). cbn [plain] in P.
      replace ((Z.of_N (Npos p) =? 0) || (9223372036854775808 <? Z.of_N (Npos p)))%Z with false by lia.
      reflexivity.
  - destruct P.
  - replace (Nat.ltb (nesting (JStr s)) d) with true by (symmetry; apply Nat.ltb_lt; cbn; lia).
    cbn [print]. unfold print_str. cbn [app parse_value].
    change (skip_ws (34%N :: (concat (map escape_char s) ++ [34%N]) ++ r))
      with (34%N :: (concat (map escape_char s) ++ [34%N]) ++ r). cbv iota.
    change (34 =? 110)%N with false. change (34 =? 116)%N with false.
    change (34 =? 102)%N with false. change (34 =? 34)%N with true. cbv iota.
    rewrite <- app_assoc. cbn [app]. rewrite parse_print_str. reflexivity.
  - cbn [print app parse_value].
    change (skip_ws (91%N :: (intercalate [44%N] (map print l) ++ [93%N]) ++ r))
      with (91%N :: (intercalate [44%N] (map print l) ++ [93%N]) ++ r). cbv iota.
    change (91 =? 110)%N with false. change (91 =? 116)%N with false. change (91 =? 102)%N with false.
    change (91 =? 34)%N with false. change (91 =? 45)%N with false. change (is_digit 91%N) with false.
    change (91 =? 91)%N with true. cbv iota. rewrite <- app_assoc. cbn [app].
    cbn [nesting weight] in *.
    destruct d as [|d]; [lia|]. cbn [pred].
    destruct d as [|d]; [reflexivity|].
    destruct l as [|x l]; [reflexivity|].
    cbn [plain fold_right] in P. destruct P as [Px Pl].
    destruct (print_opens x Px) as (c & t & Ec & Oc).
    assert (Hd : exists t', intercalate [44%N] (map print (x :: l)) ++ 93%N :: r = c :: t').
    { cbn [map]. destruct (map print l); cbn [intercalate]; rewrite Ec; eexists; reflexivity. }
    destruct Hd as (t' & Hd). rewrite Hd, opens_ws by exact Oc.
    replace (c =? 93)%N with false by (unfold opens in Oc; lia). rewrite <- Hd.
    assert (El : forall l x f, Forall (fun j => plain j -> forall fuel d r, weight j <= fuel -> 1 <= d -> stops r ->
        parse_value fuel d (print j ++ r) = if Nat.ltb (nesting j) d then Ok (j, r) else limit) (x :: l) ->
      plain x -> fold_right (fun x p => plain x /\ p) True l ->
      fold_right (fun x n => S (weight x) + n) 0 (x :: l) <= f ->
      parse_elems f (S d) (intercalate [44%N] (map print (x :: l)) ++ 93%N :: r)
      = if Nat.ltb (fold_right (fun x n => Nat.max (nesting x) n) 0 (x :: l)) (S d)
        then Ok (x :: l, r) else limit).
    { clear. induction l as [|y l IH]; intros x f F Px Pl Wf; (destruct f as [|f]; [cbn in Wf; lia|]);
        cbn [fold_right] in *; apply Forall_cons_iff in F as [Fx F].
      - cbn [map intercalate parse_elems].
        rewrite Fx by (try assumption; cbn; repeat split; try lia; discriminate).
        destruct (Nat.ltb_spec (nesting x) (S d)) as [L|L].
        + replace (Nat.ltb (Nat.max (nesting x) 0) (S d)) with true by (symmetry; apply Nat.ltb_lt; lia).
          reflexivity.
        + replace (Nat.ltb (Nat.max (nesting x) 0) (S d)) with false by (symmetry; apply Nat.ltb_ge; lia).
          reflexivity.
      - cbn [map]. change (intercalate [44%N] (print x :: print y :: map print l))
          with (print x ++ [44%N] ++ intercalate [44%N] (map print (y :: l))).
        rewrite <- !app_assoc. cbn [parse_elems].
        rewrite Fx by (try assumption; cbn; repeat split; try lia; discriminate).
        destruct (Nat.ltb_spec (nesting x) (S d)) as [L|L].
        + cbn [bind app]. 
          change (skip_ws (44%N :: intercalate [44%N] (map print (y :: l)) ++ 93%N :: r))
            with (44%N :: intercalate [44%N] (map print (y :: l)) ++ 93%N :: r). cbv iota.
          change (44 =? 44)%N with true. cbv iota. destruct Pl as [Py Pl].
          rewrite IH by (try assumption; cbn [fold_right]; lia).
          cbn [fold_right].
          destruct (Nat.ltb_spec (Nat.max (nesting y) (fold_right (fun x n => Nat.max (nesting x) n) 0 l)) (S d)) as [L2|L2].
          * replace (Nat.ltb (Nat.max (nesting x) _) (S d)) with true by (symmetry; apply Nat.ltb_lt; lia).
            reflexivity.
          * replace (Nat.ltb (Nat.max (nesting x) _) (S d)) with false by (symmetry; apply Nat.ltb_ge; lia).
            reflexivity.
        + replace (Nat.ltb (Nat.max (nesting x) _) (S d)) with false by (symmetry; apply Nat.ltb_ge; lia).
          reflexivity. }
    rewrite El; [|assumption|assumption|assumption|lia].
    match goal with |- context [Nat.ltb (S ?a) (S (S d))] => change (Nat.ltb (S a) (S (S d))) with (Nat.ltb a (S d)) end.
    destruct (Nat.ltb _ (S d)); reflexivity.
  - cbn [print app parse_value].
    set (one := fun kv : str * json => let '(k, v) := kv in print_str k ++ 58%N :: print v).
    change (skip_ws (123%N :: (intercalate [44%N] (map one fs) ++ [125%N]) ++ r))
      with (123%N :: (intercalate [44%N] (map one fs) ++ [125%N]) ++ r). cbv iota.
    change (123 =? 110)%N with false. change (123 =? 116)%N with false. change (123 =? 102)%N with false.
    change (123 =? 34)%N with false. change (123 =? 45)%N with false. change (is_digit 123%N) with false.
    change (123 =? 91)%N with false. change (123 =? 123)%N with true. cbv iota. rewrite <- app_assoc. cbn [app].
    cbn [nesting weight] in *.
    destruct d as [|d]; [lia|]. cbn [pred].
    destruct d as [|d]; [reflexivity|].
    destruct fs as [|[k x] fs]; [reflexivity|].
    cbn [plain fold_right] in P. destruct P as [Px Pl].
    assert (Hd : exists t', intercalate [44%N] (map one ((k, x) :: fs)) ++ 125%N :: r = 34%N :: t').
    { cbn [map]. destruct (map one fs); cbn [intercalate one print_str app]; eexists; reflexivity. }
    destruct Hd as (t' & Hd). rewrite Hd.
    change (skip_ws (34%N :: t')) with (34%N :: t'). cbv iota. change (34 =? 125)%N with false. cbv iota.
    rewrite <- Hd.
    assert (El : forall fs k x f, Forall (fun kv => plain (snd kv) -> forall fuel d r, weight (snd kv) <= fuel -> 1 <= d -> stops r ->
        parse_value fuel d (print (snd kv) ++ r) = if Nat.ltb (nesting (snd kv)) d then Ok (snd kv, r) else limit) ((k, x) :: fs) ->
      plain x -> fold_right (fun kv p => let '(_, x) := kv in plain x /\ p) True fs ->
      fold_right (fun kv n => let '(_, x) := kv in S (weight x) + n) 0 ((k, x) :: fs) <= f ->
      parse_fields f (S d) (intercalate [44%N] (map one ((k, x) :: fs)) ++ 125%N :: r)
      = if Nat.ltb (fold_right (fun kv n => let '(_, x) := kv in Nat.max (nesting x) n) 0 ((k, x) :: fs)) (S d)
        then Ok ((k, x) :: fs, r) else limit).
    { clear. assert (Step : forall k x f tl, parse_fields (S f) (S d) (one (k, x) ++ tl)
        = let! (v, r3) := parse_value f (S d) (print x ++ tl) in
          match skip_ws r3 with
          | [] => Err (lit "EOF while parsing an object")
          | c :: r4 =>
              if (c =? 44)%N then let! (l, r5) := parse_fields f (S d) r4 in Ok ((k, v) :: l, r5)
              else if (c =? 125)%N then Ok ([(k, v)], r4)
              else Err (lit "expected `,` or `}`")
          end).
      { intros k x f tl. unfold one, print_str. cbn [app parse_fields].
        match goal with |- context [skip_ws (34%N :: ?s)] => change (skip_ws (34%N :: s)) with (34%N :: s) end.
        cbv iota. change (34 =? 34)%N with true. cbv iota.
        rewrite <- !app_assoc. cbn [app]. rewrite parse_print_str. cbn [bind].
        match goal with |- context [skip_ws (58%N :: ?s)] => change (skip_ws (58%N :: s)) with (58%N :: s) end.
        cbv iota. change (58 =? 58)%N with true. cbv iota. reflexivity. }
      induction fs as [|[k' y] fs IH]; intros k x f F Px Pl Wf; (destruct f as [|f]; [cbn in Wf; lia|]);
        cbn [fold_right] in *; apply Forall_cons_iff in F as [Fx F]; cbn [snd] in Fx.
      - cbn [map intercalate]. rewrite Step.
        rewrite Fx by (try assumption; cbn; repeat split; try lia; discriminate).
        destruct (Nat.ltb_spec (nesting x) (S d)) as [L|L].
        + replace (Nat.ltb (Nat.max (nesting x) 0) (S d)) with true by (symmetry; apply Nat.ltb_lt; lia).
          reflexivity.
        + replace (Nat.ltb (Nat.max (nesting x) 0) (S d)) with false by (symmetry; apply Nat.ltb_ge; lia).
          reflexivity.
      - change (intercalate [44%N] (map one ((k, x) :: (k', y) :: fs)))
          with (one (k, x) ++ [44%N] ++ intercalate [44%N] (map one ((k', y) :: fs))).
        rewrite <- !app_assoc. rewrite Step.
        rewrite Fx by (try assumption; cbn; repeat split; try lia; discriminate).
        destruct (Nat.ltb_spec (nesting x) (S d)) as [L|L].
        + cbn [bind app].
          match goal with |- context [skip_ws (44%N :: ?s)] => change (skip_ws (44%N :: s)) with (44%N :: s) end.
          cbv iota. change (44 =? 44)%N with true. cbv iota. destruct Pl as [Py Pl].
          rewrite IH by (try assumption; cbn [fold_right]; lia).
          cbn [fold_right].
          destruct (Nat.ltb_spec (Nat.max (nesting y) (fold_right (fun kv n => let '(_, x) := kv in Nat.max (nesting x) n) 0 fs)) (S d)) as [L2|L2].
          * replace (Nat.ltb (Nat.max (nesting x) _) (S d)) with true by (symmetry; apply Nat.ltb_lt; lia).
            reflexivity.
          * replace (Nat.ltb (Nat.max (nesting x) _) (S d)) with false by (symmetry; apply Nat.ltb_ge; lia).
            reflexivity.
        + replace (Nat.ltb (Nat.max (nesting x) _) (S d)) with false by (symmetry; apply Nat.ltb_ge; lia).
          reflexivity. }
    rewrite El; [|assumption|assumption|assumption|lia].
    match goal with |- context [Nat.ltb (S ?a) (S (S d))] => change (Nat.ltb (S a) (S (S d))) with (Nat.ltb a (S d)) end.
    destruct (Nat.ltb _ (S d)); reflexivity.
Qed.

Lemma from_str_print : forall j, plain j ->
  from_str (print j) = if Nat.ltb (nesting j) 128 then Ok j else limit.
Proof.
  intros j P. unfold from_str.
  rewrite <- (app_nil_r (print j)) at 2. rewrite parse_print; [|exact P| |lia|exact I].
  - destruct (Nat.ltb (nesting j) 128); reflexivity.
  - pose proof (weight_le j P). lia.
Qed.
