(** What is written as TOML is read back. *)
From Coq Require Import String List NArith Arith Bool Lia.
From Verif Require Import Base Utf8 Json Serde Project SpecProject Toml.
Import ListNotations.
Local Open Scope N_scope.

(** ** Characters *)
Lemma hex_ok : forallb (fun c => match scalar_num [48; 48; hex_upper (c / 16); hex_upper (c mod 16)] with Some x => x =? c | None => false end)
  (map N.of_nat (seq 0 128)) = true.
Proof. vm_compute. reflexivity. Qed.

Lemma hex_read : forall c, control c = true -> scalar_num [48; 48; hex_upper (c / 16); hex_upper (c mod 16)] = Some c.
Proof.
  intros c H. pose proof hex_ok as A. rewrite forallb_forall in A.
  assert (L : c < 128). { unfold control in H. apply orb_true_iff in H as [H|H]; [apply N.leb_le in H|apply N.eqb_eq in H]; lia. }
  specialize (A c). cbv beta in A.
  destruct (scalar_num _) as [x|].
  - f_equal. apply N.eqb_eq. apply A. apply in_map_iff. exists (N.to_nat c). split; [apply N2Nat.id|apply in_seq; lia].
  - discriminate A. apply in_map_iff. exists (N.to_nat c). split; [apply N2Nat.id|apply in_seq; lia].
Qed.

Lemma plain_control : forall c, control c = false -> plain c = true.
Proof.
  intros c H. unfold control, plain in *. apply orb_false_iff in H as [A B]. apply N.leb_gt in A. rewrite B.
  rewrite (proj2 (N.leb_le 32 c)) by lia. rewrite orb_true_r. reflexivity.
Qed.

Ltac eqbs := repeat match goal with
  | |- context [?a =? ?b] => destruct (N.eqb_spec a b); [try subst; try lia|]
  end.

Lemma basic_char : forall c tl, read_basic (toml_escape false c ++ tl) = push c (read_basic tl).
Proof.
  intros c tl. unfold toml_escape.
  destruct (N.eqb_spec c 8); [subst; reflexivity|]. destruct (N.eqb_spec c 9); [subst; reflexivity|].
  destruct (N.eqb_spec c 10); [subst; reflexivity|]. destruct (N.eqb_spec c 12); [subst; reflexivity|].
  destruct (N.eqb_spec c 13); [subst; reflexivity|]. destruct (N.eqb_spec c 34); [subst; reflexivity|].
  destruct (N.eqb_spec c 92); [subst; reflexivity|].
  destruct (control c) eqn:C.
  - pose proof (hex_read c C) as H. cbn [app].
    change (read_basic (92 :: 117 :: 48 :: 48 :: hex_upper (c / 16) :: hex_upper (c mod 16) :: tl))
      with (match scalar_num [48; 48; hex_upper (c / 16); hex_upper (c mod 16)] with Some x => push x (read_basic tl) | None => None end).
    rewrite H. reflexivity.
  - cbn [app read_basic]. rewrite (proj2 (N.eqb_neq c 34)), (proj2 (N.eqb_neq c 92)) by assumption.
    unfold unescaped. rewrite (plain_control c C), (proj2 (N.eqb_neq c 34)), (proj2 (N.eqb_neq c 92)) by assumption. reflexivity.
Qed.

Lemma basic_read : forall v rest, read_basic (flat_map (toml_escape false) v ++ 34 :: rest) = Some (v, rest).
Proof.
  induction v as [|c v IH]; intro rest; [reflexivity|].
  cbn [flat_map]. rewrite <- app_assoc, basic_char, IH. reflexivity.
Qed.

Lemma lines_char : forall c tl, read_lines false (toml_escape true c ++ tl) = push c (read_lines false tl).
Proof.
  intros c tl. unfold toml_escape.
  destruct (N.eqb_spec c 8); [subst; reflexivity|]. destruct (N.eqb_spec c 9); [subst; reflexivity|].
  destruct (N.eqb_spec c 10); [subst; reflexivity|]. destruct (N.eqb_spec c 12); [subst; reflexivity|].
  destruct (N.eqb_spec c 13); [subst; reflexivity|]. destruct (N.eqb_spec c 34); [subst; reflexivity|].
  destruct (N.eqb_spec c 92); [subst; reflexivity|].
  destruct (control c) eqn:C.
  - pose proof (hex_read c C) as H. cbn [app].
    change (read_lines false (92 :: 117 :: 48 :: 48 :: hex_upper (c / 16) :: hex_upper (c mod 16) :: tl))
      with (match scalar_num [48; 48; hex_upper (c / 16); hex_upper (c mod 16)] with Some x => push x (read_lines false tl) | None => None end).
    rewrite H. reflexivity.
  - cbn [app read_lines andb]. rewrite (proj2 (N.eqb_neq c 10)), (proj2 (N.eqb_neq c 13)), (proj2 (N.eqb_neq c 34)), (proj2 (N.eqb_neq c 92)) by assumption.
    unfold unescaped. rewrite (plain_control c C), (proj2 (N.eqb_neq c 34)), (proj2 (N.eqb_neq c 92)) by assumption. reflexivity.
Qed.

(** What may follow a string. *)
Definition after_string (rest : str) : Prop := match rest with c :: _ => c <> 34 /\ c <> 39 | [] => True end.

Lemma close_read : forall q rest, q = 34 \/ q = 39 -> after_string rest -> read_close q rest = ([], rest).
Proof.
  intros q [|c rest] Q A; [reflexivity|]. cbn in A |- *. rewrite (proj2 (N.eqb_neq c q)); [reflexivity|]. destruct Q; subst; tauto.
Qed.

Lemma lines_read : forall v rest, after_string rest ->
  read_lines false (flat_map (toml_escape true) v ++ 34 :: 34 :: 34 :: rest) = Some (v, rest).
Proof.
  induction v as [|c v IH]; intros rest A.
  - cbn [flat_map app]. change (read_lines false (34 :: 34 :: 34 :: rest)) with (Some (read_close 34 rest)).
    rewrite close_read by auto. reflexivity.
  - cbn [flat_map]. rewrite <- app_assoc, lines_char, (IH _ A). reflexivity.
Qed.

Lemma literal_read : forall v rest, Forall (fun c => plain c = true /\ c <> 39) v -> read_literal (v ++ 39 :: rest) = Some (v, rest).
Proof.
  induction v as [|c v IH]; intros rest F; [reflexivity|]. apply Forall_cons_iff in F as [[P Q] F].
  cbn [app read_literal]. rewrite (proj2 (N.eqb_neq c 39)) by exact Q. rewrite P, (IH _ F). reflexivity.
Qed.

(** Apostrophes in rows of at most two, not at the end. *)
Fixpoint quotes_ok (now : nat) (v : str) : bool :=
  match v with
  | [] => Nat.eqb now 0
  | c :: v' => if c =? 39 then Nat.ltb now 2 && quotes_ok (S now) v' else quotes_ok 0 v'
  end.

Lemma literal_lines_read : forall v n rest, quotes_ok n v = true ->
  Forall (fun c => plain c = true \/ c = 10) v -> after_string rest ->
  read_literal_lines (v ++ 39 :: 39 :: 39 :: rest) = Some (v, rest).
Proof.
  induction v as [|c v IH]; intros n rest Q F A.
  - cbn [app]. change (read_literal_lines (39 :: 39 :: 39 :: rest)) with (Some (read_close 39 rest)).
    rewrite close_read by auto. reflexivity.
  - apply Forall_cons_iff in F as [P F]. cbn [app quotes_ok] in *.
    destruct (N.eqb_spec c 39) as [->|N39].
    + apply andb_true_iff in Q as [Q1 Q]. apply Nat.ltb_lt in Q1.
      specialize (IH _ _ Q F A). cbn [read_literal_lines].
      change (39 =? 10) with false. change (39 =? 13) with false. change (39 =? 39) with true. cbv iota.
      assert (X : forall a b r2, v ++ 39 :: 39 :: 39 :: rest = a :: b :: r2 -> (a =? 39) && (b =? 39) = false).
      { intros a b r2 E. destruct v as [|x v]; [cbn in Q; discriminate|]. injection E as -> E.
        cbn [quotes_ok] in Q. destruct (N.eqb_spec a 39) as [->|]; [|reflexivity]. cbn [andb].
        apply andb_true_iff in Q as [Q2 Q]. apply Nat.ltb_lt in Q2.
        destruct v as [|y v]; [cbn in Q; discriminate|]. injection E as -> E. cbn [quotes_ok] in Q.
        destruct (N.eqb_spec b 39) as [->|]; [|reflexivity]. apply andb_true_iff in Q as [Q3 _].
        apply Nat.ltb_lt in Q3. lia. }
      remember (v ++ 39 :: 39 :: 39 :: rest) as w eqn:Ew. destruct w as [|a [|b r2]].
      * destruct v; discriminate.
      * rewrite IH. reflexivity.
      * rewrite (X _ _ _ eq_refl), IH. reflexivity.
    + specialize (IH _ _ Q F A). cbn [read_literal_lines].
      destruct (N.eqb_spec c 10) as [->|N10]; [rewrite IH; reflexivity|].
      destruct P as [P|P]; [|contradiction].
      destruct (N.eqb_spec c 13) as [->|N13]; [discriminate P|].
      rewrite (proj2 (N.eqb_neq c 39)) by assumption. rewrite P, IH. reflexivity.
Qed.

(** ** Styles *)
Lemma look_false : forall s l, l_pretty l = false -> l_pretty (fold_left look s l) = false.
Proof. induction s as [|c s IH]; intros l H; [exact H|]. cbn [fold_left]. apply IH. unfold look. rewrite H. reflexivity. Qed.

Lemma style_looks : forall s l, l_pretty (fold_left look s l) = true ->
  let l' := fold_left look s l in
  Forall (fun c => plain c = true \/ c = 10) s /\
  (l_lines l' = false -> l_lines l = false /\ Forall (fun c => c <> 10) s) /\
  (l_now l' = 0%nat -> (l_now l <= 2)%nat -> quotes_ok (l_now l) s = true) /\
  (l_now l' = 0%nat -> l_most l' = 0%nat -> l_most l = 0%nat /\ l_now l = 0%nat /\ Forall (fun c => c <> 39) s) /\
  (l_prefer l' = true -> l_prefer l = true \/ exists c, In c s /\ (c = 34 \/ c = 92)).
Proof.
  induction s as [|c s IH]; intros l H; cbn [fold_left] in *.
  - cbn. repeat split; auto. intros N _. apply Nat.eqb_eq. exact N.
  - destruct (l_pretty l) eqn:P; [|rewrite look_false in H; [discriminate|unfold look; rewrite P; reflexivity]].
    destruct (IH _ H) as (A & B & C & D & E). clear IH.
    assert (PL : l_pretty (look l c) = true).
    { destruct (l_pretty (look l c)) eqn:X; [reflexivity|]. rewrite look_false in H; [discriminate|exact X]. }
    set (l' := fold_left look s (look l c)) in *.
    unfold look in PL, B, C, D, E. rewrite P in PL, B, C, D, E.
    cbn [l_pretty l_lines l_now l_most l_prefer] in PL, B, C, D, E.
    apply andb_true_iff in PL as [PL1 PL2].
    assert (PC : plain c = true \/ c = 10).
    { apply orb_true_iff in PL2 as [PL2|X]; [apply orb_true_iff in PL2 as [X|X]|].
      - left. apply plain_control. apply negb_true_iff. exact X.
      - apply N.eqb_eq in X. subst. left. reflexivity.
      - apply N.eqb_eq in X. auto. }
    split; [|split; [|split; [|split]]].
    + constructor; assumption.
    + intro X. apply B in X as [X Y]. apply orb_false_iff in X as [X0 X]. split; [exact X0|]. constructor; [apply N.eqb_neq; exact X|exact Y].
    + intros X Y. cbn [quotes_ok]. specialize (C X).
      destruct (c =? 39); [|apply C; lia].
      apply negb_true_iff, Nat.leb_gt in PL1. rewrite C by lia.
      rewrite (proj2 (Nat.ltb_lt _ _)) by lia. reflexivity.
    + intros X Y. destruct (D X Y) as (D1 & D2 & D3). destruct (N.eqb_spec c 39) as [->|NC]; [discriminate D2|].
      split; [lia|]. split; [lia|]. constructor; assumption.
    + intro X. destruct (E X) as [Y|(d & I & Y)].
      * apply orb_true_iff in Y as [Y|Y]; [apply orb_true_iff in Y as [Y|Y]|].
        -- left. exact Y.
        -- right. exists c. apply N.eqb_eq in Y. split; [left; reflexivity|auto].
        -- right. exists c. apply N.eqb_eq in Y. split; [left; reflexivity|auto].
      * right. exists d. split; [right; exact I|exact Y].
Qed.

Lemma escape_head : forall b c, exists d tl, toml_escape b c = d :: tl /\ d <> 34 /\ d <> 39 \/ toml_escape b c = d :: tl /\ c = 39 /\ d = 39.
Proof.
  intros b c. unfold toml_escape.
  destruct (N.eqb_spec c 8); [do 2 eexists; left; split; [reflexivity|split; discriminate]|].
  destruct (N.eqb_spec c 9); [do 2 eexists; left; split; [reflexivity|split; discriminate]|].
  destruct (N.eqb_spec c 10); [destruct b; do 2 eexists; left; (split; [reflexivity|split; discriminate])|].
  destruct (N.eqb_spec c 12); [do 2 eexists; left; split; [reflexivity|split; discriminate]|].
  destruct (N.eqb_spec c 13); [do 2 eexists; left; split; [reflexivity|split; discriminate]|].
  destruct (N.eqb_spec c 34); [do 2 eexists; left; split; [reflexivity|split; discriminate]|].
  destruct (N.eqb_spec c 92); [do 2 eexists; left; split; [reflexivity|split; discriminate]|].
  destruct (control c); [do 2 eexists; left; split; [reflexivity|split; discriminate]|].
  destruct (N.eqb_spec c 39) as [->|]; do 2 eexists; [right; auto|left; auto].
Qed.

Lemma starts_no : forall q a r, a <> q -> starts_triple q (a :: r) = None.
Proof. intros q a [|b [|c r]] H; [reflexivity..|]. cbn. rewrite (proj2 (N.eqb_neq a q)) by exact H. reflexivity. Qed.
Lemma starts_no2 : forall q a b r, b <> q -> starts_triple q (a :: b :: r) = None.
Proof. intros q a b [|c r] H; [reflexivity|]. cbn. rewrite (proj2 (N.eqb_neq b q)) by exact H. rewrite andb_false_r. reflexivity. Qed.

Theorem string_read : forall s rest, after_string rest -> read_string (write_str s ++ rest) = Some (s, rest).
Proof.
  intros s rest A. unfold write_str, infer_style.
  set (l := fold_left look s (mkLooks true false false 0 0)).
  destruct (l_pretty l && l_prefer l && Nat.eqb (l_now l) 0) eqn:E.
  - apply andb_true_iff in E as [E E3]. apply andb_true_iff in E as [E1 E2]. apply Nat.eqb_eq in E3.
    destruct (style_looks s _ E1) as (F & B & C & D & P). fold l in B, C, D, P. cbn [l_now l_lines l_most l_prefer] in B, C, D, P.
    specialize (C E3 ltac:(lia)).
    destruct (l_lines l) eqn:EL.
    + rewrite <- !app_assoc. cbn [app]. unfold read_string.
      rewrite starts_no by discriminate. cbn [starts_triple N.eqb Pos.eqb andb drop_newline newline].
      apply (literal_lines_read s 0); assumption.
    + destruct (B eq_refl) as [_ B'].
      assert (F' : Forall (fun c => plain c = true) s).
      { rewrite Forall_forall in *. intros c I. destruct (F c I) as [X|X]; [exact X|]. exfalso. apply (B' c I X). }
      destruct (Nat.eqb_spec (l_most l) 0) as [EM|EM].
      * destruct (D E3 EM) as (_ & _ & D').
        assert (F2 : Forall (fun c => plain c = true /\ c <> 39) s) by (rewrite Forall_forall in *; intros c I; split; auto).
        destruct s as [|c s].
        { destruct (P E2) as [X|(d & [] & _)]. discriminate X. }
        rewrite <- !app_assoc. cbn [app]. unfold read_string. rewrite starts_no by discriminate.
        assert (NC : c <> 39) by (apply Forall_inv in D'; exact D').
        rewrite starts_no2 by exact NC. cbn [N.eqb Pos.eqb].
        exact (literal_read (c :: s) rest F2).
      * rewrite <- !app_assoc. cbn [app]. unfold read_string. rewrite starts_no by discriminate.
        cbn [starts_triple N.eqb Pos.eqb andb].
        assert (DN : drop_newline (s ++ 39 :: 39 :: 39 :: rest) = s ++ 39 :: 39 :: 39 :: rest).
        { unfold drop_newline. destruct s as [|c s]; [reflexivity|]. cbn [app newline].
          apply Forall_inv in F', B'. rewrite (proj2 (N.eqb_neq c 10)) by exact B'.
          destruct (N.eqb_spec c 13) as [->|]; [discriminate F'|reflexivity]. }
        rewrite DN. apply (literal_lines_read s 0); assumption.
  - destruct (l_lines l).
    + rewrite <- !app_assoc. cbn [app]. unfold read_string. cbn [starts_triple N.eqb Pos.eqb andb drop_newline newline].
      apply lines_read. exact A.
    + rewrite <- !app_assoc. cbn [app]. unfold read_string.
      assert (S3 : starts_triple 34 (34 :: flat_map (toml_escape false) s ++ 34 :: rest) = None).
      { destruct s as [|c s].
        - cbn [flat_map app]. destruct rest as [|d rest]; [reflexivity|]. cbn. rewrite (proj2 (N.eqb_neq d 34)); [reflexivity|].
          destruct A; assumption.
        - cbn [flat_map]. destruct (escape_head false c) as (d & tl & [(Ed & X & _)|(Ed & _ & ->)]); rewrite Ed; cbn [app];
            apply starts_no2; [exact X|discriminate]. }
      rewrite S3, starts_no by discriminate. cbn [N.eqb Pos.eqb]. apply basic_read.
Qed.

(** ** Keys *)
Definition after_key (rest : str) : Prop := match rest with c :: _ => bare_char c = false | [] => True end.

Lemma bare_read : forall k rest, forallb bare_char k = true -> after_key rest -> span_bare (k ++ rest) = (k, rest).
Proof.
  induction k as [|c k IH]; intros rest F A.
  - destruct rest as [|d rest]; [reflexivity|]. cbn in A |- *. rewrite A. reflexivity.
  - cbn [forallb] in F. apply andb_true_iff in F as [F1 F2]. cbn [app span_bare]. rewrite F1, (IH rest F2 A). reflexivity.
Qed.

Lemma bare_not : forall c, bare_char c = true ->
  c <> 34 /\ c <> 39 /\ c <> 91 /\ c <> 35 /\ c <> 10 /\ c <> 13 /\ blank c = false.
Proof.
  intros c H.
  assert (X : forall d, bare_char d = false -> c <> d) by (intros d D ->; congruence).
  repeat split; try (apply X; reflexivity). unfold blank. apply orb_false_iff. split; apply N.eqb_neq; apply X; reflexivity.
Qed.

Lemma key_head : forall k, exists c tl, write_key k = c :: tl /\ (c = 34 \/ bare_char c = true).
Proof.
  intros [|c k]; [exists 34, [34]; auto|]. unfold write_key. destruct (forallb bare_char (c :: k)) eqn:E.
  - exists c, k. split; [reflexivity|]. cbn in E. apply andb_true_iff in E as [E _]. auto.
  - eexists _, _. split; [reflexivity|auto].
Qed.

Lemma simple_key_read : forall k rest, after_key rest -> read_simple_key (write_key k ++ rest) = Some (k, rest).
Proof.
  intros [|c k] rest A; [reflexivity|]. unfold write_key. destruct (forallb bare_char (c :: k)) eqn:E.
  - cbn [app read_simple_key].
    assert (BC : bare_char c = true) by (cbn in E; apply andb_true_iff in E as [E _]; exact E).
    destruct (bare_not c BC) as (N1 & N2 & _).
    rewrite (proj2 (N.eqb_neq c 34)), (proj2 (N.eqb_neq c 39)) by assumption.
    change (c :: k ++ rest) with ((c :: k) ++ rest). rewrite (bare_read (c :: k) rest E A). reflexivity.
  - rewrite <- !app_assoc. cbn [app read_simple_key]. change (34 =? 34) with true. cbv iota. apply basic_read.
Qed.

Lemma skip_ws_head : forall c tl, blank c = false -> skip_ws (c :: tl) = c :: tl.
Proof. intros c tl H. cbn. rewrite H. reflexivity. Qed.

Lemma key_blank : forall k rest, skip_ws (write_key k ++ rest) = write_key k ++ rest.
Proof.
  intros k rest. destruct (key_head k) as (c & tl & -> & H). cbn [app]. apply skip_ws_head.
  destruct H as [->|H]; [reflexivity|apply bare_not; exact H].
Qed.

Lemma key_skip : forall k rest, skip_blank false (write_key k ++ rest) = write_key k ++ rest.
Proof.
  intros k rest. destruct (key_head k) as (c & tl & -> & H). cbn [app skip_blank andb].
  destruct H as [->|H]; [reflexivity|]. destruct (bare_not c H) as (_ & _ & _ & N35 & N10 & N13 & B).
  rewrite B, (proj2 (N.eqb_neq c 10)), (proj2 (N.eqb_neq c 13)), (proj2 (N.eqb_neq c 35)) by assumption. reflexivity.
Qed.

(** A key is followed by " =" or by "]". *)
Definition key_end (rest r : str) : Prop :=
  after_key rest /\ skip_ws rest = r /\ match rest with c :: _ => c <> 46 | [] => True end /\
  exists c r', r = c :: r' /\ c <> 46.

Lemma key_read : forall path rest r fuel, path <> [] -> key_end rest r -> (length path <= fuel)%nat ->
  read_key fuel (sep_by (lit ".") (map write_key path) ++ rest) = Some (path, r).
Proof.
  induction path as [|k path IH]; intros rest r fuel NE KE HF; [contradiction|].
  destruct fuel as [|fuel]; [cbn in HF; lia|]. cbn [read_key]. destruct path as [|k2 path].
  - cbn [map sep_by]. destruct KE as (A & W & _ & c & r' & -> & NC). rewrite (simple_key_read k rest A).
    cbn [opt_bind]. rewrite W. rewrite (proj2 (N.eqb_neq c 46)) by exact NC. reflexivity.
  - change (sep_by (lit ".") (map write_key (k :: k2 :: path)))
      with (write_key k ++ [46] ++ sep_by (lit ".") (map write_key (k2 :: path))).
    rewrite <- !app_assoc, simple_key_read by reflexivity. cbn [opt_bind app].
    rewrite skip_ws_head by reflexivity. change (46 =? 46) with true. cbv iota.
    assert (W : skip_ws (sep_by (lit ".") (map write_key (k2 :: path)) ++ rest) = sep_by (lit ".") (map write_key (k2 :: path)) ++ rest).
    { cbn [map sep_by]. destruct (map write_key path); [|rewrite <- app_assoc]; apply key_blank. }
    rewrite W, (IH rest r fuel); [reflexivity|discriminate|exact KE|cbn [length] in *; lia].
Qed.

(** ** Values *)
Definition simple (j : json) : Prop :=
  match j with JStr _ | JBool _ => True | JArr l => Forall (fun x => match x with JStr _ => True | _ => False end) l | _ => False end.

Definition value_text (j : json) : str :=
  match j with
  | JStr s => write_str s
  | JBool b => if b then lit "true" else lit "false"
  | JArr l => [91] ++ sep_by (lit ", ") (map (fun x => match x with JStr s => write_str s | _ => [] end) l) ++ [93]
  | _ => []
  end.

Lemma value_written : forall j, simple j -> write_value j = Ok (value_text j).
Proof.
  intros [|b|z|t|s|l|f] H; try contradiction; [destruct b; reflexivity|reflexivity|].
  cbn [write_value value_text]. cbn [simple] in H.
  assert (E : (fix go (l : list json) : res (list str) :=
                 match l with [] => Ok [] | x :: l' => let! y := write_value x in let! ys := go l' in Ok (y :: ys) end) l =
              Ok (map (fun x => match x with JStr s => write_str s | _ => [] end) l)).
  { induction H as [|x l Hx _ IH]; [reflexivity|]. destruct x; try contradiction. cbn [write_value bind map]. rewrite IH. reflexivity. }
  rewrite E. reflexivity.
Qed.

Lemma write_str_head : forall s, exists c tl, write_str s = c :: tl /\ (c = 34 \/ c = 39).
Proof. intro s. unfold write_str. destruct (infer_style s) as [[] []]; eexists _, _; (split; [reflexivity|auto]). Qed.

Lemma read_value_str : forall s rest fuel, (0 < fuel)%nat -> after_string rest -> read_value fuel (write_str s ++ rest) = Some (JStr s, rest).
Proof.
  intros s rest [|fuel] HF A; [lia|]. pose proof (string_read s rest A) as R. cbn [read_value].
  destruct (write_str_head s) as (c & tl & E & H). rewrite E in *. cbn [app] in *.
  assert (Q : (c =? 34) || (c =? 39) = true) by (destruct H; subst; reflexivity). rewrite Q, R. reflexivity.
Qed.

Definition array_text (ss : list str) : str := sep_by (lit ", ") (map write_str ss).

Lemma skip_str : forall s rest, skip_blank false (write_str s ++ rest) = write_str s ++ rest.
Proof.
  intros s rest. destruct (write_str_head s) as (c & tl & -> & H). cbn [app skip_blank andb].
  destruct H; subst; reflexivity.
Qed.

Lemma read_array_strs : forall ss rest fuel, (length ss < fuel)%nat ->
  read_array fuel (array_text ss ++ 93 :: rest) = Some (map JStr ss, rest) /\
  (ss <> [] -> read_array fuel (32 :: array_text ss ++ 93 :: rest) = Some (map JStr ss, rest)).
Proof.
  induction ss as [|s ss IH]; intros rest fuel HF; (destruct fuel as [|fuel]; [cbn in HF; lia|]).
  - split; [reflexivity|contradiction].
  - cbn [length] in HF.
    assert (M : forall x, skip_blank false x = array_text (s :: ss) ++ 93 :: rest ->
      read_array (S fuel) x = Some (map JStr (s :: ss), rest)).
    { intros x SX. cbn [read_array]. rewrite SX. unfold array_text. cbn [map sep_by].
      destruct ss as [|s2 ss].
      - cbn [map]. destruct (write_str_head s) as (c & tl & E & H).
        pose proof (read_value_str s (93 :: rest) fuel ltac:(cbn in HF; lia) ltac:(split; discriminate)) as R.
        rewrite E in *. cbn [app] in *.
        assert (Q : (c =? 93) = false) by (destruct H; subst; reflexivity).
        rewrite Q, R. reflexivity.
      - cbn [map]. fold (array_text ss).
        change (write_str s ++ lit ", " ++ sep_by (lit ", ") (write_str s2 :: map write_str ss))
          with (write_str s ++ lit ", " ++ array_text (s2 :: ss)).
        rewrite <- !app_assoc. cbn [app lit].
        pose proof (read_value_str s (lit ", " ++ array_text (s2 :: ss) ++ 93 :: rest) fuel ltac:(cbn in HF; lia) ltac:(split; discriminate)) as R.
        destruct (write_str_head s) as (c & tl & E & H). rewrite E in *. cbn [app] in *.
        assert (Q : (c =? 93) = false) by (destruct H; subst; reflexivity).
        rewrite Q, R. cbn [opt_bind].
        change (skip_blank false (lit ", " ++ array_text (s2 :: ss) ++ 93 :: rest)) with (44 :: 32 :: array_text (s2 :: ss) ++ 93 :: rest).
        change (44 =? 44) with true. cbv iota.
        rewrite (proj2 (IH rest fuel ltac:(lia))) by discriminate. reflexivity. }
    split; [|intros _]; apply M; [|change (skip_blank false (32 :: array_text (s :: ss) ++ 93 :: rest)) with (skip_blank false (array_text (s :: ss) ++ 93 :: rest))];
      (unfold array_text; cbn [map sep_by]; destruct (map write_str ss); [|rewrite <- app_assoc]; apply skip_str).
Qed.

Lemma length_write_str : forall s, (2 <= length (write_str s))%nat.
Proof. intro s. unfold write_str. destruct (infer_style s) as [[] []]; cbn [app length]; rewrite ?app_length; cbn; lia. Qed.

Lemma length_array : forall ss, (length ss <= length (array_text ss))%nat.
Proof.
  induction ss as [|s ss IH]; [cbn; lia|]. unfold array_text in *. cbn [map sep_by]. pose proof (length_write_str s).
  destruct ss as [|s2 ss]; [cbn [map length] in *; lia|]. cbn [map] in *.
  rewrite !app_length. change (length (lit ", ")) with 2%nat. cbn [length] in *. lia.
Qed.

Lemma strs_of : forall l, Forall (fun x => match x with JStr _ => True | _ => False end) l -> exists ss, l = map JStr ss.
Proof.
  induction 1 as [|x l Hx _ [ss ->]]; [exists []; reflexivity|]. destruct x as [| | | |s| |]; try contradiction. exists (s :: ss). reflexivity.
Qed.

Lemma array_value : forall ss, value_text (JArr (map JStr ss)) = [91] ++ array_text ss ++ [93].
Proof. intro ss. cbn [value_text]. rewrite map_map. reflexivity. Qed.

Theorem value_read : forall j rest fuel, simple j -> after_string rest -> (length (value_text j) < fuel)%nat ->
  read_value fuel (value_text j ++ rest) = Some (j, rest).
Proof.
  intros [|b|z|t|s|l|f] rest fuel H A HF; try contradiction.
  - destruct fuel as [|fuel]; [lia|]. destruct b; reflexivity.
  - apply read_value_str; [cbn [value_text] in HF; lia|exact A].
  - destruct (strs_of l H) as [ss ->]. rewrite array_value in *.
    destruct fuel as [|fuel]; [lia|]. cbn [app length] in HF |- *. rewrite app_length in HF. cbn [length] in HF.
    pose proof (length_array ss). rewrite <- app_assoc. cbn [app read_value].
    change ((91 =? 34) || (91 =? 39)) with false. change (91 =? 91) with true. cbv iota.
    rewrite (proj1 (read_array_strs ss rest fuel ltac:(lia))). reflexivity.
Qed.

Lemma value_head : forall j rest, simple j -> skip_ws (value_text j ++ rest) = value_text j ++ rest.
Proof.
  intros [|b|z|t|s|l|f] rest H; try contradiction.
  - destruct b; reflexivity.
  - cbn [value_text]. destruct (write_str_head s) as (c & tl & -> & [->| ->]); reflexivity.
  - reflexivity.
Qed.

(** ** Documents *)
Definition pair_text (kv : str * json) : str := write_key (fst kv) ++ lit " = " ++ value_text (snd kv) ++ [10].
Definition pairs_text (kvs : list (str * json)) : str := concat (map pair_text kvs).
Definition pair_lines (kvs : list (str * json)) : list line := map (fun kv => Pair [fst kv] (snd kv)) kvs.

Lemma pairs_written : forall kvs, Forall (fun kv => simple (snd kv)) kvs -> write_pairs kvs = Ok (pairs_text kvs).
Proof.
  intros kvs H. unfold write_pairs, pairs_text.
  assert (E : mapM (fun kv => let! v := write_value (snd kv) in Ok (write_key (fst kv) ++ lit " = " ++ v ++ [10])) kvs = Ok (map pair_text kvs)).
  { induction H as [|kv kvs Hx _ IH]; [reflexivity|]. cbn [mapM map]. rewrite (value_written _ Hx), IH. reflexivity. }
  rewrite E. reflexivity.
Qed.

(** Reading goes on with [rest]. *)
Definition goes_on (rest : str) (ls : list line) : Prop := forall fuel, (length rest < fuel)%nat -> read_document fuel rest = Some ls.

Lemma pair_read : forall kv rest ls, simple (snd kv) -> goes_on rest ls -> goes_on (pair_text kv ++ rest) (Pair [fst kv] (snd kv) :: ls).
Proof.
  intros [k j] rest ls S G fuel HF. unfold pair_text in *. cbn [fst snd] in *.
  rewrite <- !app_assoc in *. destruct fuel as [|fuel]; [lia|]. cbn [read_document].
  rewrite key_skip.
  assert (KR : read_key fuel (write_key k ++ lit " = " ++ value_text j ++ [10] ++ rest) = Some ([k], 61 :: 32 :: value_text j ++ [10] ++ rest)).
  { apply (key_read [k] _ (61 :: 32 :: value_text j ++ [10] ++ rest)); [discriminate| |].
    - repeat split; try discriminate. do 2 eexists. split; [reflexivity|discriminate].
    - rewrite !app_length in HF. cbn [length lit app] in *. lia. }
  assert (HL : (length (value_text j) < fuel)%nat) by (rewrite !app_length in HF; cbn [length] in *; lia).
  assert (HR : (length rest < fuel)%nat) by (rewrite !app_length in HF; cbn [length] in *; lia).
  destruct (key_head k) as (c & tl & E & H). rewrite E in *. cbn [app] in *.
  assert (Q : (c =? 91) = false). { apply N.eqb_neq. destruct H as [->|H]; [discriminate|apply bare_not in H; tauto]. }
  rewrite Q, KR. cbn [opt_bind]. change (61 =? 61) with true. cbv iota.
  change (skip_ws (32 :: value_text j ++ 10 :: rest)) with (skip_ws (value_text j ++ 10 :: rest)).
  rewrite (value_head j _ S), (value_read j (10 :: rest) fuel S ltac:(split; discriminate) HL). cbn [opt_bind].
  change (line_end (10 :: rest)) with (Some rest). cbn [opt_bind]. rewrite (G fuel HR). reflexivity.
Qed.

Lemma pairs_read : forall kvs rest ls, Forall (fun kv => simple (snd kv)) kvs -> goes_on rest ls ->
  goes_on (pairs_text kvs ++ rest) (pair_lines kvs ++ ls).
Proof.
  induction 1 as [|kv kvs Hx _ IH]; intro G; [exact G|].
  unfold pairs_text in *. cbn [map concat pair_lines app]. rewrite <- app_assoc. apply pair_read; auto.
Qed.

Lemma header_read : forall p rest ls, p <> [] -> goes_on rest ls -> goes_on (write_header p ++ rest) (Header p :: ls).
Proof.
  intros p rest ls NE G fuel HF. destruct p as [|k p]; [contradiction|].
  unfold write_header in *. rewrite <- !app_assoc in *. cbn [app] in *.
  destruct fuel as [|fuel]; [lia|]. cbn [read_document].
  change (skip_blank false (91 :: sep_by (lit ".") (map write_key (k :: p)) ++ 93 :: 10 :: rest))
    with (91 :: sep_by (lit ".") (map write_key (k :: p)) ++ 93 :: 10 :: rest). cbv iota.
  change (91 =? 91) with true. cbv iota.
  assert (W : skip_ws (sep_by (lit ".") (map write_key (k :: p)) ++ 93 :: 10 :: rest) = sep_by (lit ".") (map write_key (k :: p)) ++ 93 :: 10 :: rest).
  { cbn [map sep_by]. destruct (map write_key p); [|rewrite <- app_assoc]; apply key_blank. }
  cbn [length] in HF. rewrite app_length in HF. cbn [length] in HF.
  assert (LP : forall q, q <> [] -> (length q <= length (sep_by (lit ".") (map write_key q)))%nat).
  { clear. induction q as [|x q IH]; [contradiction|]. intros _. destruct (key_head x) as (c & tl & E & _).
    cbn [map sep_by]. destruct q as [|y q]; [cbn [map]; rewrite E; cbn; lia|].
    specialize (IH ltac:(discriminate)). cbn [map] in IH |- *. rewrite !app_length. rewrite E. cbn [length] in *. cbn in *. lia. }
  specialize (LP (k :: p) NE).
  rewrite W, (key_read (k :: p) (93 :: 10 :: rest) (93 :: 10 :: rest) fuel NE).
  - cbn [opt_bind]. change (93 =? 93) with true. cbv iota. change (line_end (10 :: rest)) with (Some rest). cbn [opt_bind].
    rewrite G by lia. reflexivity.
  - repeat split; try discriminate. do 2 eexists. split; [reflexivity|discriminate].
  - lia.
Qed.

Definition section_text (s : list str * list (str * json)) : str := write_header (fst s) ++ pairs_text (snd s).
Definition section_lines (s : list str * list (str * json)) : list line := Header (fst s) :: pair_lines (snd s).
Definition good_section (s : list str * list (str * json)) : Prop := fst s <> [] /\ Forall (fun kv => simple (snd kv)) (snd s).

Lemma sections_read : forall ss, Forall good_section ss -> goes_on (sep_by [10] (map section_text ss)) (flat_map section_lines ss).
Proof.
  induction 1 as [|[p kvs] ss [G1 G2] _ IH].
  - intros [|fuel] HF; [cbn in HF; lia|reflexivity].
  - cbn [fst snd] in *. cbn [map sep_by flat_map]. unfold section_lines at 1. cbn [fst snd].
    destruct (map section_text ss) as [|t ts] eqn:E.
    + destruct ss; [|discriminate]. unfold section_text. cbn [fst snd flat_map]. rewrite app_nil_r.
      apply header_read; [exact G1|]. rewrite <- (app_nil_r (pair_lines kvs)), <- (app_nil_r (pairs_text kvs)).
      apply pairs_read; [exact G2|]. intros [|fuel] HF; [cbn in HF; lia|reflexivity].
    + unfold section_text. cbn [fst snd]. rewrite <- app_assoc. cbn [app].
      apply header_read; [exact G1|]. apply pairs_read; [exact G2|].
      intros fuel HF. cbn [app] in *. destruct fuel as [|fuel]; [cbn in HF; lia|].
      specialize (IH (S fuel) ltac:(cbn [length] in HF; lia)). exact IH.
Qed.

(** ** Putting the tables together *)
Lemma group_pairs : forall kvs ls, group (pair_lines kvs ++ ls) = (map (fun kv => ([fst kv], snd kv)) kvs ++ fst (group ls), snd (group ls)).
Proof.
  induction kvs as [|kv kvs IH]; intro ls; [cbn; destruct (group ls); reflexivity|].
  cbn [pair_lines map app group]. fold (pair_lines kvs). rewrite IH. reflexivity.
Qed.

Lemma group_sections : forall ss, group (flat_map section_lines ss) = ([], map (fun s => (fst s, map (fun kv => ([fst kv], snd kv)) (snd s))) ss).
Proof.
  induction ss as [|[p kvs] ss IH]; [reflexivity|].
  cbn [flat_map section_lines fst snd app group map]. rewrite group_pairs, IH. cbn [fst snd]. rewrite app_nil_r. reflexivity.
Qed.

Lemma find_none : forall k kvs, ~ In k (map fst kvs) -> find_item k kvs = None.
Proof.
  intros k kvs. induction kvs as [|[k' i] kvs IH]; intro H; [reflexivity|]. cbn [find_item]. cbn [map fst In] in H.
  destruct (str_eqb k k') eqn:E; [apply str_eqb_eq in E; exfalso; apply H; left; symmetry; exact E|apply IH; tauto].
Qed.

Lemma add_pairs_fresh : forall kvs done, NoDup (map fst done ++ map fst kvs) ->
  add_pairs (map (fun kv => ([fst kv], snd kv)) kvs) done = Some (done ++ map (fun kv => (fst kv, Value (snd kv))) kvs).
Proof.
  induction kvs as [|[k j] kvs IH]; intros done ND; [cbn; rewrite app_nil_r; reflexivity|].
  cbn [map fst snd add_pairs add_pair]. cbn [map fst] in ND.
  rewrite find_none by (apply NoDup_remove_2 in ND; intro X; apply ND; apply in_or_app; left; exact X).
  cbn [opt_bind]. rewrite IH; [rewrite <- app_assoc; reflexivity|].
  rewrite map_app. cbn [map fst]. rewrite <- app_assoc. exact ND.
Qed.

Definition body_items (kvs : list (str * json)) : list (str * item) := map (fun kv => (fst kv, Value (snd kv))) kvs.

Lemma body_added : forall kvs, NoDup (map fst kvs) -> add_pairs (map (fun kv => ([fst kv], snd kv)) kvs) [] = Some (body_items kvs).
Proof. intros kvs ND. apply (add_pairs_fresh kvs []). exact ND. Qed.

Lemma items_back : forall kvs, map (fun kv => (fst kv, item_json (snd kv))) (body_items kvs) = kvs.
Proof. induction kvs as [|[k j] kvs IH]; [reflexivity|]. cbn. f_equal. exact IH. Qed.

(** ** The configuration *)
Definition doc_pairs (d : document) : list (str * json) :=
  [(lit "name", JStr (d_name d)); (lit "version", JStr (d_version d)); (lit "backend", JStr (d_backend d));
   (lit "authors", JArr (map JStr (d_authors d)))].
Definition hook_pair (name : string) (o : option bool) : list (str * json) :=
  match o with Some b => [(lit name, JBool b)] | None => [] end.
Definition schema_pairs (s : schema) : list (str * json) :=
  [(lit "schema", JStr (lit "github")); (lit "owner", JStr (s_owner s)); (lit "repo", JStr (s_repo s)); (lit "version", JStr (s_version s))]
  ++ hook_pair "expr_hook" (s_expr_hook s) ++ hook_pair "stmt_hook" (s_stmt_hook s)
  ++ hook_pair "document_hook" (s_document_hook s) ++ hook_pair "text_hook" (s_text_hook s).

Lemma ser_document_pairs : forall d, ser_document d = JObj (doc_pairs d).
Proof. reflexivity. Qed.
Lemma ser_schema_pairs : forall s, ser_schema s = JObj (schema_pairs s).
Proof. intros [o r v [|] [|] [|] [|]]; reflexivity. Qed.

Lemma schema_simple : forall s, Forall (fun kv => simple (snd kv)) (schema_pairs s).
Proof. intros [o r v e m d t]. destruct e, m, d, t; cbn; repeat (constructor; try exact I). Qed.
Lemma doc_simple : forall d, Forall (fun kv => simple (snd kv)) (doc_pairs d).
Proof.
  intro d. repeat (constructor; try exact I). cbn. induction (d_authors d); cbn; constructor; auto.
Qed.
Lemma schema_nodup : forall s, NoDup (map fst (schema_pairs s)).
Proof.
  intros [o r v e m d t]. destruct e, m, d, t; cbn;
    repeat (constructor; [cbn [In]; intro X; repeat (destruct X as [X|X]; [discriminate X|]); exact X|]); constructor.
Qed.
Lemma doc_nodup : forall d, NoDup (map fst (doc_pairs d)).
Proof. intro d. cbn. repeat (constructor; [cbn [In]; intro X; repeat (destruct X as [X|X]; [discriminate X|]); exact X|]); constructor. Qed.

Definition plugin_section (p : str * schema) : list str * list (str * json) := ([lit "plugins"; fst p], schema_pairs (snd p)).
Definition config_sections (c : config) : list (list str * list (str * json)) :=
  ([lit "document"], doc_pairs (c_document c)) ::
  match c_plugins c with None => [] | Some [] => [([lit "plugins"], [])] | Some ps => map plugin_section ps end.

Lemma no_tables : forall kvs : list (str * json), Forall (fun kv => simple (snd kv)) kvs -> filter (fun kv => negb (is_table (snd kv))) kvs = kvs.
Proof.
  induction 1 as [|[k j] kvs Hx _ IH]; [reflexivity|]. cbn [filter snd]. cbn [snd] in Hx. destruct j; try contradiction Hx; cbn; rewrite IH; reflexivity.
Qed.

Lemma leaf_section : forall path (kvs : list (str * json)), kvs <> [] -> Forall (fun kv => simple (snd kv)) kvs -> sections path (JObj kvs) = [(path, kvs)].
Proof.
  intros path kvs NE F. cbn [sections]. rewrite no_tables by exact F.
  match goal with |- _ ++ ?g = _ => assert (E : g = []) end.
  { clear NE. induction F as [|[k j] l Hx _ IH]; [reflexivity|]. cbn [snd] in Hx. rewrite IH. destruct j; try contradiction Hx; reflexivity. }
  rewrite E, app_nil_r. destruct kvs as [|kv kvs]; [contradiction|reflexivity].
Qed.

Lemma sections_config : forall c, sections [] (ser_config c) = config_sections c.
Proof.
  intro c. unfold ser_config, config_sections. rewrite ser_document_pairs.
  assert (D : sections ([] ++ [lit "document"]) (JObj (doc_pairs (c_document c))) = [([lit "document"], doc_pairs (c_document c))]).
  { apply leaf_section; [discriminate|apply doc_simple]. }
  remember (JObj (doc_pairs (c_document c))) as dj eqn:ED.
  destruct (c_plugins c) as [ps|].
  - cbn [sections]. assert (ND : is_table dj = true) by (subst dj; reflexivity).
    cbn [filter snd]. rewrite ND. cbn [negb filter is_table snd app]. cbn [app] in D. rewrite D. cbn [app]. f_equal. rewrite app_nil_r.
    destruct ps as [|p ps]; [reflexivity|].
    assert (F : filter (fun kv : str * json => negb (is_table (snd kv))) (map (fun p => (fst p, ser_schema (snd p))) (p :: ps)) = []).
    { generalize (p :: ps) as l. induction l as [|q l IH]; [reflexivity|]. cbn [map filter snd]. exact IH. }
    rewrite F. cbn [map app]. clear F.
    assert (S : forall q, sections ([lit "plugins"] ++ [fst q]) (ser_schema (snd q)) = [plugin_section q]).
    { intro q. rewrite ser_schema_pairs. apply leaf_section; [discriminate|apply schema_simple]. }
    cbn [app] in S. rewrite S. cbn [app]. f_equal.
    induction ps as [|q ps IH]; [reflexivity|]. cbn [map]. rewrite S. cbn [app]. f_equal. exact IH.
  - cbn [sections]. cbn [filter snd]. subst dj. cbn [is_table negb app]. cbn [app] in D. rewrite D. reflexivity.
Qed.

Lemma config_sections_good : forall c, Forall good_section (config_sections c).
Proof.
  intro c. unfold config_sections. constructor; [split; [discriminate|apply doc_simple]|].
  destruct (c_plugins c) as [[|p ps]|]; [repeat constructor; discriminate| |constructor].
  apply Forall_forall. intros s I. apply in_map_iff in I as (q & <- & _). split; [discriminate|apply schema_simple].
Qed.

Lemma sections_written : forall ss, Forall good_section ss ->
  mapM (fun s => let! b := write_pairs (snd s) in Ok (write_header (fst s) ++ b)) ss = Ok (map section_text ss).
Proof.
  induction 1 as [|s ss [_ G] _ IH]; [reflexivity|]. cbn [mapM map]. rewrite (pairs_written _ G), IH. reflexivity.
Qed.

Definition config_text (c : config) : str := sep_by [10] (map section_text (config_sections c)).
Lemma config_written : forall c, toml_text (ser_config c) = Ok (config_text c).
Proof.
  intro c. unfold toml_text. rewrite sections_config, sections_written by apply config_sections_good. reflexivity.
Qed.

(** The plugins read so far. *)
Definition plugin_items (ps : list (str * schema)) : list (str * item) :=
  map (fun p => (fst p, Table false false (body_items (schema_pairs (snd p))))) ps.

Lemma plugins_added : forall ps done doc, done <> [] -> NoDup (map fst done ++ map fst ps) ->
  add_sections (map (fun s => (fst s, map (fun kv => ([fst kv], snd kv)) (snd s))) (map plugin_section ps))
    [(lit "document", doc); (lit "plugins", Table true false (plugin_items done))] =
  Some [(lit "document", doc); (lit "plugins", Table true false (plugin_items (done ++ ps)))].
Proof.
  induction ps as [|p ps IH]; intros done doc NE ND; [rewrite app_nil_r; reflexivity|].
  cbn [map plugin_section fst snd add_sections add_section].
  change (find_item (lit "plugins") [(lit "document", doc); (lit "plugins", Table true false (plugin_items done))])
    with (Some (Table true false (plugin_items done))). cbv iota.
  cbn [map] in ND.
  rewrite find_none.
  - rewrite (body_added _ (schema_nodup (snd p))). cbn [opt_bind].
    change (set_item (lit "plugins") ?v [(lit "document", doc); (lit "plugins", ?w)]) with [(lit "document", doc); (lit "plugins", v)].
    change [(fst p, Table false false (body_items (schema_pairs (snd p))))] with (plugin_items [p]).
    unfold plugin_items at 1 2. rewrite <- map_app. fold (plugin_items (done ++ [p])).
    rewrite IH; [rewrite <- app_assoc; reflexivity|destruct done; discriminate|].
    rewrite map_app, <- app_assoc. exact ND.
  - unfold plugin_items. rewrite map_map. cbn [fst]. apply NoDup_remove_2 in ND. intro X. apply ND. apply in_or_app. left. exact X.
Qed.

Lemma plugins_back : forall ps, map (fun kv => (fst kv, item_json (snd kv))) (plugin_items ps) = map (fun p => (fst p, ser_schema (snd p))) ps.
Proof.
  induction ps as [|p ps IH]; [reflexivity|]. cbn [plugin_items map fst snd]. fold (plugin_items ps). rewrite IH. f_equal. f_equal.
  cbn [item_json]. rewrite items_back, ser_schema_pairs. reflexivity.
Qed.

Lemma config_read : forall c, match c_plugins c with Some ps => NoDup (map fst ps) | None => True end ->
  toml_parse (config_text c) = Ok (ser_config c).
Proof.
  intros c ND. unfold toml_parse, config_text.
  rewrite (sections_read _ (config_sections_good c) _ (le_n _)).
  cbn [opt_bind]. rewrite group_sections. cbn [add_pairs opt_bind].
  unfold config_sections. cbn [map fst snd add_sections add_section find_item].
  rewrite (body_added _ (doc_nodup (c_document c))). cbn [opt_bind app].
  unfold ser_config. rewrite ser_document_pairs.
  destruct (c_plugins c) as [[|p ps]|].
  - cbn -[body_items doc_pairs]. rewrite items_back. reflexivity.
  - cbn [map plugin_section fst snd add_sections add_section].
    change (find_item (lit "plugins") [(lit "document", ?d)]) with (@None item). cbv iota.
    cbn [find_item]. rewrite (body_added _ (schema_nodup (snd p))). cbn [opt_bind app].
    change [(fst p, Table false false (body_items (schema_pairs (snd p))))] with (plugin_items [p]).
    rewrite plugins_added; [|discriminate|exact ND].
    cbn [opt_bind app item_json map fst snd]. rewrite items_back.
    fold (plugin_items (p :: ps)). rewrite plugins_back. reflexivity.
  - cbn -[body_items doc_pairs]. rewrite items_back. reflexivity.
Qed.

(** ** The text consists of Unicode scalar values *)
Lemma ascii_scalar : forall c, c < 128 -> scalar c.
Proof. intros c H. left. lia. Qed.
Ltac ascii := repeat (constructor; [apply ascii_scalar; reflexivity|]); constructor.

Lemma hex_small : forall n, n < 16 -> hex_upper n < 128.
Proof. intros n H. unfold hex_upper. destruct (n <? 10) eqn:E; lia. Qed.

Lemma escape_scalar : forall lines c, scalar c -> Forall scalar (toml_escape lines c).
Proof.
  intros lines c H. unfold toml_escape.
  destruct (c =? 8); [ascii|]. destruct (c =? 9); [ascii|]. destruct (c =? 10); [destruct lines; ascii|].
  destruct (c =? 12); [ascii|]. destruct (c =? 13); [ascii|]. destruct (c =? 34); [ascii|]. destruct (c =? 92); [ascii|].
  destruct (control c) eqn:E; [|constructor; [exact H|constructor]].
  assert (c < 128). { unfold control in E. lia. }
  do 4 (constructor; [apply ascii_scalar; reflexivity|]). constructor; [|constructor; [|constructor]].
  - apply ascii_scalar, hex_small. apply N.div_lt_upper_bound; lia.
  - apply ascii_scalar, hex_small. apply N.mod_lt. discriminate.
Qed.

Lemma escaped_scalar : forall lines s, Forall scalar s -> Forall scalar (flat_map (toml_escape lines) s).
Proof. induction 1; cbn; [constructor|]. apply Forall_app. split; [apply escape_scalar|]; assumption. Qed.

Lemma write_str_scalar : forall s, Forall scalar s -> Forall scalar (write_str s).
Proof.
  intros s H. unfold write_str. destruct (infer_style s) as [[] []]; repeat (apply Forall_app; split);
    try (apply escaped_scalar); try exact H; ascii.
Qed.

Lemma write_key_scalar : forall k, Forall scalar k -> Forall scalar (write_key k).
Proof.
  intros [|c k] H; [ascii|]. unfold write_key. destruct (forallb bare_char (c :: k)); [exact H|].
  apply Forall_app. split; [ascii|]. apply Forall_app. split; [apply escaped_scalar; exact H|ascii].
Qed.

Lemma sep_by_scalar : forall sep l, Forall scalar sep -> Forall (Forall scalar) l -> Forall scalar (sep_by sep l).
Proof.
  intros sep l S. induction 1 as [|x l Hx Hl IH]; [constructor|]. cbn [sep_by]. destruct l; [exact Hx|].
  repeat (apply Forall_app; split); assumption.
Qed.

Definition pair_scalar (kv : str * json) : Prop := Forall scalar (fst kv) /\ Forall scalar (value_text (snd kv)).

Lemma pairs_scalar : forall kvs, Forall pair_scalar kvs -> Forall scalar (pairs_text kvs).
Proof.
  induction 1 as [|kv kvs [H1 H2] _ IH]; [constructor|]. unfold pairs_text in *. cbn [map concat]. apply Forall_app. split; [|exact IH].
  unfold pair_text. repeat (apply Forall_app; split); [apply write_key_scalar; exact H1|ascii|exact H2|ascii].
Qed.

Lemma section_scalar : forall s, Forall (Forall scalar) (fst s) -> Forall pair_scalar (snd s) -> Forall scalar (section_text s).
Proof.
  intros [p kvs] HP HK. unfold section_text. cbn [fst snd] in *. apply Forall_app. split; [|apply pairs_scalar; exact HK].
  unfold write_header. destruct p; [constructor|]. repeat (apply Forall_app; split); try ascii. apply sep_by_scalar; [ascii|].
  apply Forall_forall. intros x I. apply in_map_iff in I as (k & <- & I). apply write_key_scalar. rewrite Forall_forall in HP. auto.
Qed.

Lemma authors_scalar : forall ss, Forall (Forall scalar) ss -> Forall scalar (value_text (JArr (map JStr ss))).
Proof.
  intros ss H. rewrite array_value. repeat (apply Forall_app; split); try ascii. apply sep_by_scalar; [ascii|].
  apply Forall_forall. intros x I. apply in_map_iff in I as (k & <- & I). apply write_str_scalar. rewrite Forall_forall in H. auto.
Qed.

Lemma config_scalar : forall c, config_storable c -> Forall scalar (config_text c).
Proof.
  intros c (H1 & H2 & H3 & H4 & H5). apply sep_by_scalar; [ascii|]. unfold config_sections. cbn [map]. constructor.
  - apply section_scalar; cbn [fst snd]; [constructor; [ascii|constructor]|]. unfold doc_pairs.
    repeat (constructor; [split; cbn [fst snd]; [ascii|]; first [apply authors_scalar; assumption|apply write_str_scalar; assumption]|]). constructor.
  - destruct (c_plugins c) as [[|p ps]|]; [|destruct H5 as [_ H5]|constructor].
    + cbn [map]. constructor; [ascii|constructor].
    + apply Forall_forall. intros x I. apply in_map_iff in I as (s & <- & I). apply in_map_iff in I as (q & <- & I).
      rewrite Forall_forall in H5. destruct (H5 q I) as (K & S1 & S2 & S3).
      apply section_scalar; cbn [fst snd plugin_section]; [constructor; [ascii|constructor; [exact K|constructor]]|].
      destruct q as [k [o r v e m d t]]. cbn [snd s_owner s_repo s_version] in *. unfold schema_pairs. cbn [s_owner s_repo s_version s_expr_hook s_stmt_hook s_document_hook s_text_hook].
      assert (HP : forall n b, (Forall scalar (lit n)) -> Forall pair_scalar (hook_pair n b)).
      { intros n [b|] Hn; [constructor; [split; [exact Hn|destruct b; ascii]|]|]; constructor. }
      repeat (apply Forall_app; split); try (apply HP; ascii).
      repeat (constructor; [split; cbn [fst snd]; [ascii|]; first [apply write_str_scalar; assumption|apply (write_str_scalar (lit "github")); ascii]|]). constructor.
Qed.

Theorem toml_crate_law : toml_law toml_crate.
Proof.
  intros c S. exists (config_text c). split; [apply config_written|]. split; [apply config_scalar; exact S|].
  apply config_read. destruct S as (_ & _ & _ & _ & S). destruct (c_plugins c); [apply S|exact I].
Qed.
