(** More about the framing: any cut of the stream, one message per read, what is written,
    and malformed headers. *)
From Coq Require Import String List NArith ZArith Bool Lia ZifyBool Arith.
From Verif Require Import Base Utf8 Framing SpecFraming FramingProofs.
Import ListNotations.

(** * Any cut *)

Lemma valid_dec : forall b, valid b \/ ~ valid b.
Proof. intro b. unfold valid. destruct (from_utf8 b); [left; discriminate|right; tauto]. Qed.

Lemma reads_cases : forall reads, Forall valid reads \/
  exists pre r post, reads = pre ++ r :: post /\ Forall valid pre /\ ~ valid r.
Proof.
  induction reads as [|r reads IH]; [left; constructor|].
  destruct (valid_dec r) as [V|V].
  - destruct IH as [IH|(pre & r' & post & -> & F & N)].
    + left. constructor; assumption.
    + right. exists (r :: pre), r', post. repeat split; [constructor; assumption|exact N].
  - right. exists [], r, reads. repeat split; [constructor|exact V].
Qed.

Section Cut.
  Context {St V : Type} (checks : bool) (from_str : bytes -> res V)
    (dispatch : St -> V -> St * res unit).

  Lemma run_any_cut : forall reads ms st rest,
    Forall well_formed ms -> Forall (fun r => r <> []) reads ->
    concat reads ++ rest = concat (map raw ms) ->
    exists k, k <= complete ms (length (concat reads)) /\
      let h := handle from_str dispatch (firstn k (map body ms)) st in
      run checks from_str dispatch reads st = h
      \/ (snd h = Ok tt /\ exists e, run checks from_str dispatch reads st = (fst h, Err e)).
  Proof.
    intros reads ms st rest Wf Nr E.
    destruct (reads_cases reads) as [Vr|(pre & r & post & -> & Vp & Vr)].
    - exists (taken_after ms 0 0 reads). split.
      + apply (taken_complete ms reads 0 0). lia.
      + left. eapply run_reads; eassumption.
    - exists (taken_after ms 0 0 pre). split.
      + etransitivity; [apply (taken_complete ms pre 0 0); lia|].
        apply complete_mono. rewrite concat_app, app_length. cbn. lia.
      + apply Forall_app in Nr as [Np _]. cbv zeta.
        rewrite (run_broken checks from_str dispatch pre r post ms st rest Wf Vp Np Vr E).
        destruct (handle _ _ _ st) as [st' [[]|e|e|]]; [right; cbn; eauto|left; reflexivity..].
  Qed.
End Cut.

(** * One message per read *)

(** No read completes more than one message. *)
Lemma taken_all : forall ms reads got,
  (forall pre r post, reads = pre ++ r :: post ->
    complete ms (got + length (concat (pre ++ [r]))) <= S (complete ms (got + length (concat pre)))) ->
  taken_after ms got (complete ms got) reads = complete ms (got + length (concat reads)).
Proof.
  intro ms. induction reads as [|r reads IH]; intros got H; cbn [taken_after concat].
  - cbn. rewrite Nat.add_0_r. reflexivity.
  - pose proof (H [] r reads eq_refl) as H0. cbn in H0. rewrite app_nil_r, Nat.add_0_r in H0.
    rewrite Nat.min_r by lia. rewrite IH.
    + rewrite app_length. f_equal. lia.
    + intros pre r' post E. specialize (H (r :: pre) r' post). cbn in H.
      rewrite E in H. specialize (H eq_refl). rewrite !app_length in H.
      rewrite <- !Nat.add_assoc. exact H.
Qed.

Lemma complete_all : forall ms, complete ms (length (concat (map raw ms))) = length ms.
Proof.
  induction ms as [|m ms IH]; cbn; [reflexivity|]. rewrite app_length.
  replace (Nat.leb (length (raw m)) (length (raw m) + length (concat (map raw ms)))) with true
    by (symmetry; apply Nat.leb_le; lia).
  replace (length (raw m) + length (concat (map raw ms)) - length (raw m))
    with (length (concat (map raw ms))) by lia.
  rewrite IH. reflexivity.
Qed.

Lemma complete_zero : forall ms, Forall well_formed ms -> complete ms 0 = 0.
Proof.
  intros [|m ms] W; [reflexivity|]. apply Forall_cons_iff in W as [W _].
  apply raw_length in W. cbn. destruct (length (raw m)); [lia|reflexivity].
Qed.

Section All.
  Context {St V : Type} (checks : bool) (from_str : bytes -> res V)
    (dispatch : St -> V -> St * res unit).

  Lemma run_all : forall reads ms st,
    Forall well_formed ms -> Forall valid reads -> Forall (fun r => r <> []) reads ->
    concat reads = concat (map raw ms) ->
    (forall pre r post, reads = pre ++ r :: post ->
      complete ms (length (concat (pre ++ [r]))) <= S (complete ms (length (concat pre)))) ->
    run checks from_str dispatch reads st = handle from_str dispatch (map body ms) st.
  Proof.
    intros reads ms st Wf Vr Nr E H.
    rewrite (run_reads checks from_str dispatch reads ms st []) by (try assumption; rewrite app_nil_r; exact E).
    pose proof (taken_all ms reads 0 H) as T. rewrite complete_zero in T by exact Wf.
    cbn [Nat.add] in T. rewrite T, E, complete_all, firstn_all2; [reflexivity|].
    rewrite map_length. lia.
  Qed.

  Lemma run_per_message : forall ms st, Forall well_formed ms ->
    run checks from_str dispatch (map raw ms) st = handle from_str dispatch (map body ms) st.
  Proof.
    intros ms st Wf. apply run_all.
    - exact Wf.
    - apply Forall_map. eapply Forall_impl; [|exact Wf]. intros m W. eapply well_framed_valid. exact W.
    - apply Forall_map. eapply Forall_impl; [|exact Wf]. intros m W E.
      apply raw_length in W. rewrite E in W. cbn in W. lia.
    - reflexivity.
    - intros pre r post E.
      assert (Q : exists pm m qm, ms = pm ++ m :: qm /\ pre = map raw pm /\ r = raw m).
      { clear Wf. revert ms E. induction pre as [|p pre IH]; intros [|m ms] E; try discriminate.
        - cbn in E. injection E as <- _. exists [], m, ms. auto.
        - cbn in E. injection E as <- E. destruct (IH ms E) as (pm & m' & qm & -> & -> & ->).
          exists (m :: pm), m', qm. auto. }
      destruct Q as (pm & m & qm & -> & -> & ->). clear E st from_str dispatch checks.
      assert (A : forall x y, complete (x ++ y) (length (concat (map raw x)))
                              = length x + complete y 0).
      { induction x as [|m' x IH]; intro y; cbn; [reflexivity|]. rewrite app_length.
        replace (Nat.leb (length (raw m')) (length (raw m') + length (concat (map raw x)))) with true
          by (symmetry; apply Nat.leb_le; lia).
        replace (length (raw m') + length (concat (map raw x)) - length (raw m'))
          with (length (concat (map raw x))) by lia.
        rewrite IH. reflexivity. }
      apply Forall_app in Wf as [_ Wf]. rewrite A, complete_zero by exact Wf.
      apply Forall_cons_iff in Wf as [_ Wf].
      replace (map raw pm ++ [raw m]) with (map raw (pm ++ [m])) by (rewrite map_app; reflexivity).
      replace (pm ++ m :: qm) with ((pm ++ [m]) ++ qm) by (rewrite <- app_assoc; reflexivity).
      rewrite A, complete_zero, app_length by exact Wf. cbn. lia.
  Qed.
End All.

(** * Writing *)

Lemma dec_go_decimal : forall fuel n, (n < 2 ^ N.of_nat fuel)%N -> decimal (dec_go (S fuel) n) n.
Proof.
  induction fuel as [|fuel IH]; intros n L.
  - cbn in L. assert (n = 0%N) by lia. subst n. apply (decimal_digit 0). lia.
  - remember (S fuel) as f. cbn [dec_go]. destruct (n <? 10)%N eqn:E.
    + apply decimal_digit. lia.
    + pose proof (N.div_mod n 10 ltac:(lia)) as D. rewrite D at 3.
      apply decimal_more; [|apply N.mod_lt; lia].
      subst f. apply IH.
      rewrite Nat2N.inj_succ, N.pow_succ_r' in L.
      apply N.div_lt_upper_bound; lia.
Qed.

Lemma size_nat_bound : forall n, (n < 2 ^ N.of_nat (N.size_nat n))%N.
Proof.
  destruct n as [|p]; [reflexivity|]. cbn [N.size_nat].
  induction p as [p IH|p IH|]; cbn [Pos.size_nat]; [| |reflexivity];
    rewrite Nat2N.inj_succ, N.pow_succ_r'; lia.
Qed.

Lemma dec_decimal : forall n, decimal (dec n) n.
Proof. intro n. apply dec_go_decimal. apply size_nat_bound. Qed.

Lemma decimal_ascii : forall v n, decimal v n -> ascii v /\ one_line v.
Proof.
  intros v n D. apply decimal_digits in D as (_ & F & _). rewrite forallb_forall in F.
  repeat split.
  - apply Forall_forall. intros c I. apply F in I. unfold is_digit in I. lia.
  - intro I. apply F in I. discriminate.
  - intro I. apply F in I. discriminate.
Qed.

Lemma utf8_valid : forall s, Forall scalar s -> valid (utf8 s).
Proof. intros s F. unfold valid. rewrite from_utf8_utf8 by exact F. discriminate. Qed.

Lemma dec_go_length : forall fuel n, length (dec_go fuel n) <= fuel.
Proof.
  induction fuel as [|fuel IH]; intro n; cbn; [lia|].
  destruct (n <? 10)%N; cbn; [lia|]. rewrite app_length. cbn. specialize (IH (n / 10)%N). lia.
Qed.

Lemma send_well_framed : forall msg, Forall scalar msg ->
  (N.of_nat (length (utf8 msg)) < 2147483648)%N -> well_framed (send_message msg) (utf8 msg).
Proof.
  intros msg F L. split; [apply utf8_valid; exact F|]. split; [exact L|].
  set (v := dec (N.of_nat (length (utf8 msg)))).
  assert (D : decimal v (N.of_nat (length (utf8 msg)))) by apply dec_decimal.
  split.
  { unfold send_message. fold v. rewrite !app_length.
    assert (Lv : length v <= 64).
    { unfold v, dec. etransitivity; [apply dec_go_length|].
      assert (Sz : forall n, (n < 2147483648)%N -> N.size_nat n <= 32).
      { intros [|p] B; cbn; [lia|].
        assert (P : forall k p, (N.pos p < 2 ^ N.of_nat k)%N -> Pos.size_nat p <= k).
        { induction k as [|k IH]; intros q Bq; [cbn in Bq; lia|].
          rewrite Nat2N.inj_succ, N.pow_succ_r' in Bq.
          destruct q as [q|q|]; cbn [Pos.size_nat]; [| |lia]; (assert (Pos.size_nat q <= k) by (apply IH; lia)); lia. }
        apply P. change (2 ^ N.of_nat 32)%N with 4294967296%N. lia. }
      specialize (Sz _ L). lia. }
    change (length (lit "Content-Length: ")) with 16. change (length crlf) with 2. lia. }
  exists [(lit "Content-Length", v)]. repeat split.
  - unfold send_message, frame, field. cbn [map concat fst snd]. fold v.
    change (lit "Content-Length: ") with (lit "Content-Length" ++ [58; 32]%N).
    rewrite app_nil_r, <- !app_assoc. reflexivity.
  - constructor; [|constructor]. destruct (decimal_ascii _ _ D) as [A O].
    repeat split; cbn [fst snd]; try apply O.
    + vm_compute. intuition discriminate.
    + vm_compute. intuition discriminate.
    + vm_compute. intuition discriminate.
    + vm_compute. discriminate.
    + apply ascii_valid. exact A.
  - intros w [I|[]]. injection I as <-. exact D.
  - exists v. left. reflexivity.
Qed.

(** * Malformed headers *)

Lemma digits_decimal : forall v, v <> [] -> forallb is_digit v = true ->
  exists n, decimal v n /\ digits_value v = Z.of_N n.
Proof.
  induction v as [|c v IH] using rev_ind; intros NE F; [congruence|].
  rewrite forallb_app in F. apply andb_true_iff in F as [F C]. cbn [forallb] in C.
  rewrite andb_true_r in C. unfold is_digit in C.
  assert (Ec : exists d, (d < 10)%N /\ c = (48 + d)%N) by (exists (c - 48)%N; lia).
  destruct Ec as (d & Ld & ->). destruct v as [|c' v].
  - exists d. split; [apply decimal_digit; exact Ld|]. unfold digits_value. cbn [app fold_left]. lia.
  - destruct (IH ltac:(discriminate) F) as (n & D & E). exists (10 * n + d)%N.
    split; [apply decimal_more; assumption|].
    unfold digits_value in *. rewrite fold_left_app, E. cbn [fold_left]. lia.
Qed.

Lemma parse_digits_decimal : forall v z, parse_digits v = Some z ->
  exists n, decimal v n /\ z = Z.of_N n.
Proof.
  intros v z H. unfold parse_digits in H. destruct v as [|c v]; [discriminate|].
  destruct (forallb is_digit (c :: v)) eqn:F; [|discriminate].
  destruct (digits_decimal (c :: v) ltac:(discriminate) F) as (n & D & E).
  exists n. split; [exact D|]. congruence.
Qed.

Lemma parse_i32_integer : forall v z, parse_i32 v = Ok z -> integer v z /\ (z <= 2147483647)%Z.
Proof.
  intros v z H. unfold parse_i32 in H.
  assert (U : parse_digits v = Some z -> integer v z).
  { intro P. apply parse_digits_decimal in P as (n & D & ->). apply integer_unsigned. exact D. }
  set (r := match v with 45%N :: _ => _ | _ => _ end) in H.
  assert (R : r = Some z /\ (z <= 2147483647)%Z).
  { destruct r as [n|]; [|discriminate]. destruct ((_ <=? _) && _)%Z eqn:Q; [|discriminate].
    injection H as <-. split; [reflexivity|lia]. }
  clear H. destruct R as [R RB]. split; [|exact RB]. unfold r in R. destruct v as [|c v]; [apply U; exact R|].
  destruct (N.eq_dec c 45) as [->|N1].
  - destruct (parse_digits v) as [n|] eqn:P; [|discriminate]. injection R as <-.
    apply parse_digits_decimal in P as (m & D & ->). apply integer_minus. exact D.
  - destruct (N.eq_dec c 43) as [->|N2].
    + apply parse_digits_decimal in R as (m & D & ->). apply integer_plus. exact D.
    + apply U. rewrite <- R. destruct c as [|c]; [reflexivity|].
      do 6 (destruct c as [c|c|]; try reflexivity; try congruence).
Qed.

(** The pieces of a split put together give the string back. *)
Fixpoint join (p : bytes) (ps : list bytes) : bytes :=
  match ps with
  | [] => []
  | [q] => q
  | q :: ps' => q ++ p ++ join p ps'
  end.

Lemma join_cons : forall p q ps, ps <> [] -> join p (q :: ps) = q ++ p ++ join p ps.
Proof. intros p q [|x ps] H; [congruence|reflexivity]. Qed.

Lemma split_go_join : forall x p n s acc, length s <= n ->
  join (x :: p) (split_go (x :: p) 0 acc s) = acc ++ s.
Proof.
  intros x p. induction n as [|n IH]; intros s acc L.
  - destruct s; [|cbn in L; lia]. cbn. rewrite app_nil_r. reflexivity.
  - destruct s as [|c s]; [cbn; rewrite app_nil_r; reflexivity|].
    destruct (starts_with (x :: p) (c :: s)) eqn:S.
    + apply starts_with_app in S as [t E]. rewrite E, split_go_hit.
      rewrite join_cons by apply split_go_nonempty.
      rewrite IH; [reflexivity|]. apply (f_equal (@length N)) in E. rewrite app_length in E.
      cbn in E, L. lia.
    + rewrite split_go_miss by exact S. cbn in L. rewrite IH by lia.
      rewrite <- app_assoc. reflexivity.
Qed.

(** No piece of a split at CR LF contains CR LF. *)
Lemma split_go_pieces : forall n s acc q, length s <= n ->
  ~ (exists x y, acc = x ++ crlf ++ y) -> (forall z c, acc = z ++ [13%N] -> s = c :: tl s -> c <> 10%N) ->
  In q (split_go crlf 0 acc s) -> ~ (exists x y, q = x ++ crlf ++ y).
Proof.
  induction n as [|n IH]; intros s acc q L H1 H2 I.
  - destruct s; [|cbn in L; lia]. cbn in I. destruct I as [<-|[]]. exact H1.
  - destruct s as [|c s]; [cbn in I; destruct I as [<-|[]]; exact H1|].
    destruct (starts_with crlf (c :: s)) eqn:S.
    + apply starts_with_app in S as [t E]. rewrite E in I.
      change crlf with (13%N :: [10%N]) in I. rewrite split_go_hit in I.
      destruct I as [<-|I]; [exact H1|].
      apply (f_equal (@length N)) in E. rewrite app_length in E. cbn in E, L.
      apply (IH t [] q); [lia| | |exact I].
      * intros (x & y & E'). destruct x; discriminate.
      * intros z c' E'. destruct z; discriminate.
    + rewrite split_go_miss in I by exact S. cbn in L.
      apply (IH s (acc ++ [c]) q); [lia| | |exact I].
      * intros (x & y & E).
        destruct (list_eq_dec N.eq_dec y []) as [->|NY].
        { rewrite app_nil_r in E. change crlf with ([13%N] ++ [10%N]) in E.
          rewrite app_assoc in E. apply app_inj_tail in E as [E1 E2].
          exact (H2 x c E1 eq_refl E2). }
        { destruct (exists_last NY) as (y' & d & ->). rewrite !app_assoc in E.
          apply app_inj_tail in E as [E1 E2]. apply H1. exists x, y'.
          rewrite E1, <- app_assoc. reflexivity. }
      * intros z c' E Es. apply app_inj_tail in E as [_ ->]. intros ->.
        rewrite Es in S. cbn in S. discriminate.
Qed.

Lemma join_line : forall ps q, In q ps -> (forall q, In q ps -> ~ (exists x y, q = x ++ crlf ++ y)) ->
  is_line q (join crlf ps).
Proof.
  induction ps as [|p ps IH]; intros q I H; [destruct I|].
  destruct I as [->|I].
  - destruct ps as [|p' ps].
    + exists [], []. cbn. rewrite app_nil_r. repeat split; auto. apply (H q). left; reflexivity.
    + rewrite join_cons by discriminate. exists [], (crlf ++ join crlf (p' :: ps)).
      repeat split; [left; reflexivity|right; eexists; reflexivity|]. apply (H q). left; reflexivity.
  - rewrite join_cons by (intros ->; destruct I).
    destruct (IH q I (fun q' I' => H q' (or_intror I'))) as (h1 & h2 & -> & [->|(x & ->)] & E2 & E3).
    + exists (p ++ crlf), h2. rewrite <- !app_assoc. repeat split; [|exact E2|exact E3].
      right. exists p. reflexivity.
    + exists (p ++ crlf ++ x ++ crlf), h2. rewrite <- !app_assoc. repeat split; [|exact E2|exact E3].
      right. exists (p ++ crlf ++ x). rewrite <- !app_assoc. reflexivity.
Qed.

Lemma split_lines : forall h q, In q (split crlf h) -> is_line q h.
Proof.
  intros h q I. unfold split in I.
  assert (J : join crlf (split_go crlf 0 [] h) = h).
  { exact (split_go_join 13%N [10%N] (length h) h [] (le_n _)). }
  rewrite <- J. apply join_line; [exact I|].
  intros q' I'. eapply split_go_pieces; [apply le_n| | |exact I'].
  - intros (x & y & E). destruct x; discriminate.
  - intros z c E. destruct z; discriminate.
Qed.

Lemma split_go_hit' : forall p acc c s, starts_with p (c :: s) = true ->
  split_go p 0 acc (c :: s) = acc :: split_go p (length p - 1) [] s.
Proof. intros p acc c s H. cbn [split_go]. rewrite H. reflexivity. Qed.

Lemma split_one : forall s q, split (lit ": ") s = [q] -> ~ (exists x y, s = x ++ [58; 32]%N ++ y).
Proof.
  intros s q H (x & y & ->). unfold split in H. change (lit ": ") with [58; 32]%N in H.
  assert (K : forall n x acc, length x <= n -> 2 <= length (split_go [58; 32]%N 0 acc (x ++ [58; 32]%N ++ y))).
  { clear. induction n as [|n IH]; intros x acc L.
    - destruct x; [|cbn in L; lia]. cbn [app]. change (58 :: 32 :: y)%N with ([58; 32]%N ++ y).
      rewrite split_go_hit. pose proof (split_go_nonempty [58; 32]%N y 0 []).
      destruct (split_go _ _ _ y); [congruence|cbn; lia].
    - destruct x as [|c x]; [apply IH; cbn; lia|]. cbn [app].
      destruct (starts_with [58; 32]%N (c :: x ++ [58; 32]%N ++ y)) eqn:S.
      + rewrite split_go_hit' by exact S. cbn [length].
        match goal with |- _ <= Datatypes.S (length ?l) => assert (l <> []) by apply split_go_nonempty; destruct l end;
          [congruence|cbn; lia].
      + rewrite split_go_miss by exact S. apply IH. cbn in L. lia. }
  specialize (K (length x) x [] (le_n _)). rewrite H in K. cbn in K. lia.
Qed.

Lemma split_two : forall s k v rest, split (lit ": ") s = k :: v :: rest ->
  exists tl, s = k ++ [58; 32]%N ++ v ++ tl.
Proof.
  intros s k v rest H.
  pose proof (split_go_join 58%N [32%N] (length s) s [] (le_n _)) as J.
  change (split_go [58; 32]%N 0 [] s) with (split (lit ": ") s) in J. rewrite H in J.
  rewrite join_cons in J by discriminate.
  destruct rest as [|r rest].
  - exists []. rewrite app_nil_r. symmetry. exact J.
  - rewrite join_cons in J by discriminate. eexists. symmetry. exact J.
Qed.

(** Where the value of [content_length] comes from. *)
Lemma header_lines_cases : forall lines cl,
  match header_lines lines cl with
  | Ok n => n = cl \/ exists l v tl, In l lines /\ l = lit "Content-Length: " ++ v ++ tl /\ integer v n /\ (n <= 2147483647)%Z
  | Err _ => True
  | Panic _ => exists l, In l lines /\ ~ (exists x y, l = x ++ [58; 32]%N ++ y)
  | Fuel => False
  end.
Proof.
  induction lines as [|l lines IH]; intro cl; cbn [header_lines]; [left; reflexivity|].
  destruct (split (lit ": ") l) as [|k [|v rest]] eqn:S.
  - apply split_go_nonempty in S. contradiction.
  - exists l. split; [left; reflexivity|]. exact (split_one l k S).
  - assert (R : forall cl', (cl' = cl \/ exists l' v tl, l' = l /\ l' = lit "Content-Length: " ++ v ++ tl /\ integer v cl' /\ (cl' <= 2147483647)%Z) ->
      match header_lines lines cl' with
      | Ok n => n = cl \/ exists l' v tl, In l' (l :: lines) /\ l' = lit "Content-Length: " ++ v ++ tl /\ integer v n /\ (n <= 2147483647)%Z
      | Err _ => True
      | Panic _ => exists l', In l' (l :: lines) /\ ~ (exists x y, l' = x ++ [58; 32]%N ++ y)
      | Fuel => False
      end).
    { intros cl' Hc. specialize (IH cl'). destruct (header_lines lines cl') as [n|e|e|]; [|exact I| |exact IH].
      - destruct IH as [->|(l' & v' & tl & I' & E')].
        + destruct Hc as [Hc|(l' & v' & tl & E1 & E2)]; [left; exact Hc|].
          right. exists l', v', tl. split; [left; symmetry; exact E1|exact E2].
        + right. exists l', v', tl. split; [right; exact I'|exact E'].
      - destruct IH as (l' & I' & E'). exists l'. split; [right; exact I'|exact E']. }
    destruct (str_eqb k (lit "Content-Length")) eqn:K.
    + apply str_eqb_eq in K. subst k.
      destruct (parse_i32 v) as [n|e|e|] eqn:P; cbn [bind]; [|exact I| |].
      * apply R. right. destruct (split_two l _ v rest S) as (tl & E).
        exists l, v, tl. split; [reflexivity|]. split; [exact E|apply parse_i32_integer; exact P].
      * exfalso. unfold parse_i32 in P. destruct (match v with [] => _ | _ => _ end); [|discriminate].
        destruct ((_ <=? _) && _)%Z; discriminate.
      * exfalso. unfold parse_i32 in P. destruct (match v with [] => _ | _ => _ end); [|discriminate].
        destruct ((_ <=? _) && _)%Z; discriminate.
    + apply R. left. reflexivity.
Qed.

Lemma ascii_cut_len : forall n a c b, length a <= n -> (c < 0x80)%N -> valid (a ++ c :: b) -> valid b.
Proof.
  induction n as [|n IH]; intros a c b L C V.
  - destruct a; [|cbn in L; lia]. cbn [app] in V. unfold valid in *. cbn [from_utf8] in V.
    replace (c <? 0x80)%N with true in V by lia.
    destruct (from_utf8 b); [discriminate|cbn in V; contradiction].
  - destruct a as [|b0 a]; [apply (IH [] c b); [cbn; lia|exact C|exact V]|].
    assert (K : forall k r, length r <= n -> opt_cons k (from_utf8 (r ++ c :: b)) <> None -> valid b).
    { intros k r Lr H. apply (IH r c b Lr C). unfold valid. destruct (from_utf8 (r ++ c :: b)); [discriminate|].
      cbn in H. contradiction. }
    unfold valid in V. cbn [app from_utf8] in V. cbn [length] in L.
    destruct (b0 <? 0x80)%N; [apply (K b0 a); [lia|exact V]|].
    destruct a as [|b1 a]; cbn [app] in V.
    { replace (two b0 c) with false in V by (unfold two, cont; lia).
      destruct b as [|b2 b]; [contradiction|].
      replace (three b0 c b2) with false in V by (unfold three, cont; lia).
      destruct b as [|b3 b]; [contradiction|].
      replace (four b0 c b2 b3) with false in V by (unfold four, cont; lia). contradiction. }
    cbn [length] in L.
    destruct (two b0 b1); [eapply (K _ a); [lia|exact V]|].
    destruct a as [|b2 a]; cbn [app] in V.
    { replace (three b0 b1 c) with false in V by (unfold three, cont; lia).
      destruct b as [|b3 b]; [contradiction|].
      replace (four b0 b1 c b3) with false in V by (unfold four, cont; lia). contradiction. }
    cbn [length] in L.
    destruct (three b0 b1 b2); [eapply (K _ a); [lia|exact V]|].
    destruct a as [|b3 a]; cbn [app] in V.
    { replace (four b0 b1 b2 c) with false in V by (unfold four, cont; lia). contradiction. }
    cbn [length] in L.
    destruct (four b0 b1 b2 b3); [eapply (K _ a); [lia|exact V]|contradiction].
Qed.

Lemma ascii_cut : forall a c b, (c < 0x80)%N -> valid (a ++ c :: b) -> valid b.
Proof. intros a c b. exact (ascii_cut_len (length a) a c b (le_n _)). Qed.

Lemma split_hd : forall p x s, contains (x :: p) s = true ->
  exists t, s = hd [] (split (x :: p) s) ++ (x :: p) ++ t.
Proof.
  intros p x s H.
  assert (K : forall n s acc, length s <= n -> contains (x :: p) s = true ->
    exists t, acc ++ s = hd [] (split_go (x :: p) 0 acc s) ++ (x :: p) ++ t).
  { clear. induction n as [|n IH]; intros s acc L H.
    - destruct s; [|cbn in L; lia]. cbn in H. discriminate.
    - destruct s as [|c s]; [cbn in H; discriminate|].
      destruct (starts_with (x :: p) (c :: s)) eqn:S.
      + apply starts_with_app in S as [t E]. rewrite E, split_go_hit. cbn [hd]. exists t. reflexivity.
      + rewrite split_go_miss by exact S. change (contains (x :: p) (c :: s)) with
          (starts_with (x :: p) (c :: s) || contains (x :: p) s) in H. rewrite S in H. cbn [orb] in H.
        cbn in L. destruct (IH s (acc ++ [c]) ltac:(lia) H) as (t & E).
        exists t. rewrite <- E, <- app_assoc. reflexivity. }
  exact (K (length s) s [] (le_n _) H).
Qed.

Lemma next_message_panic : forall checks buffer e,
  (Z.of_nat (length buffer) < 9223372036854775808)%Z ->
  next_message checks buffer = Panic e ->
  exists h t, buffer = h ++ crlf ++ crlf ++ t /\ malformed h t.
Proof.
  intros checks buffer e B H. unfold next_message in H.
  destruct (from_utf8 buffer) as [s|] eqn:Eu; [|discriminate].
  destruct (contains (crlf ++ crlf) buffer) eqn:C; [|discriminate]. cbn [negb] in H.
  change (crlf ++ crlf) with (13 :: [10; 13; 10])%N in C, H.
  destruct (split_hd _ _ _ C) as (t & Et).
  set (h := hd [] (split (13 :: [10; 13; 10])%N buffer)) in *.
  exists h, t. split; [exact Et|].
  pose proof (header_lines_cases (split crlf h) (-1)) as P.
  destruct (header_lines (split crlf h) (-1)) as [n|e'|e'|]; cbn [bind] in H; [|discriminate| |contradiction].
  2:{ left. destruct P as (l & I & N). exists l. split; [apply split_lines; exact I|exact N]. }
  destruct (n =? -1)%Z eqn:M; [discriminate|]. destruct P as [P|(l & v & tl & I & E & D & Bn)]; [lia|].
  right. exists v, tl, n. subst l. split; [apply split_lines; exact I|]. split; [exact D|].
  destruct (Z.ltb_spec n 0) as [Ln|Ln]; [left; exact Ln|]. right. split; [exact Ln|]. intro Vf.
  assert (Lh : Z.of_nat (length h + 4) = Z.of_nat (length (h ++ crlf ++ crlf)))
    by (rewrite !app_length; cbn; lia).
  unfold as_usize in H. replace (n <? 0)%Z with false in H by lia.
  assert (Lb : length buffer = length h + 4 + length t) by (rewrite Et, !app_length; cbn; lia).
  unfold usize_add in H.
  destruct (Z.of_nat (length h + 4) + n <? 18446744073709551616)%Z eqn:O.
  - cbn [bind] in H.
    destruct (Z.of_nat (length buffer) <? Z.of_nat (length h + 4) + n)%Z eqn:L; [discriminate|].
    unfold slice in H.
    assert (Vt : valid t).
    { apply (ascii_cut (h ++ [13; 10; 13]%N) 10 t); [lia|]. unfold valid.
      replace ((h ++ [13; 10; 13]%N) ++ 10%N :: t) with buffer; [rewrite Eu; discriminate|].
      rewrite Et at 1. rewrite <- app_assoc. reflexivity. }
    replace (is_char_boundary buffer (Z.to_nat (Z.of_nat (length h + 4)))) with true in H.
    2:{ symmetry. rewrite Lh, Nat2Z.id. rewrite Et at 1.
        replace (h ++ [13; 10; 13; 10]%N ++ t) with ((h ++ crlf ++ crlf) ++ t)
          by (rewrite <- !app_assoc; reflexivity).
        apply valid_boundary. exact Vt. }
    replace (is_char_boundary buffer (Z.to_nat (Z.of_nat (length h + 4) + n))) with true in H.
    2:{ symmetry. rewrite Et at 1.
        replace (Z.to_nat (Z.of_nat (length h + 4) + n))
          with (length ((h ++ crlf ++ crlf) ++ firstn (Z.to_nat n) t))
          by (rewrite app_length, firstn_length; lia).
        replace (h ++ [13; 10; 13; 10]%N ++ t)
          with (((h ++ crlf ++ crlf) ++ firstn (Z.to_nat n) t) ++ skipn (Z.to_nat n) t).
        2:{ rewrite <- !app_assoc, firstn_skipn. reflexivity. }
        apply valid_boundary. apply (valid_app_inv (firstn (Z.to_nat n) t)); [exact Vf|].
        rewrite firstn_skipn. exact Vt. }
    replace ((Z.of_nat (length h + 4) <=? Z.of_nat (length h + 4) + n)
             && (Z.of_nat (length h + 4) + n <=? Z.of_nat (length buffer)))%Z with true in H by lia.
    discriminate.
  - lia.
Qed.

Section Panic.
  Context {St V : Type} (checks : bool) (from_str : bytes -> res V)
    (dispatch : St -> V -> St * res unit).

  Lemma run_loop_panic : (forall b, is_panic (from_str b) = false) ->
    (forall st v, is_panic (snd (dispatch st v)) = false) ->
    forall reads buffer st st' e,
    (Z.of_nat (length (buffer ++ concat reads)) < 9223372036854775808)%Z ->
    run_loop checks from_str dispatch buffer reads st = (st', Panic e) ->
    exists a h t c, buffer ++ concat reads = a ++ (h ++ crlf ++ crlf ++ t) ++ c /\ malformed h t.
  Proof.
    intros HF HD. induction reads as [|r reads IH]; intros buffer st st' e B H; [discriminate|].
    destruct r as [|c r]; [discriminate|]. cbn [run_loop] in H. set (chunk := c :: r) in *.
    cbn [concat] in *. rewrite app_assoc in *.
    destruct (next_message checks (buffer ++ chunk)) as [[|bd n]|e'|e'|] eqn:N.
    - exact (IH _ _ _ _ B H).
    - pose proof (HF bd) as HF'. destruct (from_str bd) as [v|e'|e'|]; try discriminate.
      pose proof (HD st v) as HD'. destruct (dispatch st v) as [st1 [u|e'|e'|]]; try discriminate.
      destruct (IH (skipn n (buffer ++ chunk)) st1 st' e) as (a & h & t & c' & E & M); [|exact H|].
      + revert B. rewrite !app_length, skipn_length, !app_length. lia.
      + exists (firstn n (buffer ++ chunk) ++ a), h, t, c'. split; [|exact M].
        rewrite <- (firstn_skipn n (buffer ++ chunk)) at 1.
        rewrite <- !app_assoc. rewrite <- !app_assoc in E. rewrite E. reflexivity.
    - discriminate.
    - injection H as _ <-.
      destruct (next_message_panic checks (buffer ++ chunk) e') as (h & t & E & M); [|exact N|].
      + revert B. rewrite app_length. lia.
      + exists [], h, t, (concat reads). split; [|exact M]. rewrite E. cbn. rewrite <- !app_assoc. reflexivity.
    - discriminate.
  Qed.

  Lemma run_panic : (forall b, is_panic (from_str b) = false) ->
    (forall st v, is_panic (snd (dispatch st v)) = false) ->
    forall reads st st' e, (Z.of_nat (length (concat reads)) < 9223372036854775808)%Z ->
    run checks from_str dispatch reads st = (st', Panic e) ->
    exists a h t c, concat reads = a ++ (h ++ crlf ++ crlf ++ t) ++ c /\ malformed h t.
  Proof. intros HF HD reads st st' e. exact (run_loop_panic HF HD reads [] st st' e). Qed.

  (** A header without a length stops the server from ever taking a message again. *)
  Lemma no_length_next : forall fields x, fields <> [] -> Forall well_formed_field fields ->
    ~ (exists v, In (lit "Content-Length", v) fields) -> valid x ->
    next_message checks (frame fields x) = Ok More.
  Proof.
    intros fields x NE F N Vx. unfold next_message.
    assert (Vf : valid (frame fields x)).
    { rewrite frame_joined by exact NE. apply valid_app; [apply joined_valid; exact F|].
      apply valid_app; [apply crlf_valid|]. apply valid_app; [apply crlf_valid|exact Vx]. }
    unfold valid in Vf. destruct (from_utf8 (frame fields x)); [|contradiction].
    rewrite frame_joined by exact NE.
    assert (C : contains (crlf ++ crlf) (joined fields ++ crlf ++ crlf ++ x) = true).
    { apply contains_app. exists (joined fields), x. rewrite <- app_assoc. reflexivity. }
    rewrite C. cbn [negb].
    destruct (header_first fields x [] NE F) as (r & R). unfold split at 2. rewrite R. cbn [hd app].
    rewrite header_split by assumption.
    assert (L : forall fs cl, Forall well_formed_field fs -> ~ (exists v, In (lit "Content-Length", v) fs) ->
      header_lines (map line fs) cl = Ok cl).
    { clear. induction fs as [|[k v] fs IH]; intros cl F N; [reflexivity|]. cbn [map header_lines].
      apply Forall_cons_iff in F as [(_ & _ & K & _) F].
      destruct (line_split (k, v) K) as (value & rest & S & _). rewrite S. cbn [fst].
      destruct (str_eqb k (lit "Content-Length")) eqn:E.
      - exfalso. apply str_eqb_eq in E. subst k. apply N. exists v. left. reflexivity.
      - apply IH; [exact F|]. intros (w & I). apply N. exists w. right. exact I. }
    rewrite L by assumption. reflexivity.
  Qed.

  Lemma no_length_stuck : forall fields reads st, fields <> [] -> Forall well_formed_field fields ->
    ~ (exists v, In (lit "Content-Length", v) fields) -> Forall valid reads ->
    run checks from_str dispatch (frame fields [] :: reads) st = (st, Ok tt).
  Proof.
    intros fields reads st NE F N Vr. unfold run.
    assert (Ef : exists c l, frame fields [] = c :: l).
    { destruct (frame fields []) as [|c l] eqn:E; [|eauto].
      rewrite frame_joined in E by exact NE. destruct (joined fields); discriminate. }
    destruct Ef as (c & l & Ef). rewrite Ef. cbn [run_loop app]. rewrite <- Ef.
    rewrite (no_length_next fields []) by (assumption || apply valid_nil).
    clear c l Ef. revert Vr.
    assert (G : forall x, valid x -> Forall valid reads ->
      run_loop checks from_str dispatch (frame fields x) reads st = (st, Ok tt)).
    { induction reads as [|r reads IH]; intros x Vx Vr; [reflexivity|].
      apply Forall_cons_iff in Vr as [Vr0 Vr]. destruct r as [|c r]; [reflexivity|].
      cbn [run_loop]. replace (frame fields x ++ c :: r) with (frame fields (x ++ c :: r))
        by (unfold frame; rewrite <- !app_assoc; reflexivity).
      rewrite no_length_next by (assumption || (apply valid_app; assumption)).
      apply IH; [apply valid_app; assumption|exact Vr]. }
    intro Vr. apply G; [apply valid_nil|exact Vr].
  Qed.
End Panic.

Lemma written_is_well_formed : forall msg, Forall scalar msg ->
  (N.of_nat (length (utf8 msg)) < 2147483648)%N ->
  well_framed (send_message msg) (utf8 msg) /\ from_utf8 (utf8 msg) = Some msg.
Proof.
  intros msg F L. split; [apply send_well_framed; assumption|apply from_utf8_utf8; exact F].
Qed.

Lemma written_is_read : forall (St V : Type) (checks : bool) (from_str : bytes -> res V)
    (dispatch : St -> V -> St * res unit) (msgs : list str) st,
  Forall (fun m => Forall scalar m /\ (N.of_nat (length (utf8 m)) < 2147483648)%N) msgs ->
  run checks from_str dispatch (map send_message msgs) st
  = handle from_str dispatch (map utf8 msgs) st.
Proof.
  intros St V checks from_str dispatch msgs st F.
  pose proof (run_per_message checks from_str dispatch
    (map (fun m => mkmsg (send_message m) (utf8 m)) msgs) st) as H.
  rewrite !map_map in H. apply H. apply Forall_map. eapply Forall_impl; [|exact F].
  intros m [S L]. apply send_well_framed; assumption.
Qed.
