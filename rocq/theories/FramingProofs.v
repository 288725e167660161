(** Proofs about reading and writing framed messages. *)
From Coq Require Import String List NArith ZArith Bool Lia ZifyBool Arith.
From Verif Require Import Base Utf8 Framing SpecFraming.
Import ListNotations.

(** * Splitting *)

Lemma starts_with_app : forall p s, starts_with p s = true <-> exists t, s = p ++ t.
Proof.
  induction p as [|x p IH]; intro s; cbn.
  - split; [eexists; reflexivity|reflexivity].
  - destruct s as [|y s]; [split; [discriminate|intros [t E]; discriminate]|].
    rewrite andb_true_iff, N.eqb_eq, IH. split.
    + intros [-> [t ->]]. eexists; reflexivity.
    + intros [t E]. injection E as -> ->. eauto.
Qed.

Lemma starts_with_head : forall x p y s, x <> y -> starts_with (x :: p) (y :: s) = false.
Proof. intros x p y s H. cbn. apply N.eqb_neq in H. rewrite H. reflexivity. Qed.

Lemma contains_app : forall p s, contains p s = true <-> exists a b, s = a ++ p ++ b.
Proof.
  intros p s. split.
  - induction s as [|c s IH]; cbn; rewrite orb_true_iff; intros [H|H].
    + apply starts_with_app in H as [t E]. exists [], t. exact E.
    + discriminate.
    + apply starts_with_app in H as [t E]. exists [], t. exact E.
    + destruct (IH H) as (a & b & ->). exists (c :: a), b. reflexivity.
  - intros (a & b & ->). induction a as [|c a IH].
    + assert (H : starts_with p (p ++ b) = true) by (apply starts_with_app; eauto).
      cbn [app]. destruct (p ++ b); cbn; rewrite H; reflexivity.
    + cbn. cbn in IH. rewrite IH. apply orb_true_r.
Qed.

Lemma split_go_over : forall x p l acc s, ~ In x l ->
  split_go (x :: p) 0 acc (l ++ s) = split_go (x :: p) 0 (acc ++ l) s.
Proof.
  intros x p. induction l as [|c l IH]; intros acc s H; cbn [app].
  - rewrite app_nil_r. reflexivity.
  - cbn [split_go]. rewrite starts_with_head by (intros ->; apply H; left; reflexivity).
    rewrite IH by (intro I; apply H; right; exact I). rewrite <- app_assoc. reflexivity.
Qed.

Lemma split_go_nonempty : forall p s skip acc, split_go p skip acc s <> [].
Proof.
  intro p. induction s as [|c s IH]; intros skip acc; cbn; [discriminate|].
  destruct skip; [|apply IH]. destruct (starts_with p (c :: s)); [discriminate|apply IH].
Qed.

Lemma split_go_skip : forall p l acc s, split_go p (length l) acc (l ++ s) = split_go p 0 acc s.
Proof. intro p. induction l as [|c l IH]; intros acc s; cbn; [reflexivity|apply IH]. Qed.

Lemma split_go_hit : forall x p acc s,
  split_go (x :: p) 0 acc ((x :: p) ++ s) = acc :: split_go (x :: p) 0 [] s.
Proof.
  intros x p acc s. cbn [app split_go].
  replace (starts_with (x :: p) (x :: p ++ s)) with true
    by (symmetry; apply starts_with_app; exists s; reflexivity).
  cbn [length]. rewrite Nat.sub_succ, Nat.sub_0_r, split_go_skip. reflexivity.
Qed.

(** The first piece ends at or before any occurrence. *)
Lemma split_go_first : forall x p b a acc,
  length (hd [] (split_go (x :: p) 0 acc (a ++ (x :: p) ++ b))) <= length acc + length a.
Proof.
  intros x p b. induction a as [|c a IH]; intro acc.
  - cbn [app]. change (x :: p ++ b) with ((x :: p) ++ b). rewrite split_go_hit. cbn. lia.
  - cbn [app split_go]. destruct (starts_with _ _).
    + cbn. lia.
    + etransitivity; [apply IH|]. rewrite app_length. cbn. lia.
Qed.

(** * Headers *)

Definition line (kv : bytes * bytes) : bytes := fst kv ++ [58; 32]%N ++ snd kv.

(** The lines without the last line break. *)
Fixpoint joined (fields : list (bytes * bytes)) : bytes :=
  match fields with
  | [] => []
  | [kv] => line kv
  | kv :: fields' => line kv ++ crlf ++ joined fields'
  end.

Lemma joined_fields : forall fields, fields <> [] -> concat (map field fields) = joined fields ++ crlf.
Proof.
  induction fields as [|kv fields IH]; intro H; [congruence|].
  destruct fields as [|kv' fields].
  - cbn. unfold field, line, crlf. rewrite app_nil_r, <- !app_assoc. reflexivity.
  - cbn [map concat] in *. rewrite IH by discriminate. cbn [joined].
    unfold field, line, crlf. rewrite <- !app_assoc. reflexivity.
Qed.

Lemma line_no : forall c kv, c <> 58%N -> c <> 32%N -> ~ In c (fst kv) -> ~ In c (snd kv) ->
  ~ In c (line kv).
Proof.
  intros c kv H1 H2 H3 H4. unfold line. rewrite !in_app_iff. cbn.
  intros [I|[[I|[I|[]]]|I]]; try congruence; contradiction.
Qed.

Lemma line_start : forall kv, ~ In 13%N (fst kv) -> exists c l, line kv = c :: l /\ c <> 13%N.
Proof.
  intros [[|c k] v] H; cbn in *.
  - do 2 eexists; split; [reflexivity|discriminate].
  - do 2 eexists; split; [reflexivity|]. intros ->. apply H. left. reflexivity.
Qed.

Lemma split_go_miss : forall p acc c s, starts_with p (c :: s) = false ->
  split_go p 0 acc (c :: s) = split_go p 0 (acc ++ [c]) s.
Proof. intros p acc c s H. cbn [split_go]. rewrite H. reflexivity. Qed.

(** A single line break is no blank line. *)
Lemma split_go_break : forall acc c s, c <> 13%N ->
  split_go (crlf ++ crlf) 0 acc (crlf ++ c :: s) = split_go (crlf ++ crlf) 0 (acc ++ crlf) (c :: s).
Proof.
  intros acc c s H. change (crlf ++ c :: s) with (13 :: 10 :: c :: s)%N.
  change (crlf ++ crlf) with [13; 10; 13; 10]%N.
  rewrite split_go_miss.
  2:{ cbn [starts_with]. rewrite !N.eqb_refl. apply not_eq_sym, N.eqb_neq in H. rewrite H. reflexivity. }
  rewrite split_go_miss by reflexivity. rewrite <- !app_assoc. reflexivity.
Qed.

Lemma header_first : forall fields x acc, fields <> [] -> Forall well_formed_field fields ->
  exists rest,
  split_go (crlf ++ crlf) 0 acc (joined fields ++ crlf ++ crlf ++ x) = (acc ++ joined fields) :: rest.
Proof.
  induction fields as [|kv fields IH]; intros x acc H F; [congruence|].
  apply Forall_cons_iff in F as [((K1 & K2) & (V1 & V2) & K3 & _) F].
  destruct fields as [|kv' fields].
  - cbn [joined]. change (crlf ++ crlf) with (13%N :: [10; 13; 10]%N).
    rewrite split_go_over by (apply line_no; [discriminate|discriminate|assumption|assumption]).
    change (crlf ++ crlf ++ x) with ((13%N :: [10; 13; 10]%N) ++ x).
    rewrite split_go_hit. eexists. reflexivity.
  - change (joined (kv :: kv' :: fields)) with (line kv ++ crlf ++ joined (kv' :: fields)).
    replace ((line kv ++ crlf ++ joined (kv' :: fields)) ++ crlf ++ crlf ++ x)
      with (line kv ++ crlf ++ joined (kv' :: fields) ++ crlf ++ crlf ++ x)
      by (rewrite <- !app_assoc; reflexivity).
    change (split_go (crlf ++ crlf)) with (split_go (13%N :: [10; 13; 10]%N)).
    rewrite split_go_over by (apply line_no; [discriminate|discriminate|assumption|assumption]).
    assert (S : exists c l, joined (kv' :: fields) ++ crlf ++ crlf ++ x = c :: l /\ c <> 13%N).
    { apply Forall_cons_iff in F as [((K1' & _) & _) _].
      destruct (line_start kv' K1') as (c & l & E & N). destruct fields; cbn [joined]; rewrite E;
        do 2 eexists; (split; [reflexivity|exact N]). }
    destruct S as (c & l & E & N). rewrite E.
    change (13%N :: [10; 13; 10]%N) with (crlf ++ crlf).
    rewrite split_go_break by exact N. rewrite <- E.
    destruct (IH x ((acc ++ line kv) ++ crlf) ltac:(discriminate) F) as (rest & R).
    exists rest. rewrite R. rewrite <- !app_assoc. reflexivity.
Qed.

Lemma header_split : forall fields, fields <> [] -> Forall well_formed_field fields ->
  split crlf (joined fields) = map line fields.
Proof.
  unfold split. induction fields as [|kv fields IH]; intros H F; [congruence|].
  apply Forall_cons_iff in F as [((K1 & K2) & (V1 & V2) & K3 & _) F].
  assert (L : ~ In 13%N (line kv))
    by (apply line_no; [discriminate|discriminate|assumption|assumption]).
  destruct fields as [|kv' fields].
  - cbn [joined map]. rewrite <- (app_nil_r (line kv)) at 1. unfold crlf.
    rewrite split_go_over by exact L. reflexivity.
  - change (joined (kv :: kv' :: fields)) with (line kv ++ crlf ++ joined (kv' :: fields)).
    unfold crlf. rewrite split_go_over by exact L. rewrite split_go_hit.
    cbn [map]. f_equal. apply IH; [discriminate|exact F].
Qed.

Lemma line_split : forall kv, ~ In 58%N (fst kv) ->
  exists value rest, split (lit ": ") (line kv) = fst kv :: value :: rest
    /\ (~ In 58%N (snd kv) -> value = snd kv).
Proof.
  intros kv K. unfold split, line. change (lit ": ") with [58; 32]%N.
  rewrite split_go_over by exact K. rewrite split_go_hit.
  destruct (split_go [58; 32]%N 0 [] (snd kv)) as [|value rest] eqn:E;
    [apply split_go_nonempty in E; contradiction|].
  exists value, rest. split; [exact (f_equal (cons (fst kv)) E)|]. intro N.
  rewrite <- (app_nil_r (snd kv)), split_go_over in E by exact N. cbn in E. congruence.
Qed.

Lemma decimal_digits : forall v n, decimal v n ->
  v <> [] /\ forallb is_digit v = true /\ digits_value v = Z.of_N n.
Proof.
  induction 1 as [d D|v n d _ (IH1 & IH2 & IH3) D].
  - repeat split; [discriminate| |]; cbn [forallb]; unfold is_digit, digits_value; cbn [fold_left]; lia.
  - repeat split.
    + destruct v; discriminate.
    + rewrite forallb_app, IH2. cbn [forallb andb]. unfold is_digit. lia.
    + unfold digits_value in *. rewrite fold_left_app, IH3. cbn [fold_left]. lia.
Qed.

Lemma decimal_parse : forall v n, decimal v n -> (n < 2147483648)%N -> parse_i32 v = Ok (Z.of_N n).
Proof.
  intros v n D B. apply decimal_digits in D as (NE & F & V).
  destruct v as [|c v]; [congruence|].
  assert (P : parse_digits (c :: v) = Some (Z.of_N n))
    by (unfold parse_digits; rewrite F, V; reflexivity).
  cbn [forallb] in F. apply andb_true_iff in F as [C _]. unfold is_digit in C.
  assert (E : match c :: v with
              | 45%N :: s' => match parse_digits s' with Some n => Some (- n)%Z | None => None end
              | 43%N :: s' => parse_digits s'
              | _ => parse_digits (c :: v)
              end = parse_digits (c :: v)).
  { destruct c as [|c]; [reflexivity|].
    do 6 (destruct c as [c|c|]; try reflexivity; try (exfalso; lia)). }
  unfold parse_i32. rewrite E, P.
  replace ((-2147483648 <=? Z.of_N n) && (Z.of_N n <=? 2147483647))%Z with true by lia.
  reflexivity.
Qed.

Lemma decimal_no_colon : forall v n, decimal v n -> ~ In 58%N v.
Proof.
  intros v n D. apply decimal_digits in D as (_ & F & _). rewrite forallb_forall in F.
  intro I. apply F in I. discriminate.
Qed.

Lemma header_content_length : forall n fields cl, (n < 2147483648)%N ->
  Forall well_formed_field fields ->
  (forall v, In (lit "Content-Length", v) fields -> decimal v n) ->
  (cl = Z.of_N n \/ exists v, In (lit "Content-Length", v) fields) ->
  header_lines (map line fields) cl = Ok (Z.of_N n).
Proof.
  intros n. induction fields as [|[k v] fields IH]; intros cl B F D E; cbn [map header_lines].
  - destruct E as [->|[v []]]. reflexivity.
  - apply Forall_cons_iff in F as [(_ & _ & K & _) F].
    destruct (line_split (k, v) K) as (value & rest & S & V). rewrite S. cbn [fst snd] in *.
    destruct (str_eqb k (lit "Content-Length")) eqn:C.
    + apply str_eqb_eq in C. subst k.
      assert (Dv : decimal v n) by (apply D; left; reflexivity).
      rewrite (V (decimal_no_colon v n Dv)), (decimal_parse v n Dv B). cbn [bind].
      apply IH; [exact B|exact F|intros; apply D; right; assumption|left; reflexivity].
    + apply str_eqb_neq in C.
      apply IH; [exact B|exact F|intros; apply D; right; assumption|].
      destruct E as [E|[w [E|E]]]; [left; exact E| |right; eauto].
      congruence.
Qed.

(** * Taking a message *)

Lemma frame_joined : forall fields bd, fields <> [] ->
  frame fields bd = joined fields ++ crlf ++ crlf ++ bd.
Proof.
  intros fields bd H. unfold frame. rewrite joined_fields by exact H.
  rewrite <- !app_assoc. reflexivity.
Qed.

Lemma crlf_valid : valid crlf.
Proof. vm_compute. discriminate. Qed.

Lemma joined_valid : forall fields, Forall well_formed_field fields -> valid (joined fields).
Proof.
  induction 1 as [|kv fields (_ & _ & _ & K & V) F IH]; [discriminate|].
  assert (L : valid (line kv)).
  { unfold line. apply valid_app; [exact K|]. apply valid_app; [vm_compute; discriminate|exact V]. }
  destruct fields as [|kv' fields]; [exact L|].
  change (joined (kv :: kv' :: fields)) with (line kv ++ crlf ++ joined (kv' :: fields)).
  apply valid_app; [exact L|]. apply valid_app; [apply crlf_valid|exact IH].
Qed.

Lemma well_framed_parts : forall rw bd, well_framed rw bd ->
  exists fields, fields <> [] /\ rw = joined fields ++ crlf ++ crlf ++ bd
    /\ Forall well_formed_field fields
    /\ header_lines (map line fields) (-1) = Ok (Z.of_nat (length bd)).
Proof.
  intros rw bd (V & B & _ & fields & E & F & D & (v & I)).
  assert (NE : fields <> []) by (destruct fields; [destruct I|discriminate]).
  exists fields. repeat split; [exact NE|rewrite E; apply frame_joined; exact NE|exact F|].
  rewrite (header_content_length (N.of_nat (length bd)) fields (-1) B F D (or_intror (ex_intro _ v I))).
  f_equal. lia.
Qed.

Lemma well_framed_valid : forall rw bd, well_framed rw bd -> valid rw.
Proof.
  intros rw bd W. pose proof W as (V & _).
  destruct (well_framed_parts rw bd W) as (fields & _ & -> & F & _).
  apply valid_app; [apply joined_valid; exact F|].
  apply valid_app; [apply crlf_valid|]. apply valid_app; [apply crlf_valid|exact V].
Qed.

Lemma app_split_le : forall (A : Type) (a b c d : list A), a ++ b = c ++ d -> length a <= length c ->
  exists e, c = a ++ e /\ b = e ++ d.
Proof.
  induction a as [|x a IH]; intros b c d E L.
  - exists c. split; [reflexivity|exact E].
  - destruct c as [|y c]; [cbn in L; lia|]. cbn in E. injection E as -> E. cbn in L.
    destruct (IH b c d E ltac:(lia)) as (e & -> & ->). exists e. split; reflexivity.
Qed.

Lemma next_message_frame : forall checks rw bd buffer rest more,
  well_framed rw bd -> valid buffer -> buffer ++ more = rw ++ rest ->
  next_message checks buffer
  = if Nat.leb (length rw) (length buffer) then Ok (Take bd (length rw)) else Ok More.
Proof.
  intros checks rw bd buffer rest more W V E.
  destruct (well_framed_parts rw bd W) as (fields & NE & Ew & F & H).
  pose proof W as (Vb & Bb & Br & _).
  unfold next_message. unfold valid in V. destruct (from_utf8 buffer) as [s|] eqn:Ev; [|contradiction].
  destruct (contains (crlf ++ crlf) buffer) eqn:C; cbn [negb].
  - apply contains_app in C as (a & b & C).
    assert (La : length (joined fields) <= length a).
    { destruct (header_first fields (bd ++ rest) [] NE F) as (r & R).
      pose proof (split_go_first 13%N [10; 13; 10]%N (b ++ more) a []) as P.
      change (13%N :: [10; 13; 10]%N) with (crlf ++ crlf) in P.
      replace (a ++ (crlf ++ crlf) ++ b ++ more) with (joined fields ++ crlf ++ crlf ++ bd ++ rest) in P.
      - rewrite R in P. cbn in P. exact P.
      - rewrite C, Ew in E. rewrite <- !app_assoc in E. rewrite <- !app_assoc. symmetry. exact E. }
    assert (B : exists y, buffer = joined fields ++ crlf ++ crlf ++ y /\ y ++ more = bd ++ rest).
    { rewrite Ew in E.
      destruct (app_split_le _ (joined fields ++ crlf ++ crlf) (bd ++ rest) buffer more) as (y & Ey & Ey').
      - rewrite <- !app_assoc in *. symmetry. exact E.
      - rewrite C, !app_length. cbn. lia.
      - exists y. split; [rewrite Ey, <- !app_assoc; reflexivity|symmetry; exact Ey']. }
    destruct B as (y & By & Ey).
    assert (Hd : hd [] (split (crlf ++ crlf) buffer) = joined fields).
    { unfold split. rewrite By. destruct (header_first fields y [] NE F) as (r & R).
      rewrite R. reflexivity. }
    rewrite Hd, header_split by assumption. rewrite H. cbn [bind].
    replace (Z.of_nat (length bd) =? -1)%Z with false by lia.
    assert (Lr : length rw = length (joined fields) + 4 + length bd)
      by (rewrite Ew, !app_length; cbn; lia).
    unfold usize_add, as_usize.
    replace (Z.of_nat (length bd) <? 0)%Z with false by lia.
    replace (Z.of_nat (length (joined fields) + 4) + Z.of_nat (length bd) <? 18446744073709551616)%Z
      with true by lia.
    cbn [bind].
    replace (Z.of_nat (length (joined fields) + 4) + Z.of_nat (length bd))%Z
      with (Z.of_nat (length rw)) by lia.
    destruct (Nat.leb (length rw) (length buffer)) eqn:L.
    + apply Nat.leb_le in L.
      replace (Z.of_nat (length buffer) <? Z.of_nat (length rw))%Z with false by lia.
      destruct (app_split_le _ bd rest y more) as (z & Ez & _).
      { symmetry. exact Ey. }
      { rewrite By in L. rewrite Ew in L. rewrite !app_length in L. lia. }
      assert (Vz : valid z).
      { apply (valid_app_inv (joined fields ++ crlf ++ crlf ++ bd)).
        - rewrite <- Ew. eapply well_framed_valid. exact W.
        - rewrite <- !app_assoc, <- Ez, <- By. unfold valid. rewrite Ev. discriminate. }
      unfold slice.
      replace ((Z.of_nat (length (joined fields) + 4) <=? Z.of_nat (length rw))
               && (Z.of_nat (length rw) <=? Z.of_nat (length buffer)))%Z with true by lia.
      rewrite !Nat2Z.id.
      replace (is_char_boundary buffer (length (joined fields) + 4)) with true.
      2:{ symmetry. rewrite By, Ez.
          replace (length (joined fields) + 4) with (length (joined fields ++ crlf ++ crlf))
            by (rewrite !app_length; cbn; lia).
          replace (joined fields ++ crlf ++ crlf ++ bd ++ z)
            with ((joined fields ++ crlf ++ crlf) ++ (bd ++ z)) by (rewrite <- !app_assoc; reflexivity).
          apply valid_boundary. apply valid_app; assumption. }
      replace (is_char_boundary buffer (length rw)) with true.
      2:{ symmetry. rewrite By, Ez. rewrite Ew.
          replace (joined fields ++ crlf ++ crlf ++ bd ++ z)
            with ((joined fields ++ crlf ++ crlf ++ bd) ++ z) by (rewrite <- !app_assoc; reflexivity).
          apply valid_boundary. exact Vz. }
      cbn [andb bind].
      replace (Z.to_nat (Z.of_nat (length rw) - Z.of_nat (length (joined fields) + 4))) with (length bd) by lia.
      do 2 f_equal. rewrite By, Ez.
      replace (joined fields ++ crlf ++ crlf ++ bd ++ z)
        with ((joined fields ++ crlf ++ crlf) ++ (bd ++ z)) by (rewrite <- !app_assoc; reflexivity).
      replace (length (joined fields) + 4) with (length (joined fields ++ crlf ++ crlf))
        by (rewrite !app_length; cbn; lia).
      rewrite skipn_app, skipn_all, Nat.sub_diag. cbn [skipn app].
      rewrite firstn_app, firstn_all, Nat.sub_diag. cbn [firstn]. apply app_nil_r.
    + apply Nat.leb_gt in L.
      replace (Z.of_nat (length buffer) <? Z.of_nat (length rw))%Z with true by lia. reflexivity.
  - destruct (Nat.leb (length rw) (length buffer)) eqn:L; [|reflexivity]. exfalso.
    apply Nat.leb_le in L.
    destruct (app_split_le _ rw rest buffer more) as (z & Ez & _); [symmetry; exact E|exact L|].
    assert (K : contains (crlf ++ crlf) buffer = true).
    { apply contains_app. rewrite Ez, Ew. exists (joined fields), (bd ++ z).
      rewrite <- !app_assoc. reflexivity. }
    congruence.
Qed.

(** * The loop *)

Section Loop.
  Context {St V : Type} (checks : bool) (from_str : bytes -> res V)
    (dispatch : St -> V -> St * res unit).

  Notation loop := (run_loop checks from_str dispatch).
  Notation hand := (handle from_str dispatch).

  (** The bytes of the first [k] messages. *)
  Definition raws (ms : list message) : bytes := concat (map raw ms).

  Lemma taken_shift : forall reads m ms got k, length (raw m) <= got ->
    taken_after (m :: ms) got (S k) reads = S (taken_after ms (got - length (raw m)) k reads).
  Proof.
    induction reads as [|r reads IH]; intros m ms got k L; cbn [taken_after]; [reflexivity|].
    cbn [complete]. replace (Nat.leb (length (raw m)) (got + length r)) with true
      by (symmetry; apply Nat.leb_le; lia).
    replace (got + length r - length (raw m)) with (got - length (raw m) + length r) by lia.
    replace (Nat.min (S (S k)) (S (complete ms (got - length (raw m) + length r))))
      with (S (Nat.min (S k) (complete ms (got - length (raw m) + length r)))) by lia.
    rewrite IH by lia. do 2 f_equal. lia.
  Qed.

  Lemma raw_length : forall m, well_formed m -> 0 < length (raw m).
  Proof.
    intros m W. destruct (well_framed_parts _ _ W) as (fields & _ & -> & _).
    rewrite !app_length. cbn. lia.
  Qed.

  Lemma valid_nil : valid [].
  Proof. discriminate. Qed.

  Lemma loop_reads : forall reads2 reads ms buffer st rest,
    Forall well_formed ms -> valid buffer -> Forall valid reads -> Forall (fun r => r <> []) reads ->
    buffer ++ concat reads ++ rest = raws ms ->
    loop buffer (reads ++ reads2) st
    = let k := taken_after ms (length buffer) 0 reads in
      match hand (firstn k (map body ms)) st with
      | (st', Ok _) => loop (skipn (length (raws (firstn k ms))) (buffer ++ concat reads)) reads2 st'
      | r => r
      end.
  Proof.
    intros reads2. induction reads as [|r reads IH]; intros ms buffer st rest Wf Vb Vr Nr E.
    - cbn. rewrite app_nil_r. reflexivity.
    - apply Forall_cons_iff in Vr as [Vr0 Vr]. apply Forall_cons_iff in Nr as [Nr0 Nr].
      cbn [app concat] in E |- *. cbn [taken_after].
      destruct r as [|c r]; [congruence|]. cbn [run_loop].
      set (chunk := c :: r) in *.
      assert (Vbc : valid (buffer ++ chunk)) by (apply valid_app; assumption).
      destruct ms as [|m ms].
      { exfalso. cbn in E. destruct buffer; cbn in E; [unfold chunk in E; discriminate|discriminate]. }
      apply Forall_cons_iff in Wf as [Wm Wf].
      assert (E2 : (buffer ++ chunk) ++ (concat reads ++ rest) = raw m ++ raws ms).
      { rewrite <- !app_assoc in *. exact E. }
      rewrite (next_message_frame checks (raw m) (body m) (buffer ++ chunk) (raws ms) _ Wm Vbc E2).
      rewrite app_length. cbn [complete].
      destruct (Nat.leb (length (raw m)) (length buffer + length chunk)) eqn:L.
      + apply Nat.leb_le in L.
        replace (Nat.min 1 (S (complete ms (length buffer + length chunk - length (raw m))))) with 1 by lia.
        rewrite taken_shift by exact L. cbn [map firstn handle].
        destruct (from_str (body m)) as [v|e|e|]; [|reflexivity|reflexivity|reflexivity].
        destruct (dispatch st v) as [st' [u|e|e|]]; [|reflexivity|reflexivity|reflexivity].
        destruct (app_split_le _ (raw m) (raws ms) (buffer ++ chunk) (concat reads ++ rest))
          as (z & Ez & Er); [symmetry; exact E2|rewrite app_length; exact L|].
        assert (Ek : skipn (length (raw m)) (buffer ++ chunk) = z)
          by (rewrite Ez, skipn_app, skipn_all, Nat.sub_diag; reflexivity).
        rewrite Ek.
        assert (Vz : valid z).
        { apply (valid_app_inv (raw m)); [eapply well_framed_valid; exact Wm|].
          rewrite <- Ez. exact Vbc. }
        rewrite (IH ms z st' rest Wf Vz Vr Nr) by (symmetry; exact Er). cbv zeta.
        assert (Lz : length z = length buffer + length chunk - length (raw m)).
        { pose proof (f_equal (@length N) Ez) as Q. rewrite !app_length in Q. lia. }
        rewrite Lz.
        set (k := taken_after ms _ 0 reads).
        destruct (hand (firstn k (map body ms)) st') as [st'' [u'|e|e|]]; try reflexivity.
        f_equal. change (raws (m :: firstn k ms)) with (raw m ++ raws (firstn k ms)).
        rewrite app_assoc, Ez, <- app_assoc, app_length.
        rewrite (skipn_app (_ + _)), (skipn_all2 (raw m)) by lia. cbn [app].
        f_equal. lia.
      + cbn [Nat.min]. rewrite (IH (m :: ms) (buffer ++ chunk) st rest).
        * rewrite app_length. cbv zeta. cbn [Nat.min]. rewrite <- !app_assoc. reflexivity.
        * constructor; assumption.
        * exact Vbc.
        * exact Vr.
        * exact Nr.
        * rewrite <- !app_assoc. rewrite <- !app_assoc in E. exact E.
  Qed.

  Lemma run_reads : forall reads ms st rest,
    Forall well_formed ms -> Forall valid reads -> Forall (fun r => r <> []) reads ->
    concat reads ++ rest = concat (map raw ms) ->
    run checks from_str dispatch reads st
    = hand (firstn (taken_after ms 0 0 reads) (map body ms)) st.
  Proof.
    intros reads ms st rest Wf Vr Nr E. unfold run.
    rewrite <- (app_nil_r reads) at 1.
    rewrite (loop_reads [] reads ms [] st rest Wf valid_nil Vr Nr E). cbv zeta. cbn [length].
    destruct (hand _ st) as [st' [[]|e|e|]]; reflexivity.
  Qed.

  Lemma skipn_raws : forall k ms b rest, b ++ rest = raws ms ->
    k <= complete ms (length b) -> skipn (length (raws (firstn k ms))) b ++ rest = raws (skipn k ms)
    /\ (length (raws (firstn k ms)) <= length b).
  Proof.
    induction k as [|k IH]; intros ms b rest E L.
    - cbn. split; [exact E|lia].
    - destruct ms as [|m ms]; [cbn in L; lia|]. cbn [complete] in L.
      destruct (Nat.leb (length (raw m)) (length b)) eqn:Lm; [|lia]. apply Nat.leb_le in Lm.
      cbn [firstn skipn]. change (raws (m :: firstn k ms)) with (raw m ++ raws (firstn k ms)).
      change (raws (m :: ms)) with (raw m ++ raws ms) in E.
      destruct (app_split_le _ (raw m) (raws ms) b rest) as (z & -> & Ez); [symmetry; exact E|exact Lm|].
      rewrite app_length in L, Lm.
      replace (length (raw m) + length z - length (raw m)) with (length z) in L by lia.
      destruct (IH ms z rest) as [IH1 IH2]; [symmetry; exact Ez|lia|].
      rewrite !app_length. split; [|lia].
      rewrite skipn_app, (skipn_all2 (raw m)) by lia. cbn [app].
      replace (length (raw m) + length (raws (firstn k ms)) - length (raw m))
        with (length (raws (firstn k ms))) by lia.
      exact IH1.
  Qed.

  Lemma complete_mono : forall ms n n', n <= n' -> complete ms n <= complete ms n'.
  Proof.
    induction ms as [|m ms IH]; intros n n' L; cbn; [lia|].
    destruct (Nat.leb (length (raw m)) n) eqn:E1; [|lia]. apply Nat.leb_le in E1.
    replace (Nat.leb (length (raw m)) n') with true by (symmetry; apply Nat.leb_le; lia).
    specialize (IH (n - length (raw m)) (n' - length (raw m))). lia.
  Qed.

  Lemma taken_complete : forall ms reads got k, k <= complete ms got ->
    taken_after ms got k reads <= complete ms (got + length (concat reads)).
  Proof.
    intro ms. induction reads as [|r reads IH]; intros got k L; cbn [taken_after concat].
    - cbn. rewrite Nat.add_0_r. exact L.
    - etransitivity; [apply IH; lia|]. rewrite app_length. apply complete_mono. lia.
  Qed.

  Lemma taken_le : forall ms reads got k, k <= complete ms got ->
    taken_after ms got k reads <= length ms.
  Proof.
    intros ms reads got k L. etransitivity; [apply taken_complete; exact L|].
    generalize (got + length (concat reads)). clear.
    induction ms as [|m ms IH]; intro n; cbn; [lia|].
    destruct (Nat.leb _ _); [|lia]. specialize (IH (n - length (raw m))). lia.
  Qed.

  Lemma raws_valid : forall k ms, Forall well_formed ms -> valid (raws (firstn k ms)).
  Proof.
    induction k as [|k IH]; intros [|m ms] Wf; try apply valid_nil.
    apply Forall_cons_iff in Wf as [Wm Wf]. cbn. fold (raws (firstn k ms)).
    apply valid_app; [eapply well_framed_valid; exact Wm|apply IH; exact Wf].
  Qed.

  (** A read that ends inside a character. *)
  Lemma run_broken : forall reads r reads2 ms st rest,
    Forall well_formed ms -> Forall valid reads -> Forall (fun r => r <> []) reads ->
    ~ valid r -> concat (reads ++ r :: reads2) ++ rest = concat (map raw ms) ->
    run checks from_str dispatch (reads ++ r :: reads2) st
    = match hand (firstn (taken_after ms 0 0 reads) (map body ms)) st with
      | (st', Ok _) => (st', Err (lit "invalid utf-8 sequence"))
      | x => x
      end.
  Proof.
    intros reads r reads2 ms st rest Wf Vr Nr Vx E. unfold run.
    rewrite concat_app in E. cbn [concat] in E. rewrite <- !app_assoc in E.
    rewrite (loop_reads (r :: reads2) reads ms [] st (r ++ concat reads2 ++ rest) Wf valid_nil Vr Nr E).
    cbv zeta. cbn [length app].
    set (k := taken_after ms 0 0 reads).
    destruct (hand _ st) as [st' [[]|e|e|]]; try reflexivity.
    destruct r as [|c r]; [exfalso; apply Vx, valid_nil|]. cbn [run_loop].
    assert (K : k <= complete ms (length (concat reads))).
    { unfold k. apply (taken_complete ms reads 0 0). lia. }
    destruct (skipn_raws k ms (concat reads) (( c :: r) ++ concat reads2 ++ rest) E K) as [_ L].
    assert (Vb : valid (skipn (length (raws (firstn k ms))) (concat reads))).
    { apply (valid_app_inv (raws (firstn k ms))).
      - apply raws_valid. exact Wf.
      - assert (P : concat reads = raws (firstn k ms) ++ skipn (length (raws (firstn k ms))) (concat reads)).
        { assert (Es : raws ms = raws (firstn k ms) ++ raws (skipn k ms)).
          { unfold raws. rewrite <- concat_app, <- map_app, firstn_skipn. reflexivity. }
          fold (raws ms) in E. rewrite Es in E.
          destruct (app_split_le _ (raws (firstn k ms)) (raws (skipn k ms)) (concat reads) ((c :: r) ++ concat reads2 ++ rest))
            as (z & Ez & _); [symmetry; exact E|exact L|].
          rewrite Ez at 2. rewrite skipn_app, skipn_all, Nat.sub_diag. cbn. exact Ez. }
        rewrite <- P. clear - Vr.
        induction Vr; cbn; [apply valid_nil|apply valid_app; assumption]. }
    unfold next_message.
    destruct (from_utf8 (skipn _ (concat reads) ++ c :: r)) as [s|] eqn:Eu; [|reflexivity].
    exfalso. apply Vx. apply (valid_app_inv _ _ Vb). unfold valid. rewrite Eu. discriminate.
  Qed.
End Loop.
