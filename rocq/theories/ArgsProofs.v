(** The command line is read as SpecArgs.v says. *)
From Coq Require Import String List NArith ZArith Bool Lia.
From Verif Require Import Base Framing Args SpecArgs.
Import ListNotations.

(** * Options in general *)
Definition opt_words (o : opt) (v : str) (ws : list str) : Prop :=
  if o_valued o then o_accepts o v = true /\ valued (o_long o) (o_short o) v ws
  else v = [] /\ ws = [lit "--" ++ o_long o].
Definition item_words (os : list opt) (it : str * str) (ws : list str) : Prop :=
  exists o, In o os /\ fst it = o_long o /\ opt_words o (snd it) ws.

Lemma hyphened_free : forall v, hyphened v = false <-> free v.
Proof.
  intro v. unfold free. destruct v as [|a [|b v]]; cbn.
  - split; [right; discriminate|reflexivity].
  - split; intro H.
    + destruct (N.eq_dec a 45) as [->|D]; [left; reflexivity|right; intro E; apply D; congruence].
    + destruct a as [|p]; [reflexivity|]. repeat (destruct p as [p|p|]; try reflexivity).
  - destruct (N.eq_dec a 45) as [->|D].
    + split; [discriminate|]. intros [H|H]; [discriminate|]. contradiction H. reflexivity.
    + split; [intros _; right; intro E; apply D; congruence|]. intros _.
      destruct a as [|p]; [reflexivity|]. repeat (destruct p as [p|p|]; try reflexivity). contradiction D. reflexivity.
Qed.

Lemma at_equals_eq : forall s n r, at_equals s = (n, r) -> s = n ++ match r with Some v => lit "=" ++ v | None => [] end.
Proof.
  induction s as [|c s IH]; cbn; intros n r E.
  - inversion E. reflexivity.
  - destruct (N.eqb_spec c 61) as [->|D].
    + inversion E. reflexivity.
    + destruct (at_equals s) as [n' r'] eqn:E'. inversion E; subst. cbn. f_equal. apply IH. reflexivity.
Qed.

Definition no_equals (s : str) : Prop := Forall (fun c => c <> 61%N) s.
Lemma at_equals_none : forall s, no_equals s -> at_equals s = (s, None).
Proof.
  induction 1 as [|c s H _ IH]; [reflexivity|]. cbn. rewrite IH. destruct (N.eqb_spec c 61); [contradiction|]. reflexivity.
Qed.
Lemma at_equals_some : forall s v, no_equals s -> at_equals (s ++ lit "=" ++ v) = (s, Some v).
Proof.
  intros s v H. induction H as [|c s H _ IH]; [reflexivity|]. cbn. cbn in IH. rewrite IH.
  destruct (N.eqb_spec c 61); [contradiction|]. reflexivity.
Qed.

(** The cases of an argument *)
Lemma classify_cases : forall os a,
  match classify os a with
  | Stop => a = lit "--"
  | Plain => free a
  | Option_ o att => In o os /\
      (a = lit "--" ++ o_long o ++ match att with Some v => lit "=" ++ v | None => [] end \/
       exists c, o_short o = Some c /\
         match att with
         | None => a = [45%N; c]
         | Some v => (v <> [] /\ hd_error v <> Some 61%N /\ a = [45%N; c] ++ v) \/ a = [45%N; c] ++ lit "=" ++ v
         end)
  | _ => True
  end.
Proof.
  intros os a. destruct (hyphened a) eqn:Hy.
  2: { assert (classify os a = Plain) as ->; [|apply hyphened_free, Hy].
       destruct a as [|x [|y a]]; try reflexivity.
       - cbn. destruct x as [|p]; [reflexivity|]. repeat (destruct p as [p|p|]; try reflexivity).
       - cbn in Hy. destruct x as [|p]; [reflexivity|]. cbn. repeat (destruct p as [p|p|]; try reflexivity). discriminate. }
  destruct a as [|x [|y s]]; try discriminate.
  { destruct x as [|p]; [discriminate|]. cbn in Hy. repeat (destruct p as [p|p|]; try discriminate). }
  assert (x = 45%N) as ->. { cbn in Hy. destruct x as [|p]; [discriminate|]. repeat (destruct p as [p|p|]; try discriminate); reflexivity. }
  destruct (N.eq_dec y 45) as [->|D].
  - destruct s as [|z s]; [reflexivity|].
    change (classify os (45%N :: 45%N :: z :: s)) with
      (let (name, attached) := at_equals (z :: s) in
      if str_eqb name (lit "help") then match attached with None => WantHelp | Some _ => Unknown end
      else match with_long os name with Some o => Option_ o attached | None => Unknown end).
    destruct (at_equals (z :: s)) as [n r] eqn:E. apply at_equals_eq in E.
    destruct (str_eqb n (lit "help")); [destruct r; exact I|].
    destruct (with_long os n) as [o|] eqn:F; [|exact I]. apply find_some in F. destruct F as [F1 F2]. apply str_eqb_eq in F2. subst n.
    split; [exact F1|]. left. rewrite E. reflexivity.
  - assert (classify os (45%N :: y :: s) =
      if N.eqb y 104 then WantHelp
      else match with_short os y with
           | Some o => Option_ o (match s with [] => None | 61%N :: v => Some v | _ => Some s end)
           | None => Unknown
           end) as ->.
    { destruct y as [|p]; [destruct s; reflexivity|]. cbn [classify].
      repeat (destruct p as [p|p|]; try (destruct s; reflexivity)). contradiction D. reflexivity. }
    destruct (N.eqb y 104); [exact I|]. destruct (with_short os y) as [o|] eqn:F; [|exact I].
    apply find_some in F. destruct F as [F1 F2]. split; [exact F1|]. right.
    destruct (o_short o) as [d|] eqn:O; [|discriminate]. apply N.eqb_eq in F2. subst d. exists y. split; [reflexivity|].
    destruct s as [|e s]; [reflexivity|].
    destruct (N.eq_dec e 61) as [->|De]; [right; reflexivity|].
    assert (hd_error (e :: s) <> Some 61%N) as X by (cbn; congruence).
    destruct e as [|p]; [left; repeat split; (discriminate || exact X || reflexivity)|].
    repeat (destruct p as [p|p|]; try (left; repeat split; (discriminate || exact X || reflexivity))).
    contradiction De. reflexivity.
Qed.

(** The other direction, for options that can be told apart *)
Definition distinct (os : list opt) : Prop := forall o, In o os ->
  with_long os (o_long o) = Some o /\ no_equals (o_long o) /\ o_long o <> [] /\ o_long o <> lit "help" /\
  (o_valued o = false -> o_short o = None) /\ forall c, o_short o = Some c -> with_short os c = Some o /\ c <> 104%N /\ c <> 45%N.

Lemma classify_long : forall os o att, distinct os -> In o os ->
  classify os (lit "--" ++ o_long o ++ match att with Some v => lit "=" ++ v | None => [] end) = Option_ o att.
Proof.
  intros os o att G I. destruct (G o I) as (L & NE & NN & NH & _ & _).
  assert (at_equals (o_long o ++ match att with Some v => lit "=" ++ v | None => [] end) = (o_long o, att)) as A.
  { destruct att; [apply at_equals_some, NE|]. rewrite app_nil_r. apply at_equals_none, NE. }
  destruct (o_long o) as [|z s] eqn:E; [contradiction|].
  change (classify os (lit "--" ++ (z :: s) ++ match att with Some v => lit "=" ++ v | None => [] end)) with
      (let (name, attached) := at_equals ((z :: s) ++ match att with Some v => lit "=" ++ v | None => [] end) in
      if str_eqb name (lit "help") then match attached with None => WantHelp | Some _ => Unknown end
      else match with_long os name with Some o => Option_ o attached | None => Unknown end).
  rewrite A. destruct (str_eqb (z :: s) (lit "help")) eqn:H; [apply str_eqb_eq in H; contradiction|]. rewrite L. reflexivity.
Qed.

Lemma classify_short : forall os o c s, distinct os -> In o os -> o_short o = Some c ->
  classify os ([45%N; c] ++ s) = Option_ o (match s with [] => None | 61%N :: v => Some v | _ => Some s end).
Proof.
  intros os o c s G I C. destruct (G o I) as (_ & _ & _ & _ & _ & W). destruct (W c C) as (L & H & D).
  assert (classify os ([45%N; c] ++ s) =
      if N.eqb c 104 then WantHelp
      else match with_short os c with
           | Some o => Option_ o (match s with [] => None | 61%N :: v => Some v | _ => Some s end)
           | None => Unknown
           end) as ->.
    { destruct c as [|p]; [destruct s; reflexivity|]. cbn [classify app].
      repeat (destruct p as [p|p|]; try (destruct s; reflexivity)). contradiction D. reflexivity. }
  destruct (N.eqb_spec c 104); [contradiction|]. rewrite L. reflexivity.
Qed.

Lemma not_equals_head : forall v : str, v <> [] -> hd_error v <> Some 61%N ->
  (match v return option str with [] => None | 61%N :: v => Some v | _ => Some v end) = Some v.
Proof.
  intros [|e s] H X; [contradiction|]. destruct e as [|p]; [reflexivity|].
  repeat (destruct p as [p|p|]; try reflexivity). contradiction X. reflexivity.
Qed.

Lemma read_item : forall os positional k v ws rest g, distinct os -> item_words os (k, v) ws -> value_of k g = None ->
  read_args os positional (ws ++ rest) g = read_args os positional rest (g ++ [(k, v)]).
Proof.
  intros os positional k v ws rest g G (o & I & K & W) F. cbn [fst snd] in K, W. subst k. unfold opt_words in W.
  destruct (o_valued o) eqn:V.
  - destruct W as [A W]. destruct W as [P | | c C P | c C N1 N2 | c C]; cbn [app read_args].
    + pose proof (classify_long os o None G I) as Q. cbn [app] in Q. rewrite app_nil_r in Q. rewrite Q, V.
      apply hyphened_free in P. rewrite P, A. unfold give. rewrite F. reflexivity.
    + rewrite (classify_long os o (Some v) G I), V, A. unfold give. rewrite F. reflexivity.
    + pose proof (classify_short os o c [] G I C) as Q. cbn [app] in Q. rewrite Q, V. apply hyphened_free in P. rewrite P, A. unfold give. rewrite F. reflexivity.
    + assert (classify os ([45%N; c] ++ v) = Option_ o (Some v)) as Q.
      { rewrite (classify_short os o c v G I C). f_equal. exact (not_equals_head v N1 N2). }
      cbn [app] in Q. rewrite Q, V, A. unfold give. rewrite F. reflexivity.
    + assert (classify os ([45%N; c] ++ lit "=" ++ v) = Option_ o (Some v)) as Q by (rewrite (classify_short os o c (lit "=" ++ v) G I C); reflexivity).
      cbn [app] in Q. rewrite Q, V, A. unfold give. rewrite F. reflexivity.
  - destruct W as [-> ->]. cbn [app read_args].
    pose proof (classify_long os o None G I) as Q. cbn [app] in Q. rewrite app_nil_r in Q. rewrite Q, V. unfold give. rewrite F. reflexivity.
Qed.

Lemma value_of_none : forall k g, value_of k g = None <-> ~ In k (map fst g).
Proof.
  induction g as [|[k' v] g IH]; cbn; [tauto|]. destruct (str_eqb k' k) eqn:E.
  - apply str_eqb_eq in E. subst. split; [discriminate|]. intro H. contradiction H. left. reflexivity.
  - rewrite IH. split; [|tauto]. intros H [X|X]; [|exact (H X)]. subst. rewrite str_eqb_refl in E. discriminate.
Qed.
Lemma value_of_app : forall k g g', value_of k (g ++ g') = match value_of k g with Some v => Some v | None => value_of k g' end.
Proof. induction g as [|[k' v] g IH]; cbn; intro g'; [reflexivity|]. destruct (str_eqb k' k); [reflexivity|apply IH]. Qed.
Lemma value_of_some : forall k v g, NoDup (map fst g) -> (value_of k g = Some v <-> In (k, v) g).
Proof.
  induction g as [|[k' v'] g IH]; cbn; intro N; [split; [discriminate|tauto]|]. inversion N as [|? ? N1 N2]; subst.
  destruct (str_eqb k' k) eqn:E.
  - apply str_eqb_eq in E. subst. split; [intro X; inversion X; left; reflexivity|]. intros [X|X]; [inversion X; reflexivity|].
    contradiction N1. apply in_map_iff. exists (k, v). split; [reflexivity|exact X].
  - rewrite (IH N2). split; [tauto|]. intros [X|X]; [|exact X]. inversion X; subst. rewrite str_eqb_refl in E. discriminate.
Qed.

Lemma read_items : forall os positional rest items wss, distinct os -> Forall2 (item_words os) items wss ->
  forall g, NoDup (map fst (g ++ items)) ->
  read_args os positional (concat wss ++ rest) g = read_args os positional rest (g ++ items).
Proof.
  intros os positional rest items wss G H. induction H as [|[k v] ws items wss W H IH]; intros g N.
  - cbn. rewrite app_nil_r. reflexivity.
  - cbn [concat]. rewrite <- app_assoc, (read_item os positional k v ws _ g G W).
    + rewrite IH; rewrite <- app_assoc; [reflexivity|exact N].
    + apply value_of_none. intro X. rewrite map_app in N. cbn in N. apply NoDup_remove_2 in N. apply N. apply in_or_app. left. exact X.
Qed.

Lemma give_given : forall g k v r g', give g k v r = Given g' -> ~ In k (map fst g) /\ r (g ++ [(k, v)]) = Given g'.
Proof.
  unfold give. intros g k v r g' E. destruct (value_of k g) eqn:F; [discriminate|]. split; [apply value_of_none, F|exact E].
Qed.

Lemma nodup_snoc : forall (g : given) k v, NoDup (map fst g) -> ~ In k (map fst g) -> NoDup (map fst (g ++ [(k, v)])).
Proof.
  intros g k v N H. rewrite map_app. cbn.
  assert (NoDup (k :: map fst g)) as Q by (constructor; assumption).
  apply (NoDup_Add (a := k) (l := map fst g)); [|split; assumption].
  rewrite <- (app_nil_r (map fst g)) at 1. apply Add_app.
Qed.

Lemma read_given_go : forall n os args g g', distinct os -> length args <= n -> NoDup (map fst g) -> read_args os false args g = Given g' ->
  exists items wss stop, args = concat wss ++ stop /\ last_words stop /\ Forall2 (item_words os) items wss /\
    g' = g ++ items /\ NoDup (map fst g').
Proof.
  induction n as [|n IH]; intros os args g g' G L N E.
  - destruct args; [|cbn in L; lia]. cbn in E. inversion E; subst. exists [], [], []. split; [reflexivity|]. split; [left; reflexivity|]. split; [apply Forall2_nil|]. split; [symmetry; apply app_nil_r|exact N].
  - destruct args as [|a args]; cbn in L.
    { cbn in E. inversion E; subst. exists [], [], []. split; [reflexivity|]. split; [left; reflexivity|]. split; [apply Forall2_nil|]. split; [symmetry; apply app_nil_r|exact N]. }
    cbn [read_args] in E. pose proof (classify_cases os a) as C. destruct (classify os a) as [| | | |o att]; try discriminate.
    + destruct args; [|discriminate]. cbn in E. inversion E; subst. exists [], [], [lit "--"].
      split; [reflexivity|]. split; [right; reflexivity|]. split; [apply Forall2_nil|]. split; [symmetry; apply app_nil_r|exact N].
    + destruct C as [I C].
      assert (forall v ws rest, (o_valued o = true -> o_accepts o v = true) -> opt_words o v ws -> length rest <= n -> a :: args = ws ++ rest ->
        give g (o_long o) v (read_args os false rest) = Given g' ->
        exists items wss stop, a :: args = concat wss ++ stop /\ last_words stop /\ Forall2 (item_words os) items wss /\
          g' = g ++ items /\ NoDup (map fst g')) as Step.
      { intros v ws rest _ W Lr Ea Gv. apply give_given in Gv. destruct Gv as [F Gv].
        apply IH in Gv; [|exact G|exact Lr|apply nodup_snoc; assumption]. destruct Gv as (items & wss & stop & E1 & E2 & E3 & E4 & E5).
        exists ((o_long o, v) :: items), (ws :: wss), stop. rewrite Ea, E1. cbn [concat]. rewrite app_assoc.
        repeat split; [exact E2| |rewrite E4, <- app_assoc; reflexivity|exact E5].
        constructor; [|exact E3]. exists o. repeat split; [exact I|exact W]. }
      destruct (o_valued o) eqn:V; destruct att as [v|]; try discriminate.
      * destruct (o_accepts o v) eqn:A; [|discriminate]. apply (Step v [a] args); [intros _; exact A| |lia|reflexivity|exact E].
        unfold opt_words. rewrite V. split; [exact A|]. destruct C as [->|(c & C1 & [(C2 & C3 & ->)| ->])].
        -- apply long_joined.
        -- apply short_joined; assumption.
        -- apply short_equals, C1.
      * destruct args as [|v args]; [discriminate|]. destruct (hyphened v) eqn:P; [discriminate|]. apply hyphened_free in P.
        destruct (o_accepts o v) eqn:A; [|discriminate]. cbn in L.
        apply (Step v [a; v] args); [intros _; exact A| |lia|reflexivity|exact E].
        unfold opt_words. rewrite V. split; [exact A|]. destruct C as [->|(c & C1 & ->)].
        -- rewrite app_nil_r. apply long_apart, P.
        -- apply short_apart; assumption.
      * apply (Step [] [a] args); [discriminate| |lia|reflexivity|exact E].
        unfold opt_words. rewrite V. split; [reflexivity|]. destruct C as [->|(c & C1 & ->)].
        -- rewrite app_nil_r. reflexivity.
        -- destruct (G o I) as (_ & _ & _ & _ & X & _). rewrite (X V) in C1. discriminate.
Qed.

Lemma read_given : forall os args g, distinct os -> read_args os false args [] = Given g ->
  exists wss stop, args = concat wss ++ stop /\ last_words stop /\ Forall2 (item_words os) g wss /\ NoDup (map fst g).
Proof.
  intros os args g G E. apply read_given_go with (n := length args) in E; [|exact G|lia|constructor].
  destruct E as (items & wss & stop & E1 & E2 & E3 & E4 & E5). cbn in E4. subst g. exists wss, stop. auto.
Qed.
Lemma read_stop : forall os stop g, last_words stop -> read_args os false stop g = Given g.
Proof. intros os stop g [->| ->]; reflexivity. Qed.
Lemma given_read : forall os wss stop g, distinct os -> last_words stop -> Forall2 (item_words os) g wss -> NoDup (map fst g) ->
  read_args os false (concat wss ++ stop) [] = Given g.
Proof.
  intros os wss stop g G L F N. rewrite (read_items os false stop g wss G F []) by exact N. apply read_stop, L.
Qed.

(** * Numbers *)
Lemma number_value : forall ds, Forall (fun c => 48 <= c /\ c <= 57)%N ds -> digits_value ds = Z.of_N (number ds).
Proof.
  intros ds F. unfold digits_value, number. change 0%Z with (Z.of_N 0). generalize 0%N as a.
  induction F as [|c ds H _ IH]; intro a; [reflexivity|]. cbn [fold_left]. rewrite <- IH. f_equal. lia.
Qed.
Lemma digits_spec : forall s z, parse_digits s = Some z <->
  s <> [] /\ Forall (fun c => 48 <= c /\ c <= 57)%N s /\ z = Z.of_N (number s).
Proof.
  assert (forall s, forallb is_digit s = true <-> Forall (fun c => 48 <= c /\ c <= 57)%N s) as D.
  { intro s. rewrite forallb_forall, Forall_forall. unfold is_digit. split; intros H x I; specialize (H x I).
    - apply andb_true_iff in H. rewrite !N.leb_le in H. exact H.
    - apply andb_true_iff. rewrite !N.leb_le. exact H. }
  intros s z. unfold parse_digits. destruct s as [|c s]; [split; [discriminate|intros [H _]; contradiction H; reflexivity]|].
  destruct (forallb is_digit (c :: s)) eqn:E.
  - apply D in E. rewrite (number_value _ E). split; [intro X; inversion X; repeat split; [discriminate|exact E]|].
    intros (_ & _ & ->). reflexivity.
  - split; [discriminate|]. intros (_ & X & _). apply D in X. congruence.
Qed.

Lemma read_level_spec : forall s n, read_level s = Some n <-> level_text s n.
Proof.
  assert (forall z n, (if ((0 <=? z) && (z <=? 255))%Z then Some (Z.to_N z) else None) = Some n <-> (z = Z.of_N n /\ n <= 255)%N) as R.
  { intros z n. destruct ((0 <=? z) && (z <=? 255))%Z eqn:E.
    - apply andb_true_iff in E. rewrite !Z.leb_le in E. split; [intro X; inversion X; lia|]. intros [-> _]. rewrite N2Z.id. reflexivity.
    - split; [discriminate|]. intros [-> H]. exfalso. apply andb_false_iff in E. rewrite !Z.leb_gt in E. lia. }
  assert (forall s n, match parse_digits s with Some z => if ((0 <=? z) && (z <=? 255))%Z then Some (Z.to_N z) else None | None => None end = Some n <->
    (s <> [] /\ Forall (fun c => 48 <= c /\ c <= 57)%N s /\ number s = n /\ (n <= 255)%N)) as P.
  { intros s n. destruct (parse_digits s) as [z|] eqn:E.
    - pose proof E as E'. apply digits_spec in E'. destruct E' as (A & B & ->). rewrite R. split.
      + intros [X Y]. apply N2Z.inj in X. subst. auto.
      + intros (_ & _ & <- & Y). auto.
    - split; [discriminate|]. intros (A & B & _ & _). exfalso.
      assert (parse_digits s = Some (Z.of_N (number s))) as X by (apply digits_spec; auto). congruence. }
  intros s n. unfold level_text.
  destruct s as [|c s]; [split; [discriminate|]; intros (ds & A & B & C & D & [E|[E|[E _]]]); subst; try discriminate; contradiction A; reflexivity|].
  destruct (N.eq_dec c 45) as [->|H1]; [|destruct (N.eq_dec c 43) as [->|H2]].
  - change (read_level (45%N :: s)) with
      (match match parse_digits s with Some n => Some (- n)%Z | None => None end with
       | Some z => if ((0 <=? z) && (z <=? 255))%Z then Some (Z.to_N z) else None | None => None end).
    split.
    + destruct (parse_digits s) as [z|] eqn:E; [|discriminate]. apply digits_spec in E. destruct E as (A & B & ->). intro X.
      apply R in X. destruct X as [X Y]. assert (n = 0%N /\ number s = 0%N) as [-> Z] by lia.
      exists s. repeat split; auto.
    + intros (ds & A & B & C & D & [E|[E|[E F]]]).
      * subst ds. inversion B as [|? ? B1 B2]; subst. lia.
      * discriminate.
      * inversion E; subst ds. assert (parse_digits s = Some (Z.of_N (number s))) as X by (apply digits_spec; auto). rewrite X, C, F. reflexivity.
  - change (read_level (43%N :: s)) with
      (match parse_digits s with Some z => if ((0 <=? z) && (z <=? 255))%Z then Some (Z.to_N z) else None | None => None end).
    rewrite P. split.
    + intros (A & B & C & D). exists s. repeat split; auto.
    + intros (ds & A & B & C & D & [E|[E|[E F]]]).
      * subst ds. inversion B as [|? ? B1 B2]; subst. lia.
      * inversion E; subst ds. auto.
      * discriminate.
  - assert (read_level (c :: s) =
      match parse_digits (c :: s) with Some z => if ((0 <=? z) && (z <=? 255))%Z then Some (Z.to_N z) else None | None => None end) as ->.
    { unfold read_level. destruct c as [|p]; [reflexivity|].
      repeat (destruct p as [p|p|]; try reflexivity); [contradiction H2; reflexivity|contradiction H1; reflexivity]. }
    rewrite P. split.
    + intros (A & B & C & D). exists (c :: s). repeat split; auto.
    + intros (ds & A & B & C & D & [E|[E|[E F]]]); [subst ds; auto|inversion E; contradiction|inversion E; contradiction].
Qed.

(** * The commands *)
Lemma no_distinct : distinct [].
Proof. intros o []. Qed.
Ltac no_eq := unfold no_equals; cbn; repeat (apply Forall_cons; [discriminate|]); apply Forall_nil.
Lemma compile_distinct : distinct compile_options.
Proof.
  intros o I. cbn in I. destruct I as [<-|[<-|[<-|[<-|[<-|[]]]]]];
    (split; [reflexivity|]; split; [no_eq|]; split; [discriminate|]; split; [discriminate|];
     split; [intro; (discriminate || reflexivity)|]; intros c C; cbn in C; first [discriminate | injection C as <-; split; [reflexivity|split; discriminate]]).
Qed.
Lemma new_distinct : distinct new_options.
Proof.
  intros o I. cbn in I. destruct I as [<-|[]];
    (split; [reflexivity|]; split; [no_eq|]; split; [discriminate|]; split; [discriminate|];
     split; [intro; (discriminate || reflexivity)|]; intros c C; cbn in C; first [discriminate | injection C as <-; split; [reflexivity|split; discriminate]]).
Qed.

Definition item_of (s : setting) : str * str :=
  match s with
  | Directory v => (lit "plugins-dir-path", v) | Backend v => (lit "backend", v) | Filename v => (lit "filename", v)
  | Level v => (lit "output-level", v) | Json => (lit "json", [])
  end.
Definition level_ok (s : setting) : Prop := match s with Level t => exists n, level_text t n | _ => True end.

Lemma item_setting : forall it ws, item_words compile_options it ws ->
  exists s, item_of s = it /\ setting_words s ws /\ level_ok s.
Proof.
  intros [k v] ws (o & I & K & W). cbn [fst snd] in K, W. unfold opt_words in W. cbn in I.
  destruct I as [<-|[<-|[<-|[<-|[<-|[]]]]]]; cbn in K, W; subst k.
  - exists (Directory v). repeat split. exact (proj2 W).
  - exists (Backend v). repeat split. exact (proj2 W).
  - exists (Filename v). repeat split. exact (proj2 W).
  - exists (Level v). repeat split; [exact (proj2 W)|]. destruct W as [W _]. cbn. destruct (read_level v) as [n|] eqn:E; [|discriminate].
    exists n. apply read_level_spec, E.
  - exists Json. destruct W as [-> ->]. repeat split.
Qed.
Lemma setting_item : forall s ws, setting_words s ws -> level_ok s -> item_words compile_options (item_of s) ws.
Proof.
  intros s ws W L. destruct s; cbn in W.
  - exists (mkOpt (lit "plugins-dir-path") (Some 112%N) true any_value). split; [cbn; tauto|]. split; [reflexivity|]. split; [reflexivity|exact W].
  - exists (mkOpt (lit "backend") (Some 98%N) true any_value). split; [cbn; tauto|]. split; [reflexivity|]. split; [reflexivity|exact W].
  - exists (mkOpt (lit "filename") (Some 102%N) true any_value). split; [cbn; tauto|]. split; [reflexivity|]. split; [reflexivity|exact W].
  - exists (mkOpt (lit "output-level") None true (fun s => match read_level s with Some _ => true | None => false end)).
    split; [cbn; tauto|]. split; [reflexivity|]. split; [|exact W]. cbn in L |- *. destruct L as [n L]. apply read_level_spec in L. rewrite L. reflexivity.
  - exists (mkOpt (lit "json") None false any_value). split; [cbn; tauto|]. split; [reflexivity|]. split; [reflexivity|exact W].
Qed.

Lemma settings_items : forall g wss, Forall2 (item_words compile_options) g wss <->
  exists ss, g = map item_of ss /\ Forall2 setting_words ss wss /\ Forall level_ok ss.
Proof.
  intros g wss. split.
  - induction 1 as [|it ws g wss H _ (ss & E & F & L)].
    + exists []. repeat split; constructor.
    + apply item_setting in H. destruct H as (s & E1 & W & Ls). exists (s :: ss). cbn. rewrite E1, E. repeat split; constructor; assumption.
  - intros (ss & -> & F & L). revert L. induction F as [|s ws ss wss W F IH]; intro L; [constructor|].
    inversion L; subst. cbn. constructor; [apply setting_item; assumption|apply IH; assumption].
Qed.

Lemma nodup_same : forall {A B C} (f : A -> B) (h : A -> C) (l : list A), (forall x y, f x = f y <-> h x = h y) ->
  (NoDup (map f l) <-> NoDup (map h l)).
Proof.
  intros A B C f h l H. induction l as [|x l IH]; cbn; [split; constructor|].
  rewrite !NoDup_cons_iff, IH, !in_map_iff. split; intros [N M]; (split; [|exact M]); intros (y & E & I); apply N; exists y; (split; [|exact I]); apply H, E.
Qed.
Lemma kinds_names : forall ss, NoDup (map fst (map item_of ss)) <-> NoDup (map setting_kind ss).
Proof.
  intro ss. rewrite map_map. apply nodup_same. intros x y. destruct x, y; cbn; split; intro H; try reflexivity; discriminate.
Qed.

Lemma in_items : forall ss k v, In (k, v) (map item_of ss) <-> exists s, In s ss /\ item_of s = (k, v).
Proof. intros. rewrite in_map_iff. split; intros (s & A & B); exists s; auto. Qed.
Lemma directory_in : forall ss v, In (lit "plugins-dir-path", v) (map item_of ss) <-> In (Directory v) ss.
Proof. intros. rewrite in_items. split; [|intro H; eexists; split; [exact H|reflexivity]]. intros (s & I & E). destruct s; inversion E; subst; exact I. Qed.
Lemma backend_in : forall ss v, In (lit "backend", v) (map item_of ss) <-> In (Backend v) ss.
Proof. intros. rewrite in_items. split; [|intro H; eexists; split; [exact H|reflexivity]]. intros (s & I & E). destruct s; inversion E; subst; exact I. Qed.
Lemma filename_in : forall ss v, In (lit "filename", v) (map item_of ss) <-> In (Filename v) ss.
Proof. intros. rewrite in_items. split; [|intro H; eexists; split; [exact H|reflexivity]]. intros (s & I & E). destruct s; inversion E; subst; exact I. Qed.
Lemma level_in : forall ss v, In (lit "output-level", v) (map item_of ss) <-> In (Level v) ss.
Proof. intros. rewrite in_items. split; [|intro H; eexists; split; [exact H|reflexivity]]. intros (s & I & E). destruct s; inversion E; subst; exact I. Qed.
Lemma json_in : forall ss v, In (lit "json", v) (map item_of ss) <-> In Json ss /\ v = [].
Proof.
  intros. rewrite in_items. split; [|intros [H ->]; eexists; split; [exact H|reflexivity]].
  intros (s & I & E). destruct s; inversion E; subst; auto.
Qed.

Lemma level_unique : forall t n m, level_text t n -> level_text t m -> n = m.
Proof. intros t n m A B. apply read_level_spec in A, B. congruence. Qed.

Lemma compile_spec : forall ss d b f n j, NoDup (map setting_kind ss) -> Forall level_ok ss ->
  (compile_of (map item_of ss) = Some (Compile d b f n j) <-> asks_compile ss d b f n j).
Proof.
  intros ss d b f n j N L. apply kinds_names in N.
  assert (forall k v, value_of k (map item_of ss) = Some v <-> In (k, v) (map item_of ss)) as VS by (intros; apply value_of_some, N).
  unfold compile_of, asks_compile.
  rewrite <- backend_in, <- VS, <- filename_in, <- VS.
  assert (forall x, In (Directory x) ss <-> value_of (lit "plugins-dir-path") (map item_of ss) = Some x) as HD by (intro; rewrite VS, directory_in; reflexivity).
  assert (forall x, In (Level x) ss <-> value_of (lit "output-level") (map item_of ss) = Some x) as HL by (intro; rewrite VS, level_in; reflexivity).
  assert (In Json ss <-> value_of (lit "json") (map item_of ss) <> None) as HJ.
  { split.
    - intro I. assert (value_of (lit "json") (map item_of ss) = Some []) as X by (apply VS, json_in; auto). congruence.
    - intro H. destruct (value_of (lit "json") (map item_of ss)) as [x|] eqn:E; [|contradiction H; reflexivity]. apply VS, json_in in E. exact (proj1 E). }
  destruct (value_of (lit "backend") (map item_of ss)) as [b'|]; [|split; [discriminate|intros (_ & X & _); discriminate]].
  destruct (value_of (lit "filename") (map item_of ss)) as [f'|]; [|split; [discriminate|intros (_ & _ & X & _); discriminate]].
  assert ((j = true <-> In Json ss) <-> j = match value_of (lit "json") (map item_of ss) with Some _ => true | None => false end) as HJ'.
  { rewrite HJ. destruct (value_of (lit "json") (map item_of ss)) as [x|].
    - split; [intros [_ Y]; apply Y; discriminate|]. intros ->. split; [discriminate|reflexivity].
    - split; [|intros ->; split; [discriminate|intro X; contradiction X; reflexivity]].
      intros [X _]. destruct j; [contradiction (X eq_refl); reflexivity|reflexivity]. }
  assert ((forall x, d = Some x <-> In (Directory x) ss) <-> d = value_of (lit "plugins-dir-path") (map item_of ss)) as HD'.
  { split.
    - intro H. destruct d as [x|].
      + symmetry. apply HD, H. reflexivity.
      + destruct (value_of (lit "plugins-dir-path") (map item_of ss)) as [x|] eqn:E; [|reflexivity]. apply H, HD. reflexivity.
    - intros -> x. symmetry. apply HD. }
  rewrite HJ', HD'.
  destruct (value_of (lit "output-level") (map item_of ss)) as [t|] eqn:E.
  - assert (In (Level t) ss) as It by (apply HL; reflexivity).
    rewrite Forall_forall in L. destruct (L _ It) as [m Lm]. pose proof Lm as Rm. apply read_level_spec in Rm. rewrite Rm. split.
    + intro X. inversion X; subst. repeat split. left. exists t. auto.
    + intros (-> & X1 & X2 & [(t' & I' & L')|[X _]] & ->); [|contradiction (X t It)].
      apply HL in I'. inversion I'; subst t'. rewrite (level_unique _ _ _ Lm L'). congruence.
  - split.
    + intro X. inversion X; subst. repeat split. right. split; [|reflexivity]. intros t I. apply HL in I. discriminate.
    + intros (-> & X1 & X2 & [(t' & I' & L')|[_ ->]] & ->); [apply HL in I'; discriminate|]. congruence.
Qed.
Lemma compile_only : forall g c, compile_of g = Some c -> exists d b f n j, c = Compile d b f n j.
Proof.
  unfold compile_of. intros g c E. destruct (value_of (lit "backend") g); [|discriminate]. destruct (value_of (lit "filename") g); [|discriminate].
  destruct (match value_of (lit "output-level") g with Some s => read_level s | None => Some 5%N end); [|discriminate].
  inversion E. repeat eexists.
Qed.

Lemma classify_free : forall os a, free a -> classify os a = Plain.
Proof.
  intros os a Hy. apply hyphened_free in Hy. destruct a as [|x [|y a]]; try reflexivity.
  - cbn. destruct x as [|p]; [reflexivity|]. repeat (destruct p as [p|p|]; try reflexivity).
  - cbn in Hy. destruct x as [|p]; [reflexivity|]. cbn. repeat (destruct p as [p|p|]; try reflexivity). discriminate.
Qed.

Lemma add_spec : forall args c,
  finish (read_args [] true args []) (fun g => option_map Add (value_of [] g)) = Run c <->
  exists s, c = Add s /\ ((exists stop, free s /\ last_words stop /\ args = s :: stop) \/ args = [lit "--"; s]).
Proof.
  intros args c. split.
  - destruct args as [|a args]; [discriminate|]. cbn [read_args]. pose proof (classify_cases [] a) as C.
    destruct (classify [] a); try discriminate.
    + subst a. destruct args as [|b [|b' args]]; try discriminate. cbn. intro E. inversion E. exists b. auto.
    + cbn [give value_of app]. destruct args as [|b args].
      * cbn. intro E. inversion E. exists a. split; [reflexivity|]. left. exists []. repeat split; [exact C|left; reflexivity].
      * cbn [read_args]. pose proof (classify_cases [] b) as D. destruct (classify [] b); try discriminate.
        -- subst b. destruct args as [|b' args]; [|discriminate]. cbn. intro E. inversion E. exists a. split; [reflexivity|]. left. exists [lit "--"].
           repeat split; [exact C|right; reflexivity].
        -- destruct D as [[] _].
    + destruct C as [[] _].
  - intros (s & -> & [(stop & F & [->| ->] & ->)| ->]); cbn [read_args]; [| |reflexivity]; rewrite (classify_free [] s F); reflexivity.
Qed.

Lemma plain_spec : forall args c c', finish (read_args [] false args []) (fun _ => Some c) = Run c' <-> last_words args /\ c' = c.
Proof.
  intros args c c'. split.
  - destruct (read_args [] false args []) as [g| |] eqn:E; try discriminate. cbn. intro H. inversion H; subst. split; [|reflexivity].
    apply read_given in E; [|exact no_distinct]. destruct E as (wss & stop & -> & L & F & _).
    inversion F as [|? ? ? ? (o & [] & _) _]; subst. exact L.
  - intros [L ->]. rewrite read_stop by exact L. reflexivity.
Qed.

Lemma new_spec : forall args c, finish (read_args new_options false args []) (fun g => option_map New (value_of (lit "name") g)) = Run c <->
  exists name ws stop, c = New name /\ args = ws ++ stop /\ valued (lit "name") (Some 110%N) name ws /\ last_words stop.
Proof.
  intros args c. split.
  - destruct (read_args new_options false args []) as [g| |] eqn:E; try discriminate. cbn [finish]. intro H.
    apply read_given in E; [|exact new_distinct]. destruct E as (wss & stop & -> & L & F & N).
    destruct (value_of (lit "name") g) as [name|] eqn:V; [|discriminate H]. cbn in H. inversion H; subst c. apply value_of_some in V; [|exact N].
    assert (forall it ws, item_words new_options it ws -> fst it = lit "name" /\ valued (lit "name") (Some 110%N) (snd it) ws) as W.
    { intros it ws (o & [<-|[]] & K & W). split; [exact K|]. exact (proj2 W). }
    inversion F as [|it ws g' wss' F1 F2]; subst; [destruct V|]. destruct (W _ _ F1) as [K1 W1].
    assert (wss' = []) as ->.
    { inversion F2 as [|it2 ws2 g2 wss2 F3 F4]; subst; [reflexivity|]. destruct (W _ _ F3) as [K2 _]. exfalso.
      inversion N as [|? ? N1 _]; subst. apply N1. left. congruence. }
    inversion F2; subst. destruct V as [V|[]]. subst it. exists name, ws, stop. cbn. rewrite app_nil_r. auto.
  - intros (name & ws & stop & -> & -> & V & L).
    assert (Forall2 (item_words new_options) [(lit "name", name)] [ws]) as F.
    { constructor; [|constructor]. exists (mkOpt (lit "name") (Some 110%N) true any_value). split; [left; reflexivity|]. split; [reflexivity|]. split; [reflexivity|exact V]. }
    pose proof (given_read new_options [ws] stop [(lit "name", name)] new_distinct L F) as R. cbn [concat] in R. rewrite app_nil_r in R.
    rewrite R; [reflexivity|]. repeat constructor. intros [].
Qed.

Theorem args_spec : forall args c, parse_args args = Run c <-> spelled args c.
Proof.
  intros args c. split.
  - destruct args as [|a args]; [discriminate|]. unfold parse_args.
    destruct (str_eqb a (lit "compile")) eqn:E1; [apply str_eqb_eq in E1; subst a|].
    { destruct (read_args compile_options false args []) as [g| |] eqn:E; try discriminate. cbn [finish].
      apply read_given in E; [|exact compile_distinct]. destruct E as (wss & stop & -> & L & F & N).
      apply settings_items in F. destruct F as (ss & -> & F & O). apply kinds_names in N.
      destruct (compile_of (map item_of ss)) as [c'|] eqn:C; [|discriminate]. intro H. inversion H; subst c'.
      destruct (compile_only _ _ C) as (d & b & f & n & j & ->). apply compile_spec in C; [|exact N|exact O].
      econstructor; eassumption. }
    destruct (str_eqb a (lit "build")) eqn:E2; [apply str_eqb_eq in E2; subst a; rewrite plain_spec; intros [L ->]; constructor; exact L|].
    destruct (str_eqb a (lit "language-server")) eqn:E3; [apply str_eqb_eq in E3; subst a; rewrite plain_spec; intros [L ->]; constructor; exact L|].
    destruct (str_eqb a (lit "new")) eqn:E4; [apply str_eqb_eq in E4; subst a; rewrite new_spec; intros (name & ws & stop & -> & -> & V & L); constructor; assumption|].
    destruct (str_eqb a (lit "add")) eqn:E5.
    { apply str_eqb_eq in E5. subst a. rewrite add_spec. intros (s & -> & [(stop & F & L & ->)| ->]); constructor; assumption. }
    destruct (str_eqb a (lit "version")) eqn:E6; [apply str_eqb_eq in E6; subst a; rewrite plain_spec; intros [L ->]; constructor; exact L|].
    destruct (str_eqb a (lit "help")); [destruct args as [|b [|]]; [|destruct (named b)|]; discriminate|].
    destruct (classify [] a); discriminate.
  - intro S. destruct S as [ss wss stop d b f n j F N L A | stop L | stop L | name ws stop V L | s stop F L | s | stop L]; unfold parse_args.
    + rewrite str_eqb_refl.
      assert (Forall level_ok ss) as O.
      { apply Forall_forall. intros s I. destruct s; try exact Logic.I. destruct A as (_ & _ & _ & [(t & It & Lt)|[X _]] & _); [|contradiction (X _ I)].
        cbn. exists n. replace s with t; [exact Lt|].
        apply kinds_names in N. apply level_in in It, I. rewrite <- value_of_some in It, I by exact N. congruence. }
      rewrite (given_read compile_options wss stop (map item_of ss) compile_distinct L); [|apply settings_items; eauto|apply kinds_names, N].
      cbn [finish]. apply compile_spec in A; [|exact N|exact O]. rewrite A. reflexivity.
    + cbn [str_eqb]. change (finish (read_args [] false stop []) (fun _ => Some Build) = Run Build). apply plain_spec. auto.
    + change (finish (read_args [] false stop []) (fun _ => Some LanguageServer) = Run LanguageServer). apply plain_spec. auto.
    + change (finish (read_args new_options false (ws ++ stop) []) (fun g => option_map New (value_of (lit "name") g)) = Run (New name)). apply new_spec.
      exists name, ws, stop. auto.
    + change (finish (read_args [] true (s :: stop) []) (fun g => option_map Add (value_of [] g)) = Run (Add s)). apply add_spec.
      exists s. split; [reflexivity|]. left. exists stop. auto.
    + reflexivity.
    + change (finish (read_args [] false stop []) (fun _ => Some Version) = Run Version). apply plain_spec. auto.
Qed.
