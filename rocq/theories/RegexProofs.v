(** The matcher finds the leftmost match of the pattern. *)
From Coq Require Import String List NArith Arith Bool Lia.
From Verif Require Import Base Plugin Utf8 Project SpecProject CacheProofs Cli CliProofs CliMore SpecCli.
Import ListNotations.

Lemma in_class : forall l c, existsb (N.eqb c) l = true <-> In c l.
Proof.
  intros l c. rewrite existsb_exists. split; [intros (x & I & E); apply N.eqb_eq in E; subst; exact I|].
  intro I. exists c. split; [exact I|apply N.eqb_refl].
Qed.
Lemma small_class : forall (p : N -> bool) l, (forall c, p c = true -> (c < 128)%N) -> (forall c, In c l -> (c < 128)%N) ->
  forallb (fun n => Bool.eqb (p (N.of_nat n)) (existsb (N.eqb (N.of_nat n)) l)) (seq 0 128) = true ->
  forall c, p c = true <-> In c l.
Proof.
  intros p l P L H c. rewrite <- in_class. destruct (N.ltb_spec c 128) as [B|B].
  - rewrite forallb_forall in H. specialize (H (N.to_nat c)). rewrite N2Nat.id in H.
    assert (I : In (N.to_nat c) (seq 0 128)) by (apply in_seq; lia). apply H, Bool.eqb_prop in I. rewrite I. reflexivity.
  - split; intro E; [apply P in E; lia|apply in_class, L in E; lia].
Qed.
Lemma below : forall l, forallb (fun c => N.ltb c 128) l = true -> forall c, In c l -> (c < 128)%N.
Proof. intros l H c I. rewrite forallb_forall in H. apply H, N.ltb_lt in I. exact I. Qed.

Lemma alpha_letter : forall c, alpha c = true <-> letter c.
Proof.
  apply small_class; [|apply below; reflexivity|vm_compute; reflexivity].
  intros c H. unfold alpha in H. apply orb_true_iff in H as [H|H]; apply andb_true_iff in H as [_ H]; apply N.leb_le in H; lia.
Qed.
Lemma alnum_class : forall c, alnum c = true <-> letter c \/ digit c.
Proof.
  intro c. unfold alnum. rewrite orb_true_iff, alpha_letter. apply or_iff_compat_l.
  apply (small_class (fun c => (N.leb 48 c && N.leb c 57)%bool)); [|apply below; reflexivity|vm_compute; reflexivity].
  intros d H. apply andb_true_iff in H as [_ H]. apply N.leb_le in H. lia.
Qed.
Lemma letters : forall a, Forall (fun x => alpha x = true) a <-> Forall letter a.
Proof. intro a. split; apply Forall_impl; intro c; apply alpha_letter. Qed.
Lemma not_letter : forall c, alpha c = false <-> ~ letter c.
Proof. intro c. rewrite <- alpha_letter. destruct (alpha c); intuition discriminate. Qed.

Lemma starts_iff : forall p s, starts p s = true <-> exists r, s = p ++ r.
Proof.
  induction p as [|x p IH]; intros s; cbn.
  - split; [intros _; exists s; reflexivity|reflexivity].
  - destruct s as [|y s]; [split; [discriminate|intros (r & H); discriminate]|].
    rewrite andb_true_iff, IH. split.
    + intros (E & r & ->). apply N.eqb_eq in E. subst. exists r. reflexivity.
    + intros (r & H). injection H as -> ->. split; [apply N.eqb_refl|exists r; reflexivity].
Qed.
Lemma dot_wasm_iff : forall s, dot_wasm s = true <-> exists x r, s = x :: lit "wasm" ++ r /\ x <> 10%N.
Proof.
  intros [|c s]; cbn [dot_wasm]; [split; [discriminate|intros (x & r & H & _); discriminate]|].
  rewrite andb_true_iff, starts_iff, negb_true_iff, N.eqb_neq. split.
  - intros (N & r & ->). exists c, r. auto.
  - intros (x & r & H & N). injection H as -> ->. split; [exact N|exists r; reflexivity].
Qed.
Lemma more_alnum_iff : forall s, more_alnum s = true <->
  exists h x r, s = h ++ x :: lit "wasm" ++ r /\ Forall (fun c => letter c \/ digit c) h /\ x <> 10%N.
Proof.
  induction s as [|c s IH].
  - split; [discriminate|]. intros ([|y h] & x & r & H & _); discriminate.
  - change (more_alnum (c :: s)) with (dot_wasm (c :: s) || (alnum c && more_alnum s)).
    rewrite orb_true_iff, andb_true_iff, dot_wasm_iff, IH, alnum_class. split.
    + intros [(x & r & E & N)|(A & h & x & r & -> & F & N)]; [exists [], x, r; auto|exists (c :: h), x, r; auto].
    + intros ([|y h] & x & r & E & F & N); [left; exists x, r; auto|right].
      injection E as -> ->. inversion F; subst. split; [assumption|exists h, x, r; auto].
Qed.

Lemma span_parts : forall p s, exists a r, span p s = (a, r) /\ s = a ++ r /\ Forall (fun x => p x = true) a /\
  match r with c :: _ => p c = false | [] => True end.
Proof.
  intros p. induction s as [|c s (a & r & E & -> & F & S)]; [exists [], []; repeat split; constructor|].
  cbn [span]. destruct (p c) eqn:P.
  - rewrite E. exists (c :: a), r. repeat split; auto.
  - exists [], (c :: a ++ r). repeat split; auto.
Qed.
(** Where the letters stop. *)
Lemma same_letters : forall a b c r s, Forall letter a -> Forall letter b -> ~ letter c ->
  a ++ r = b ++ c :: s -> match r with x :: _ => ~ letter x | [] => True end -> a = b /\ r = c :: s.
Proof.
  induction a as [|x a IH]; intros [|y b] c r s Fa Fb N E S; cbn [app] in *.
  - auto.
  - subst r. inversion Fb; subst. contradiction.
  - injection E as -> _. inversion Fa; subst. contradiction.
  - injection E as -> E. inversion Fa; inversion Fb; subst. destruct (IH b c r s) as [-> ->]; auto.
Qed.

Lemma capture_here_iff : forall s a, capture_here s = Some a <-> matches a s.
Proof.
  intros s a. unfold capture_here. destruct (span_parts alpha s) as (b & r & E & -> & F & S). rewrite E. apply letters in F.
  assert (S' : match r with x :: _ => ~ letter x | [] => True end) by (destruct r; [exact I|apply not_letter, S]).
  assert (AN : after_name r = true <-> exists h x t, r = lit "_" ++ h ++ x :: lit "wasm" ++ t /\ h <> [] /\
    Forall (fun c => letter c \/ digit c) h /\ x <> 10%N).
  { destruct r as [|u [|c r]]; cbn [after_name]; try (split; [discriminate|]; intros ([|y h] & x & t & H & N & _); try discriminate; congruence).
    rewrite !andb_true_iff, N.eqb_eq, alnum_class, more_alnum_iff. split.
    - intros (-> & C & h & x & t & -> & G & N). exists (c :: h), x, t. repeat split; auto. discriminate.
    - intros ([|y h] & x & t & H & N & G & X); [congruence|]. injection H as -> -> ->. inversion G; subst.
      repeat split; auto. exists h, x, t. auto. }
  split.
  - intro H. destruct b as [|b0 b]; [discriminate|]. destruct (after_name r) eqn:A; [|discriminate]. injection H as <-.
    destruct (proj1 AN eq_refl) as (h & x & t & -> & N & G & X). exists h, x, t. repeat split; auto. discriminate.
  - intros (h & x & t & H & N & G & HN & HG & X).
    assert (U : ~ letter 95%N) by (apply not_letter; reflexivity).
    destruct (same_letters b a 95%N r (h ++ x :: lit "wasm" ++ t) F G U H S') as [-> ->].
    destruct a as [|a0 a]; [congruence|]. rewrite (proj2 AN); [reflexivity|]. exists h, x, t. auto.
Qed.

Theorem captures_iff : forall s a, captures s = Some a <-> found_as s a.
Proof.
  assert (G : forall s a, matches a s -> found_as s a).
  { intros s a H. exists [], s. split; [reflexivity|]. split; [exact H|]. intros; apply Nat.le_0_l. }
  assert (U : forall s a b, matches a s -> matches b s -> a = b).
  { intros s a b A B. apply capture_here_iff in A, B. congruence. }
  intro s. induction s as [|c s IH]; intro a; cbn [captures].
  - split; [discriminate|]. intros (p & t & E & M & _). destruct p; [|discriminate]. cbn in E. subst t.
    apply capture_here_iff in M. discriminate.
  - destruct (capture_here (c :: s)) as [b|] eqn:E.
    + apply capture_here_iff in E. split; [intro H; injection H as ->; apply G, E|].
      intros (p & t & H & M & L). specialize (L [] (c :: s) b eq_refl E). destruct p; [|cbn in L; lia]. cbn in H. subst t.
      f_equal. eapply U; eassumption.
    + rewrite IH. split.
      * intros (p & t & -> & M & L). exists (c :: p), t. split; [reflexivity|]. split; [exact M|].
        intros [|y q] u b H N; cbn [app] in H.
        -- subst u. apply capture_here_iff in N. congruence.
        -- injection H as -> H. cbn. apply le_n_S. eapply L; eassumption.
      * intros ([|y p] & t & H & M & L); cbn [app] in H.
        -- subst t. apply capture_here_iff in M. congruence.
        -- injection H as -> ->. exists p, t. split; [reflexivity|]. split; [exact M|].
           intros q u b H N. specialize (L (y :: q) u b). cbn in L. rewrite H in L. specialize (L eq_refl N). lia.
Qed.

(** ** The theorems about names of files, in these terms *)
Theorem named_iff : forall shown name s, name <> [] ->
  (found_as (lit "plugins/" ++ name ++ lit "_" ++ hash_sha256 shown s ++ lit ".wasm") name <-> Forall letter name).
Proof. intros shown name s N. rewrite <- captures_iff, <- letters. apply captured_iff. exact N. Qed.

Theorem file_found : forall shown name s names t, Forall scalar name -> name <> [] -> Forall letter name ->
  Forall (fun n => from_utf8 (lit "plugins/" ++ n) <> None) names ->
  In (utf8 (name ++ lit "_" ++ hash_sha256 shown s ++ lit ".wasm")) names ->
  (forall n text, In n names -> from_utf8 (lit "plugins/" ++ n) = Some text -> found_as text name ->
     n = utf8 (name ++ lit "_" ++ hash_sha256 shown s ++ lit ".wasm")) ->
  exists t', find_plugins (lit "plugins") names t = Ok t' /\
    hm_get str_eqb t' name = Some (cache_path shown name s, mkFlags false false false false).
Proof.
  intros shown name s names t F N L U I O. apply letters in L. apply found; try assumption.
  intros n text J E C. apply captures_iff in C. eapply O; eassumption.
Qed.

Theorem names_are_letters : forall d names t, find_plugins d names [] = Ok t ->
  forall name x, hm_get str_eqb t name = Some x -> name <> [] /\ Forall letter name.
Proof. intros d names t H name x G. destruct (only_letters d names t H name x G) as [A B]. apply letters in B. auto. Qed.

Theorem last_file_wins : forall d names x s name t t', from_utf8 (join d x) = Some s -> found_as s name ->
  find_plugins d (names ++ [x]) t = Ok t' -> hm_get str_eqb t' name = Some (join d x, mkFlags false false false false).
Proof. intros d names x s name t t' E C. apply captures_iff in C. eapply last_wins; eassumption. Qed.

Theorem last_letters : forall d p a h, no 95 d -> no 95 p -> Forall letter a ->
  (p = [] \/ exists q x, p = q ++ [x] /\ ~ letter x) ->
  h <> [] -> Forall (fun c => In c (lit "0123456789abcdef")) h ->
  forall b, found_as (d ++ lit "/" ++ (p ++ a) ++ lit "_" ++ h ++ lit ".wasm") b <-> a <> [] /\ b = a.
Proof.
  intros d p a h D P A O H X b. apply letters in A. rewrite <- captures_iff, captures_exact; auto.
  - destruct a as [|x a]; split.
    + discriminate.
    + intros [K _]. congruence.
    + intro K. injection K as <-. split; [discriminate|reflexivity].
    + intros [_ ->]. reflexivity.
  - destruct O as [->|(q & x & -> & K)]; [left; reflexivity|right; exists q, x; split; [reflexivity|apply not_letter, K]].
Qed.
