(** Reading JSON always ends with a value or an error, and what is written is text. *)
From Coq Require Import String List NArith ZArith Bool Lia ZifyBool.
From Verif Require Import Base Framing FramingProofs Utf8 Json SpecJson JsonProofs Server SpecLsp.
Import ListNotations.

(** [Ok] with a shorter rest, or an error. *)
Definition shorter {A} (s : str) (m : res (A * str)) : Prop :=
  match m with Ok (_, r) => length r < length s | Err _ => True | _ => False end.
Definition no_longer {A} (s : str) (m : res (A * str)) : Prop :=
  match m with Ok (_, r) => length r <= length s | Err _ => True | _ => False end.

Lemma cons_char_shorter : forall c m s s', shorter s m -> length s <= length s' -> shorter s' (cons_char c m).
Proof. intros c [[x r]|e|e|] s s' H L; cbn in *; auto. lia. Qed.

Lemma parse_chars_shorter : forall n s, length s <= n -> shorter s (parse_chars s).
Proof.
  induction n as [|n IH]; intros s Ln; (destruct s as [|c r]; [exact I|]); [cbn in Ln; lia|]. cbn [length] in Ln.
  cbn [parse_chars]. destruct (c =? 34)%N; [cbn; lia|].
  destruct (c =? 92)%N.
  - destruct r as [|e r1]; [exact I|]. cbn [length] in Ln. destruct (e =? 117)%N.
    + destruct r1 as [|h1 [|h2 [|h3 [|h4 r2]]]]; try exact I. cbn [length] in Ln. destruct (hex4 h1 h2 h3 h4) as [m|]; [|exact I].
      destruct ((0xDC00 <=? m) && (m <=? 0xDFFF))%N; [exact I|].
      destruct ((0xD800 <=? m) && (m <=? 0xDBFF))%N.
      * destruct r2 as [|b [|u [|l1 [|l2 [|l3 [|l4 r3]]]]]]; try exact I. cbn [length] in Ln.
        destruct ((b =? 92) && (u =? 117))%N; [|exact I]. destruct (hex4 l1 l2 l3 l4) as [m'|]; [|exact I].
        destruct ((0xDC00 <=? m') && (m' <=? 0xDFFF))%N; [|exact I].
        apply (cons_char_shorter _ _ r3); [apply IH; lia|cbn; lia].
      * apply (cons_char_shorter _ _ r2); [apply IH; lia|cbn; lia].
    + destruct (simple_escape e); [|exact I]. apply (cons_char_shorter _ _ r1); [apply IH; lia|cbn; lia].
  - destruct (c <? 32)%N; [exact I|]. apply (cons_char_shorter _ _ r); [apply IH; lia|cbn; lia].
Qed.

Lemma skip_ws_le : forall s, length (skip_ws s) <= length s.
Proof. induction s as [|c s IH]; cbn [skip_ws]; [lia|]. destruct (_ || _ || _ || _)%N; cbn [length]; lia. Qed.

Lemma take_digits_le : forall s d r, take_digits s = (d, r) -> length r + length d = length s.
Proof.
  induction s as [|c s IH]; intros d r H; cbn [take_digits] in H; [injection H as <- <-; reflexivity|].
  destruct (is_digit c); [|injection H as <- <-; cbn; lia].
  destruct (take_digits s) as [d' r'] eqn:T. injection H as <- <-. specialize (IH _ _ eq_refl). cbn. lia.
Qed.

Lemma fraction_le : forall s, no_longer s (parse_fraction s).
Proof.
  intros [|c s]; [cbn; lia|]. cbn [parse_fraction]. destruct (c =? 46)%N; [|cbn; lia].
  destruct (take_digits s) as [[|x d] r] eqn:T; [exact I|]. apply take_digits_le in T. cbn in *. lia.
Qed.

Lemma exponent_le : forall s, no_longer s (parse_exponent s).
Proof.
  intros [|c s]; [cbn; lia|]. cbn [parse_exponent]. destruct (_ || _)%N; [|cbn; lia].
  destruct (match s with [] => _ | x :: t => _ end) as [sign s''] eqn:E.
  assert (length s'' <= length s).
  { destruct s as [|x t]; [injection E as <- <-; cbn; lia|]. destruct (_ || _)%N in E; injection E as <- <-; cbn; lia. }
  destruct (take_digits s'') as [[|x d] r] eqn:T; [exact I|]. apply take_digits_le in T. cbn in *. lia.
Qed.

Lemma number_shorter : forall neg s, shorter s (parse_number neg s).
Proof.
  intros neg s. unfold parse_number. destruct (take_digits s) as [[|d0 d] r] eqn:T; [exact I|].
  apply take_digits_le in T. cbn [length] in T.
  destruct (_ && _); [exact I|].
  pose proof (fraction_le r) as F. destruct (parse_fraction r) as [[f r1]|x|x|]; cbn [bind]; try exact F. cbn [no_longer] in F.
  pose proof (exponent_le r1) as E. destruct (parse_exponent r1) as [[e r2]|x|x|]; cbn [bind]; try exact E. cbn [no_longer] in E.
  assert (H : length r2 < length s) by lia.
  destruct f; destruct e; try exact H. destruct neg; destruct (_ : bool); exact H.
Qed.

Lemma word_shorter : forall w j s s', length s < length s' -> shorter s' (parse_word w j s).
Proof.
  intros w j s s' H. unfold parse_word. destruct (starts_with w s); [|exact I]. cbn [shorter]. rewrite skipn_length. lia.
Qed.

Lemma values_total : forall fuel,
  (forall d s, 2 * length s + 1 <= fuel -> shorter s (parse_value fuel d s))
  /\ (forall d s, 2 * length s + 2 <= fuel -> shorter s (parse_elems fuel d s))
  /\ (forall d s, 2 * length s + 2 <= fuel -> shorter s (parse_fields fuel d s)).
Proof.
  induction fuel as [|f (IV & IE & IF)]; [repeat split; intros; lia|]. split; [|split].
  - intros d s H. cbn [parse_value]. pose proof (skip_ws_le s) as W. destruct (skip_ws s) as [|c r] eqn:E; [exact I|].
    cbn [length] in W.
    destruct (c =? 110)%N; [apply word_shorter; lia|]. destruct (c =? 116)%N; [apply word_shorter; lia|].
    destruct (c =? 102)%N; [apply word_shorter; lia|].
    destruct (c =? 34)%N.
    { pose proof (parse_chars_shorter (length r) r (le_n _)) as P. destruct (parse_chars r) as [[x r']|x|x|]; cbn in *; auto. lia. }
    destruct (c =? 45)%N.
    { pose proof (number_shorter true r) as P. destruct (parse_number true r) as [[x r']|x|x|]; cbn in *; auto. lia. }
    destruct (is_digit c).
    { pose proof (number_shorter false (c :: r)) as P. destruct (parse_number false (c :: r)) as [[x r']|x|x|]; cbn [shorter] in *; auto.
      cbn [length] in P. lia. }
    destruct (c =? 91)%N.
    { destruct (pred d) as [|d']; [exact I|]. pose proof (skip_ws_le r) as W2. destruct (skip_ws r) as [|x r'] eqn:E2; [exact I|].
      cbn [length] in W2. destruct (x =? 93)%N; [cbn; lia|].
      specialize (IE (S d') (x :: r')). cbn [length] in IE. destruct (parse_elems f (S d') (x :: r')) as [[l r'']|y|y|]; cbn [bind shorter] in *; auto; try (apply IE; lia).
      assert (length r'' < S (length r')) by (apply IE; lia). lia. }
    destruct (c =? 123)%N; [|exact I].
    destruct (pred d) as [|d']; [exact I|]. pose proof (skip_ws_le r) as W2. destruct (skip_ws r) as [|x r'] eqn:E2; [exact I|].
    cbn [length] in W2. destruct (x =? 125)%N; [cbn; lia|].
    specialize (IF (S d') (x :: r')). cbn [length] in IF. destruct (parse_fields f (S d') (x :: r')) as [[l r'']|y|y|]; cbn [bind shorter] in *; auto; try (apply IF; lia).
    assert (length r'' < S (length r')) by (apply IF; lia). lia.
  - intros d s H. cbn [parse_elems]. specialize (IV d s). destruct (parse_value f d s) as [[v r]|x|x|]; cbn [bind shorter] in *; auto; try (apply IV; lia).
    assert (Hr : length r < length s) by (apply IV; lia). pose proof (skip_ws_le r) as W. destruct (skip_ws r) as [|c r'] eqn:E; [exact I|].
    cbn [length] in W. destruct (c =? 44)%N.
    + specialize (IE d r'). destruct (parse_elems f d r') as [[l r'']|x|x|]; cbn [bind shorter] in *; auto; try (apply IE; lia).
      assert (length r'' < length r') by (apply IE; lia). lia.
    + destruct (c =? 93)%N; cbn; [lia|exact I].
  - intros d s H. cbn [parse_fields]. pose proof (skip_ws_le s) as W0. destruct (skip_ws s) as [|q r0] eqn:E0; [exact I|].
    cbn [length] in W0. destruct (q =? 34)%N; [|exact I].
    pose proof (parse_chars_shorter (length r0) r0 (le_n _)) as P. destruct (parse_chars r0) as [[k r1]|x|x|]; cbn [bind shorter] in *; auto.
    pose proof (skip_ws_le r1) as W1. destruct (skip_ws r1) as [|c r2] eqn:E1; [exact I|]. cbn [length] in W1.
    destruct (c =? 58)%N; [|exact I].
    specialize (IV d r2). destruct (parse_value f d r2) as [[v r3]|x|x|]; cbn [bind shorter] in *; auto; try (apply IV; lia).
    assert (H3 : length r3 < length r2) by (apply IV; lia). pose proof (skip_ws_le r3) as W3. destruct (skip_ws r3) as [|c' r4] eqn:E3; [exact I|].
    cbn [length] in W3. destruct (c' =? 44)%N.
    + specialize (IF d r4). destruct (parse_fields f d r4) as [[l r5]|x|x|]; cbn [bind shorter] in *; auto; try (apply IF; lia).
      assert (length r5 < length r4) by (apply IF; lia). lia.
    + destruct (c' =? 125)%N; cbn; [lia|exact I].
Qed.

Theorem from_str_total : forall s, (exists j, from_str s = Ok j) \/ (exists x, from_str s = Err x).
Proof.
  intro s. unfold from_str. destruct (values_total (2 * length s + 2)) as [V _]. specialize (V 128 s).
  destruct (parse_value (2 * length s + 2) 128 s) as [[v r]|x|x|]; cbn [bind shorter] in *; eauto; try (exfalso; apply V; lia).
  destruct (skip_ws r); eauto.
Qed.

(** ** Written JSON is text *)
Lemma small_scalar : forall c, (c < 0xD800)%N -> scalar c.
Proof. intros c H. left. exact H. Qed.

Lemma escape_scalar : forall c, scalar c -> Forall scalar (escape_char c).
Proof.
  intros c H. unfold escape_char.
  repeat match goal with |- Forall _ (if ?b then _ else _) => destruct b eqn:? end;
    repeat (apply Forall_cons || apply Forall_nil); try exact H; try (apply small_scalar; lia).
  - unfold hex_digit. assert (c / 16 < 2)%N by (apply N.div_lt_upper_bound; lia). destruct (c / 16 <? 10)%N; apply small_scalar; lia.
  - unfold hex_digit. assert (c mod 16 < 16)%N by (apply N.mod_lt; lia). destruct (c mod 16 <? 10)%N; apply small_scalar; lia.
Qed.

Lemma concat_Forall : forall A (P : A -> Prop) ls, Forall (Forall P) ls -> Forall P (concat ls).
Proof. intros A P ls H. induction H; cbn; [constructor|]. apply Forall_app; auto. Qed.

Lemma print_str_scalar : forall s, Forall scalar s -> Forall scalar (print_str s).
Proof.
  intros s H. unfold print_str. constructor; [apply small_scalar; lia|]. apply Forall_app. split.
  - apply concat_Forall. induction H; constructor; auto. apply escape_scalar. assumption.
  - repeat constructor.
Qed.

Lemma dec_scalar : forall n, Forall scalar (dec n).
Proof.
  intro n. unfold dec. generalize (S (N.size_nat n)). intro fuel. revert n. induction fuel as [|f IH]; intro n; cbn [dec_go]; [constructor|].
  destruct (n <? 10)%N eqn:E.
  - apply Forall_cons; [|apply Forall_nil]. apply small_scalar. lia.
  - apply Forall_app. split; [apply IH|]. apply Forall_cons; [|apply Forall_nil]. apply small_scalar.
    assert (n mod 10 < 10)%N by (apply N.mod_lt; lia). lia.
Qed.

Lemma intercalate_scalar : forall l, Forall (Forall scalar) l -> Forall scalar (intercalate [44%N] l).
Proof.
  intros l H. induction H as [|x l Hx H IH]; cbn [intercalate]; [constructor|]. destruct l; [exact Hx|].
  apply Forall_app. split; [exact Hx|]. apply Forall_app. split; [repeat constructor|exact IH].
Qed.

Theorem print_scalar : forall j, texts j -> Forall scalar (print j).
Proof.
  induction j as [|b|z|t|s|l IH|fs IH] using json_ind'; intro H; cbn [print].
  - repeat constructor.
  - destruct b; repeat constructor.
  - unfold print_int. destruct z; try apply dec_scalar. constructor; [apply small_scalar; lia|apply dec_scalar].
  - exact H.
  - apply print_str_scalar. exact H.
  - constructor; [apply small_scalar; lia|]. apply Forall_app. split; [|repeat constructor].
    apply intercalate_scalar. cbn [texts] in H. induction IH as [|x l Hx IH' IHl]; cbn in *; constructor; [tauto|tauto].
  - constructor; [apply small_scalar; lia|]. apply Forall_app. split; [|repeat constructor].
    apply intercalate_scalar. cbn [texts] in H. induction IH as [|[k x] fs Hx IH' IHl]; cbn [map fold_right snd] in *; constructor; [|tauto].
    apply Forall_app. split; [apply print_str_scalar; tauto|]. constructor; [apply small_scalar; lia|tauto].
Qed.
