(** The names of cache files. *)
From Coq Require Import String List NArith Arith Bool Lia.
From Coq Require Hexadecimal HexadecimalN.
From Verif Require Import Base Utf8 Framing Serde Sha256 Project SpecProject SerdeProofs.
Import ListNotations.

(** ** SHA-256 has 64 digits *)
Lemma round_length : forall s kw, length s = 8 -> length (round s kw) = 8.
Proof.
  intros s kw H. do 8 (destruct s as [|? s]; [discriminate|]). destruct s; [reflexivity|discriminate].
Qed.
Lemma rounds_length : forall l s, length s = 8 -> length (fold_left round l s) = 8.
Proof. induction l as [|kw l IH]; intros s H; cbn [fold_left]; [exact H|]. apply IH. apply round_length. exact H. Qed.
Lemma compress_length : forall s b, length s = 8 -> length (compress s b) = 8.
Proof. intros s b H. unfold compress. rewrite map_length, combine_length, rounds_length, H by exact H. reflexivity. Qed.
Lemma digest_length : forall m, length (digest_words m) = 8.
Proof.
  intro m. unfold digest_words. cbv zeta. generalize (blocks (length (words (padded m))) (words (padded m))).
  assert (H : length initial_hash = 8) by reflexivity. revert H. generalize initial_hash. intros s H l. revert s H.
  induction l as [|b l IH]; intros s H; cbn [fold_left]; [exact H|]. apply IH. apply compress_length. exact H.
Qed.

Lemma hex_lower : forall n, (n < 16)%N -> In (hex_digit n) (lit "0123456789abcdef").
Proof.
  intros n H. unfold hex_digit. destruct (N.ltb n 10) eqn:E.
  - apply N.ltb_lt in E.
    assert (X : (n = 0 \/ n = 1 \/ n = 2 \/ n = 3 \/ n = 4 \/ n = 5 \/ n = 6 \/ n = 7 \/ n = 8 \/ n = 9)%N) by lia.
    decompose [or] X; subst n; vm_compute; tauto.
  - apply N.ltb_ge in E. assert (X : (n = 10 \/ n = 11 \/ n = 12 \/ n = 13 \/ n = 14 \/ n = 15)%N) by lia.
    decompose [or] X; subst n; vm_compute; tauto.
Qed.

Theorem sha256_shape : forall m, length (sha256_hex m) = 64 /\ Forall (fun c => In c (lit "0123456789abcdef")) (sha256_hex m).
Proof.
  intro m. unfold sha256_hex. pose proof (digest_length m) as H. set (ws := digest_words m) in *. clearbody ws.
  split.
  - do 8 (destruct ws as [|? ws]; [discriminate|]). destruct ws; [reflexivity|discriminate].
  - clear H. induction ws as [|x ws IH]; cbn [map concat]; [constructor|]. apply Forall_app. split; [|exact IH].
    unfold hex32. apply Forall_forall. intros c I. apply in_map_iff in I as (i & <- & _). apply hex_lower.
    change 15%N with (N.ones 4). rewrite N.land_ones. apply N.mod_upper_bound. discriminate.
Qed.

(** ** [{:?}] is injective *)
Lemma hex_text_inj : forall u u' x y, hex_text u ++ 125%N :: x = hex_text u' ++ 125%N :: y -> u = u' /\ x = y.
Proof.
  induction u; destruct u'; intros x y H; cbn [hex_text app] in H; try discriminate;
    injection H; clear H; intros;
    try (match goal with H : hex_text _ ++ _ = hex_text _ ++ _ |- _ => apply IHu in H as [-> ->] end); auto.
Qed.

Section Debug.
  Variable shown : N -> bool.

  Definition escape_of (c : N) : option N :=
    if N.eqb c 0 then Some 48%N else if N.eqb c 9 then Some 116%N else if N.eqb c 13 then Some 114%N
    else if N.eqb c 10 then Some 110%N else if N.eqb c 34 then Some 34%N else if N.eqb c 92 then Some 92%N else None.

  Lemma debug_char_cases : forall c,
    (exists e, escape_of c = Some e /\ e <> 117%N /\ debug_char shown c = [92%N; e]) \/
    (c <> 34%N /\ c <> 92%N /\ debug_char shown c = [c]) \/
    debug_char shown c = [92; 117; 123]%N ++ hex_text (N.to_hex_uint c) ++ [125%N].
  Proof.
    intro c. unfold debug_char, escape_of.
    repeat match goal with |- context [N.eqb c ?n] => destruct (N.eqb_spec c n); [left; eexists; repeat split; discriminate|] end.
    destruct (shown c); [right; left; auto|right; right; reflexivity].
  Qed.

  Lemma escape_inj : forall c c' e, escape_of c = Some e -> escape_of c' = Some e -> c = c'.
  Proof.
    intros c c' e H H'. unfold escape_of in *.
    repeat match goal with X : context [N.eqb ?a ?b] |- _ => destruct (N.eqb_spec a b) end; congruence.
  Qed.

  Lemma debug_char_inj : forall c c' x y, debug_char shown c ++ x = debug_char shown c' ++ y -> c = c' /\ x = y.
  Proof.
    intros c c' x y H.
    destruct (debug_char_cases c) as [(e & E & U & D)|[(A & B & D)|D]];
      destruct (debug_char_cases c') as [(e' & E' & U' & D')|[(A' & B' & D')|D']];
      rewrite D, D' in H; cbn [app] in H; try (injection H; clear H; intros; congruence).
    - injection H as <- <-. split; [eapply escape_inj; eassumption|reflexivity].
    - injection H as <- <-. auto.
    - injection H as H. rewrite <- !app_assoc in H. cbn [app] in H. apply hex_text_inj in H as [H ->].
      split; [|reflexivity]. apply HexadecimalN.Unsigned.to_uint_inj. exact H.
  Qed.

  Lemma debug_char_head : forall c, exists h t, debug_char shown c = h :: t /\ h <> 34%N.
  Proof.
    intro c. destruct (debug_char_cases c) as [(e & E & U & D)|[(A & B & D)|D]]; rewrite D;
      eexists; eexists; (split; [reflexivity|]); try discriminate. exact A.
  Qed.

  Lemma debug_str_inj : forall s s' x y, debug_str shown s ++ x = debug_str shown s' ++ y -> s = s' /\ x = y.
  Proof.
    unfold debug_str. intros s s' x y H. cbn [app] in H. injection H as H. rewrite <- !app_assoc in H. cbn [app] in H.
    revert s' H. induction s as [|c s IH]; intros [|c' s'] H; cbn [map concat app] in H.
    - injection H as ->. auto.
    - destruct (debug_char_head c') as (h & t & E & N). rewrite E in H. cbn [app] in H. injection H as H _. congruence.
    - destruct (debug_char_head c) as (h & t & E & N). rewrite E in H. cbn [app] in H. injection H as H _. congruence.
    - rewrite <- !app_assoc in H. apply debug_char_inj in H as [-> H]. apply IH in H as [-> ->]. auto.
  Qed.

  Lemma debug_hook_inj : forall o o' k (x y : str), (k = 44%N \/ k = 32%N) ->
    debug_hook o ++ k :: x = debug_hook o' ++ k :: y -> o = o' /\ x = y.
  Proof.
    intros [[]|] [[]|] k x y K H; cbn in H; try (injection H as ->; auto); destruct K as [-> | ->]; discriminate.
  Qed.

  Theorem debug_schema_inj : forall s s', debug_schema shown s = debug_schema shown s' -> s = s'.
  Proof.
    intros [o r v e st d t] [o' r' v' e' st' d' t'] H. unfold debug_schema in H.
    cbn [s_owner s_repo s_version s_expr_hook s_stmt_hook s_document_hook s_text_hook] in H.
    apply app_inv_head in H. apply debug_str_inj in H as [-> H]. apply app_inv_head in H. apply debug_str_inj in H as [-> H].
    apply app_inv_head in H. apply debug_str_inj in H as [-> H]. apply app_inv_head in H.
    apply debug_hook_inj in H as [-> H]; [|left; reflexivity]. apply (app_inv_head (lit " stmt_hook: ")) in H.
    apply debug_hook_inj in H as [-> H]; [|left; reflexivity]. apply (app_inv_head (lit " document_hook: ")) in H.
    apply debug_hook_inj in H as [-> H]; [|left; reflexivity]. apply (app_inv_head (lit " text_hook: ")) in H.
    apply debug_hook_inj in H as [-> H]; [|right; reflexivity]. reflexivity.
  Qed.
End Debug.

Lemma app_inv_length : forall {A} (a b c d : list A), length c = length d -> a ++ c = b ++ d -> a = b /\ c = d.
Proof.
  intros A a. induction a as [|x a IH]; intros [|y b] c d L H; cbn [app] in H.
  - auto.
  - exfalso. subst c. cbn [length] in L. rewrite app_length in L. lia.
  - exfalso. subst d. cbn [length] in L. rewrite app_length in L. lia.
  - injection H as -> H. apply IH in H as [-> ->]; auto.
Qed.

Lemma utf8_inj : forall s s', Forall scalar s -> Forall scalar s' -> utf8 s = utf8 s' -> s = s'.
Proof.
  intros s s' F F' H. apply from_utf8_utf8 in F, F'. rewrite H, F' in F. congruence.
Qed.

Lemma digits_scalar : forall s, Forall (fun c => In c (lit "0123456789abcdef")) s -> Forall scalar s.
Proof.
  intros s F. eapply Forall_impl; [|exact F]. intros c I.
  assert (B : forallb (fun c => N.ltb c 128) (lit "0123456789abcdef") = true) by reflexivity.
  rewrite forallb_forall in B. apply B in I. apply N.ltb_lt in I. unfold scalar. lia.
Qed.

Lemma lit_scalar : forall s : string, forallb (fun c => N.ltb c 128) (lit s) = true -> Forall scalar (lit s).
Proof. intros s H. apply Forall_forall. intros c I. rewrite forallb_forall in H. apply H in I. apply N.ltb_lt in I. unfold scalar. lia. Qed.

Lemma hash_shape : forall shown s, length (hash_sha256 shown s) = 64 /\ Forall (fun c => In c (lit "0123456789abcdef")) (hash_sha256 shown s).
Proof. intros. apply sha256_shape. Qed.

Lemma cache_name_scalar : forall shown n s, Forall scalar n ->
  Forall scalar (lit "plugins/" ++ n ++ lit "_" ++ hash_sha256 shown s ++ lit ".wasm").
Proof.
  intros shown n s F. repeat (apply Forall_app; split); try exact F; try (apply lit_scalar; reflexivity).
  apply digits_scalar. apply hash_shape.
Qed.

Theorem cache_path_name : forall shown n s n' s', Forall scalar n -> Forall scalar n' ->
  cache_path shown n s = cache_path shown n' s' -> n = n' /\ hash_sha256 shown s = hash_sha256 shown s'.
Proof.
  intros shown n s n' s' F F' H. unfold cache_path in H. apply utf8_inj in H; [|apply cache_name_scalar; assumption..].
  apply app_inv_head in H. destruct (hash_shape shown s) as [L _]. destruct (hash_shape shown s') as [L' _].
  apply app_inv_length in H as [-> H].
  - split; [reflexivity|]. apply app_inv_head in H. apply app_inv_length in H as [H _]; [exact H|reflexivity].
  - rewrite !app_length, L, L'. reflexivity.
Qed.

Theorem cache_path_inj : forall shown n s n' s', Forall scalar n -> Forall scalar n' ->
  (sha256_hex (utf8 (debug_schema shown s)) = sha256_hex (utf8 (debug_schema shown s')) ->
   utf8 (debug_schema shown s) = utf8 (debug_schema shown s')) ->
  Forall scalar (debug_schema shown s) -> Forall scalar (debug_schema shown s') ->
  cache_path shown n s = cache_path shown n' s' -> n = n' /\ s = s'.
Proof.
  intros shown n s n' s' F F' C D D' H. apply cache_path_name in H as [-> H]; try assumption. split; [reflexivity|].
  apply C in H. apply utf8_inj in H; try assumption. apply debug_schema_inj in H. exact H.
Qed.

Lemma hex_text_scalar : forall u, Forall scalar (hex_text u).
Proof. induction u; cbn [hex_text]; constructor; try assumption; unfold scalar; lia. Qed.
Lemma debug_char_scalar : forall shown c, scalar c -> Forall scalar (debug_char shown c).
Proof.
  intros shown c H. destruct (debug_char_cases shown c) as [(e & E & U & D)|[(A & B & D)|D]]; rewrite D.
  - unfold escape_of in E. repeat constructor; try (unfold scalar; lia).
    repeat match type of E with (if ?b then _ else _) = _ => destruct b; [injection E as <-; unfold scalar; lia|] end. discriminate.
  - constructor; [exact H|constructor].
  - repeat (apply Forall_app; split); [repeat constructor; unfold scalar; lia|apply hex_text_scalar|repeat constructor; unfold scalar; lia].
Qed.
Lemma debug_str_scalar : forall shown s, Forall scalar s -> Forall scalar (debug_str shown s).
Proof.
  intros shown s F. unfold debug_str. repeat (apply Forall_app; split); try (repeat constructor; unfold scalar; lia).
  induction F as [|c s H F IH]; cbn [map concat]; [constructor|]. apply Forall_app. split; [apply debug_char_scalar; exact H|exact IH].
Qed.
Lemma debug_schema_scalar : forall shown s, schema_scalar s -> Forall scalar (debug_schema shown s).
Proof.
  intros shown [o r v e st d t] (A & B & C). cbn in A, B, C. unfold debug_schema.
  cbn [s_owner s_repo s_version s_expr_hook s_stmt_hook s_document_hook s_text_hook].
  rewrite !Forall_app. repeat split; try (apply debug_str_scalar; assumption); try (apply lit_scalar; reflexivity).
  all: match goal with |- Forall scalar (debug_hook ?o) => destruct o as [[]|]; apply lit_scalar; reflexivity end.
Qed.

(** Entries that are the same have the same file, whatever else is configured. *)
Theorem cache_exact : forall shown n s n' s', Forall scalar n -> Forall scalar n' -> schema_scalar s -> schema_scalar s' ->
  (sha256_hex (utf8 (debug_schema shown s)) = sha256_hex (utf8 (debug_schema shown s')) ->
   utf8 (debug_schema shown s) = utf8 (debug_schema shown s')) ->
  (cache_path shown n s = cache_path shown n' s' <-> n = n' /\ s = s').
Proof.
  intros shown n s n' s' F F' S S' C. split; [|intros [-> ->]; reflexivity].
  apply cache_path_inj; try assumption; apply debug_schema_scalar; assumption.
Qed.
