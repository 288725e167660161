(** * What is read from TOML: strings are Unicode and keys occur once *)
From Coq Require Import String List NArith Arith Bool Lia.
From Verif Require Import Base Utf8 Json Serde Project SpecProject ProjectProofs Utf8Proofs AddProofs AddProofs2 CliMore ExchangeProofs Toml TomlProofs TomlNew.
Import ListNotations.
Local Open Scope N_scope.

Inductive wf_json : json -> Prop :=
| wf_str : forall s, Forall scalar s -> wf_json (JStr s)
| wf_bool : forall b, wf_json (JBool b)
| wf_arr : forall l, Forall wf_json l -> wf_json (JArr l)
| wf_obj : forall kvs, NoDup (map fst kvs) -> Forall (fun kv => Forall scalar (fst kv) /\ wf_json (snd kv)) kvs -> wf_json (JObj kvs).

Inductive wf_item : item -> Prop :=
| wf_value : forall j, wf_json j -> wf_item (Value j)
| wf_table : forall i d kvs, NoDup (map fst kvs) -> Forall (fun kv => Forall scalar (fst kv) /\ wf_item (snd kv)) kvs -> wf_item (Table i d kvs).
Definition wf_items (kvs : list (str * item)) : Prop :=
  NoDup (map fst kvs) /\ Forall (fun kv => Forall scalar (fst kv) /\ wf_item (snd kv)) kvs.

(** ** Strings *)
Definition both (vr : str * str) : Prop := Forall scalar (fst vr) /\ Forall scalar (snd vr).

Lemma push_both : forall c o vr, push c o = Some vr -> scalar c -> (forall x, o = Some x -> both x) -> both vr.
Proof. intros c [[v r]|] vr H S I; [|discriminate H]. injection H as <-. destruct (I _ eq_refl). split; [constructor|]; assumption. Qed.

Lemma num_scalar : forall ds n, scalar_num ds = Some n -> scalar n.
Proof.
  intros ds n H. unfold scalar_num in H. apply opt_some in H as (m & _ & H).
  destruct ((m <? 0xD800) || ((0xE000 <=? m) && (m <? 0x110000))) eqn:E; [|discriminate H]. injection H as <-. unfold scalar. lia.
Qed.

Lemma letter_scalar : forall e d, escape_letter e = Some d -> scalar d.
Proof.
  intros e d H. unfold escape_letter in H.
  repeat (match type of H with (if ?b then _ else _) = _ => destruct b end; [injection H as <-; left; reflexivity|]). discriminate H.
Qed.

Ltac inv_scalars := repeat match goal with H : Forall scalar (_ :: _) |- _ => inversion H; clear H; subst end.

Lemma basic_both : forall n s vr, (length s <= n)%nat -> Forall scalar s -> read_basic s = Some vr -> both vr.
Proof.
  induction n as [|n IH]; intros s vr L S H; (destruct s as [|c s]; [discriminate H|]; cbn [length] in L); [lia|].
  inv_scalars. cbn [read_basic] in H.
  destruct (c =? 34); [injection H as <-; split; [constructor|assumption]|]. destruct (c =? 92).
  - destruct s as [|e s]; [discriminate H|]. inv_scalars. cbn [length] in L. destruct (escape_letter e) eqn:E.
    + apply letter_scalar in E. apply (push_both _ _ _ H E). intros x X. apply (IH s x); [lia|assumption|exact X].
    + destruct (e =? 117).
      * destruct s as [|a [|b [|x [|d s]]]]; try discriminate H. inv_scalars. cbn [length] in L. destruct (scalar_num [a; b; x; d]) eqn:Q; [|discriminate H].
        apply num_scalar in Q. apply (push_both _ _ _ H Q). intros y Y. apply (IH s y); [lia|assumption|exact Y].
      * destruct (e =? 85); [|discriminate H].
        destruct s as [|a [|b [|x [|d [|a' [|b' [|x' [|d' s]]]]]]]]; try discriminate H. inv_scalars. cbn [length] in L.
        destruct (scalar_num [a; b; x; d; a'; b'; x'; d']) eqn:Q; [|discriminate H].
        apply num_scalar in Q. apply (push_both _ _ _ H Q). intros y Y. apply (IH s y); [lia|assumption|exact Y].
  - destruct (unescaped c); [|discriminate H]. apply (push_both _ _ _ H); [assumption|]. intros y Y. apply (IH s y); [lia|assumption|exact Y].
Qed.

Lemma literal_both : forall s vr, Forall scalar s -> read_literal s = Some vr -> both vr.
Proof.
  induction s as [|c s IH]; intros vr S H; [discriminate H|]. inv_scalars. cbn [read_literal] in H.
  destruct (c =? 39); [injection H as <-; split; [constructor|assumption]|]. destruct (plain c); [|discriminate H].
  apply (push_both _ _ _ H); [assumption|]. auto.
Qed.

Lemma close_both : forall q r, scalar q -> Forall scalar r -> both (read_close q r).
Proof.
  intros q r Q S. unfold read_close. destruct r as [|a r]; [split; constructor|]. destruct (a =? q); [|split; [constructor|assumption]].
  inv_scalars. destruct r as [|b r]; [split; repeat first [assumption|apply Forall_cons|apply Forall_nil]|]. destruct (b =? q); inv_scalars; split; repeat first [assumption|apply Forall_cons|apply Forall_nil].
Qed.

Lemma ascii_quote : scalar 34 /\ scalar 39 /\ scalar 10.
Proof. repeat split; left; reflexivity. Qed.

Lemma lines_both : forall n s trim vr, (length s <= n)%nat -> Forall scalar s -> read_lines trim s = Some vr -> both vr.
Proof.
  destruct ascii_quote as (A34 & A39 & A10).
  induction n as [|n IH]; intros s trim vr L S H; (destruct s as [|c s]; [discriminate H|]; cbn [length] in L); [lia|].
  inv_scalars. cbn [read_lines] in H.
  destruct (trim && (blank c || (c =? 10))); [apply (IH s true vr); [lia|assumption|exact H]|].
  destruct (c =? 10); [apply (push_both _ _ _ H A10); intros y Y; apply (IH s false y); [lia|assumption|exact Y]|].
  destruct (c =? 13).
  { destruct s as [|d s]; [discriminate H|]. inv_scalars. cbn [length] in L. destruct (d =? 10); [|discriminate H]. destruct trim.
    - apply (IH s true vr); [lia|assumption|exact H].
    - apply (push_both _ _ _ H A10). intros y Y. apply (IH s false y); [lia|assumption|exact Y]. }
  destruct (c =? 34).
  { assert (D : (exists r2, Forall scalar r2 /\ vr = read_close 34 r2) \/ push 34 (read_lines false s) = Some vr).
    { destruct s as [|a [|b s2]]; [right; exact H|right; exact H|]. destruct ((a =? 34) && (b =? 34)); [|right; exact H].
      inv_scalars. left. exists s2. split; [assumption|congruence]. }
    destruct D as [(r2 & R & ->)|D]; [apply close_both; assumption|].
    apply (push_both _ _ _ D A34). intros y Y. apply (IH s false y); [lia|assumption|exact Y]. }
  destruct (c =? 92).
  { destruct (newline (skip_ws s)); [apply (IH s true vr); [lia|assumption|exact H]|].
    destruct s as [|e s]; [discriminate H|]. inv_scalars. cbn [length] in L. destruct (escape_letter e) eqn:E.
    - apply letter_scalar in E. apply (push_both _ _ _ H E). intros x X. apply (IH s false x); [lia|assumption|exact X].
    - destruct (e =? 117).
      + destruct s as [|a [|b [|x [|d s]]]]; try discriminate H. inv_scalars. cbn [length] in L. destruct (scalar_num [a; b; x; d]) eqn:Q; [|discriminate H].
        apply num_scalar in Q. apply (push_both _ _ _ H Q). intros y Y. apply (IH s false y); [lia|assumption|exact Y].
      + destruct (e =? 85); [|discriminate H].
        destruct s as [|a [|b [|x [|d [|a' [|b' [|x' [|d' s]]]]]]]]; try discriminate H. inv_scalars. cbn [length] in L.
        destruct (scalar_num [a; b; x; d; a'; b'; x'; d']) eqn:Q; [|discriminate H].
        apply num_scalar in Q. apply (push_both _ _ _ H Q). intros y Y. apply (IH s false y); [lia|assumption|exact Y]. }
  destruct (unescaped c); [|discriminate H]. apply (push_both _ _ _ H); [assumption|]. intros y Y. apply (IH s false y); [lia|assumption|exact Y].
Qed.

Lemma literal_lines_both : forall n s vr, (length s <= n)%nat -> Forall scalar s -> read_literal_lines s = Some vr -> both vr.
Proof.
  destruct ascii_quote as (A34 & A39 & A10).
  induction n as [|n IH]; intros s vr L S H; (destruct s as [|c s]; [discriminate H|]; cbn [length] in L); [lia|].
  inv_scalars. cbn [read_literal_lines] in H.
  destruct (c =? 10); [apply (push_both _ _ _ H A10); intros y Y; apply (IH s y); [lia|assumption|exact Y]|].
  destruct (c =? 13).
  { destruct s as [|d s]; [discriminate H|]. inv_scalars. cbn [length] in L. destruct (d =? 10); [|discriminate H].
    apply (push_both _ _ _ H A10). intros y Y. apply (IH s y); [lia|assumption|exact Y]. }
  destruct (c =? 39).
  { assert (D : (exists r2, Forall scalar r2 /\ vr = read_close 39 r2) \/ push 39 (read_literal_lines s) = Some vr).
    { destruct s as [|a [|b s2]]; [right; exact H|right; exact H|]. destruct ((a =? 39) && (b =? 39)); [|right; exact H].
      inv_scalars. left. exists s2. split; [assumption|congruence]. }
    destruct D as [(r2 & R & ->)|D]; [apply close_both; assumption|].
    apply (push_both _ _ _ D A39). intros y Y. apply (IH s y); [lia|assumption|exact Y]. }
  destruct (plain c); [|discriminate H]. apply (push_both _ _ _ H); [assumption|]. intros y Y. apply (IH s y); [lia|assumption|exact Y].
Qed.

Lemma newline_scalars : forall s r, Forall scalar s -> newline s = Some r -> Forall scalar r.
Proof.
  intros [|c s] r S H; [discriminate H|]. inv_scalars. cbn [newline] in H. destruct (c =? 10); [congruence|].
  destruct (c =? 13); [|discriminate H]. destruct s as [|d s]; [discriminate H|]. inv_scalars. destruct (d =? 10); [congruence|discriminate H].
Qed.
Lemma drop_newline_scalars : forall s, Forall scalar s -> Forall scalar (drop_newline s).
Proof. intros s S. unfold drop_newline. destruct (newline s) eqn:E; [apply (newline_scalars _ _ S E)|exact S]. Qed.
Lemma skip_ws_scalars : forall s, Forall scalar s -> Forall scalar (skip_ws s).
Proof. induction s as [|c s IH]; intro S; [constructor|]. cbn [skip_ws]. destruct (blank c); [inv_scalars; auto|exact S]. Qed.
Lemma skip_blank_scalars : forall n s note, (length s <= n)%nat -> Forall scalar s -> Forall scalar (skip_blank note s).
Proof.
  induction n as [|n IH]; intros s note L S; (destruct s as [|c s]; [constructor|]; cbn [length] in L); [lia|]. cbn [skip_blank].
  destruct (note && plain c); [inv_scalars; apply IH; [lia|assumption]|].
  destruct (blank c || (c =? 10)); [inv_scalars; apply IH; [lia|assumption]|].
  destruct (c =? 13); [destruct s as [|d s]; [exact S|]; destruct (d =? 10); [|exact S]; inv_scalars; cbn [length] in L; apply IH; [lia|assumption]|].
  destruct ((c =? 35) && negb note); [inv_scalars; apply IH; [lia|assumption]|exact S].
Qed.
Lemma skip_note_scalars : forall s, Forall scalar s -> Forall scalar (skip_note s).
Proof. induction s as [|c s IH]; intro S; [constructor|]. cbn [skip_note]. destruct (plain c); [inv_scalars; auto|exact S]. Qed.
Lemma line_end_scalars : forall s r, Forall scalar s -> line_end s = Some r -> Forall scalar r.
Proof.
  intros s r S H. unfold line_end in H. cbv zeta in H. apply skip_ws_scalars in S. destruct (skip_ws s) as [|c t]; [injection H as <-; constructor|].
  destruct (c =? 35); [|apply (newline_scalars _ _ S H)].
  assert (T : Forall scalar (skip_note t)) by (apply skip_note_scalars; inv_scalars; assumption).
  destruct (skip_note t) as [|d u]; [injection H as <-; constructor|apply (newline_scalars _ _ T H)].
Qed.

Lemma triple_scalars : forall q s r, Forall scalar s -> starts_triple q s = Some r -> Forall scalar r.
Proof.
  intros q [|a [|b [|c s]]] r S H; try discriminate H. cbn [starts_triple] in H.
  destruct ((a =? q) && (b =? q) && (c =? q)); [|discriminate H]. injection H as <-. inv_scalars. assumption.
Qed.

Lemma string_both : forall s vr, Forall scalar s -> read_string s = Some vr -> both vr.
Proof.
  intros s vr S H. unfold read_string in H.
  destruct (starts_triple 34 s) as [r|] eqn:T1; [apply (lines_both _ _ _ _ (le_n _)) in H; [exact H|apply drop_newline_scalars, (triple_scalars _ _ _ S T1)]|].
  destruct (starts_triple 39 s) as [r|] eqn:T2; [apply (literal_lines_both _ _ _ (le_n _)) in H; [exact H|apply drop_newline_scalars, (triple_scalars _ _ _ S T2)]|].
  destruct s as [|c s]; [discriminate H|]. inv_scalars. destruct (c =? 34); [apply (basic_both _ _ _ (le_n _)) in H; assumption|].
  destruct (c =? 39); [apply literal_both in H; assumption|discriminate H].
Qed.

Lemma span_both : forall s, Forall scalar s -> both (span_bare s).
Proof.
  induction s as [|c s IH]; intro S; [split; constructor|]. cbn [span_bare]. inv_scalars. destruct (bare_char c).
  - destruct (span_bare s) as [k r]. destruct (IH ltac:(assumption)) as [A B]. cbn [fst snd] in *. split; [constructor|]; assumption.
  - split; [constructor|constructor; assumption].
Qed.

Lemma simple_key_both : forall s vr, Forall scalar s -> read_simple_key s = Some vr -> both vr.
Proof.
  intros [|c s] vr S H; [discriminate H|]. cbn [read_simple_key] in H. pose proof (span_both _ S) as SP. inv_scalars.
  destruct (c =? 34); [apply (basic_both _ _ _ (le_n _)) in H; assumption|]. destruct (c =? 39); [apply literal_both in H; assumption|].
  destruct (span_bare (c :: s)) as [[|a k] r]; [discriminate H|]. injection H as <-. exact SP.
Qed.

Lemma key_scalars : forall fuel s p r, Forall scalar s -> read_key fuel s = Some (p, r) -> Forall (Forall scalar) p /\ Forall scalar r.
Proof.
  induction fuel as [|fuel IH]; intros s p r S H; [discriminate H|]. cbn [read_key] in H.
  apply opt_some in H as ([k r1] & K & H). apply simple_key_both in K as [K1 K2]; [|exact S]. cbn [fst snd] in *.
  apply skip_ws_scalars in K2. destruct (skip_ws r1) as [|c r2]; [injection H as <- <-; repeat constructor; assumption|].
  destruct (c =? 46).
  - apply opt_some in H as ([ks r3] & K & H). injection H as <- <-. inv_scalars. apply IH in K as [A B]; [|apply skip_ws_scalars; assumption].
    split; [constructor|]; assumption.
  - injection H as <- <-. split; [repeat constructor|]; assumption.
Qed.

(** ** Tables *)
Lemma find_wf : forall k kvs i, wf_items kvs -> find_item k kvs = Some i -> wf_item i.
Proof.
  intros k kvs i [_ F]. induction F as [|[k' v] kvs [_ H] _ IH]; [discriminate|]. cbn [find_item].
  destruct (str_eqb k k'); [intro E; injection E as <-; exact H|exact IH].
Qed.
Lemma find_none_in : forall k kvs, find_item k kvs = None -> ~ In k (map fst kvs).
Proof.
  intros k kvs. induction kvs as [|[k' v] kvs IH]; [auto|]. cbn [find_item map fst In]. destruct (str_eqb k k') eqn:E; [discriminate|].
  intros H [->|X]; [rewrite str_eqb_refl in E; discriminate E|apply (IH H X)].
Qed.

Lemma wf_snoc : forall kvs k i, wf_items kvs -> ~ In k (map fst kvs) -> Forall scalar k -> wf_item i -> wf_items (kvs ++ [(k, i)]).
Proof.
  intros kvs k i [N F] NI K I. split.
  - rewrite map_app. cbn [map fst]. apply NoDup_Add with (a := k) (l := map fst kvs); [|split; assumption].
    rewrite <- (app_nil_r (map fst kvs)) at 1. apply Add_app.
  - apply Forall_app. split; [exact F|]. constructor; [split; assumption|constructor].
Qed.

Lemma set_keys : forall k i kvs, map fst (set_item k i kvs) = map fst kvs.
Proof. induction kvs as [|[k' v] kvs IH]; [reflexivity|]. cbn [set_item]. destruct (str_eqb k k'); cbn [map fst]; [reflexivity|rewrite IH; reflexivity]. Qed.
Lemma wf_set : forall k i kvs, wf_items kvs -> wf_item i -> wf_items (set_item k i kvs).
Proof.
  intros k i kvs [N F] I. split; [rewrite set_keys; exact N|]. clear N. induction F as [|[k' v] kvs [H1 H2] HF IH]; [constructor|].
  cbn [set_item]. destruct (str_eqb k k'); constructor; try split; assumption.
Qed.
Lemma drop_keys : forall k kvs x, In x (map fst (drop_item k kvs)) -> In x (map fst kvs).
Proof.
  induction kvs as [|[k' v] kvs IH]; [auto|]. intros x. cbn [drop_item]. destruct (str_eqb k k'); cbn [map fst In]; [auto|].
  intros [->|H]; auto.
Qed.
Lemma wf_drop : forall k kvs, wf_items kvs -> wf_items (drop_item k kvs) /\ ~ In k (map fst (drop_item k kvs)).
Proof.
  intros k kvs [N F]. induction F as [|[k' v] kvs H HF IH]; [repeat split; auto; constructor|].
  cbn [map fst] in N. inversion N; subst. destruct (IH ltac:(assumption)) as [[A B] C]. cbn [drop_item]. destruct (str_eqb k k') eqn:E.
  - apply str_eqb_eq in E. subst k'. repeat split; assumption.
  - split; [split|].
    + cbn [map fst]. constructor; [intro X; apply drop_keys in X; contradiction|exact A].
    + constructor; assumption.
    + cbn [map fst In]. intros [->|X]; [rewrite str_eqb_refl in E; discriminate E|contradiction].
Qed.

Lemma wf_nil : wf_items [].
Proof. split; constructor. Qed.

Lemma add_pair_wf : forall path j dotted kvs kvs', Forall (Forall scalar) path -> wf_json j -> wf_items kvs -> add_pair path j dotted kvs = Some kvs' -> wf_items kvs'.
Proof.
  induction path as [|k path IH]; intros j dotted kvs kvs' P J W H; [discriminate H|]. inversion P; subst. cbn [add_pair] in H.
  destruct path as [|k2 path].
  - destruct (find_item k kvs) eqn:E; [discriminate H|]. destruct dotted; [|discriminate H]. injection H as <-.
    apply wf_snoc; [exact W|apply find_none_in; exact E|assumption|constructor; exact J].
  - destruct (find_item k kvs) as [[x|i d sub]|] eqn:E; [discriminate H| |].
    + destruct i; [|discriminate H]. apply opt_some in H as (s & A & H). injection H as <-.
      apply (find_wf _ _ _ W) in E. inversion E; subst. apply (IH j d sub s) in A; [|assumption|exact J|split; assumption].
      apply wf_set; [exact W|]. destruct A. constructor; assumption.
    + apply opt_some in H as (s & A & H). injection H as <-. apply (IH j true [] s) in A; [|assumption|exact J|apply wf_nil].
      apply wf_snoc; [exact W|apply find_none_in; exact E|assumption|]. destruct A. constructor; assumption.
Qed.

Lemma add_pairs_wf : forall ps kvs kvs', Forall (fun p => Forall (Forall scalar) (fst p) /\ wf_json (snd p)) ps -> wf_items kvs ->
  add_pairs ps kvs = Some kvs' -> wf_items kvs'.
Proof.
  induction ps as [|[p j] ps IH]; intros kvs kvs' F W H; [injection H as <-; exact W|]. inversion F as [|? ? [A B] C]; subst. cbn [fst snd] in *.
  cbn [add_pairs] in H. apply opt_some in H as (m & H1 & H2). apply (IH m kvs' C); [|exact H2]. apply (add_pair_wf p j true kvs m A B W H1).
Qed.

Lemma add_section_wf : forall path body kvs kvs', Forall (Forall scalar) path ->
  (forall a b, wf_items a -> body a = Some b -> wf_items b) -> wf_items kvs -> add_section path body kvs = Some kvs' -> wf_items kvs'.
Proof.
  induction path as [|k path IH]; intros body kvs kvs' P B W H; [discriminate H|]. inversion P; subst. cbn [add_section] in H.
  destruct path as [|k2 path].
  - destruct (find_item k kvs) as [[x|i d sub]|] eqn:E; [discriminate H| |].
    + destruct i; [|discriminate H]. destruct d; [discriminate H|]. apply opt_some in H as (s & A & H). injection H as <-.
      apply (find_wf _ _ _ W) in E. inversion E; subst. apply B in A; [|split; assumption]. destruct (wf_drop k kvs W) as [D1 D2].
      apply wf_snoc; [exact D1|exact D2|assumption|]. destruct A. constructor; assumption.
    + apply opt_some in H as (s & A & H). injection H as <-. apply B in A; [|apply wf_nil].
      apply wf_snoc; [exact W|apply find_none_in; exact E|assumption|]. destruct A. constructor; assumption.
  - destruct (find_item k kvs) as [[x|i d sub]|] eqn:E; [discriminate H| |].
    + apply opt_some in H as (s & A & H). injection H as <-. apply (find_wf _ _ _ W) in E. inversion E; subst.
      apply (IH body sub s) in A; [|assumption|exact B|split; assumption]. apply wf_set; [exact W|]. destruct A. constructor; assumption.
    + apply opt_some in H as (s & A & H). injection H as <-. apply (IH body [] s) in A; [|assumption|exact B|apply wf_nil].
      apply wf_snoc; [exact W|apply find_none_in; exact E|assumption|]. destruct A. constructor; assumption.
Qed.

Lemma item_ind' : forall P : item -> Prop, (forall j, P (Value j)) ->
  (forall i d kvs, Forall (fun kv => P (snd kv)) kvs -> P (Table i d kvs)) -> forall i, P i.
Proof.
  intros P HV HT. fix F 1. intros [j|i d kvs]; [apply HV|]. apply HT. induction kvs as [|kv kvs IH]; constructor; [apply F|exact IH].
Qed.

Lemma item_json_wf : forall i, wf_item i -> wf_json (item_json i).
Proof.
  induction i as [j|i d kvs IH] using item_ind'; intro W; [inversion W; assumption|]. inversion W as [|? ? ? WN WF]; subst. cbn [item_json]. constructor.
  - rewrite map_map. cbn [fst]. assumption.
  - apply Forall_forall. intros x I. apply in_map_iff in I as (kv & <- & I). cbn [fst snd].
    rewrite Forall_forall in IH, WF. destruct (WF kv I) as [A B]. split; [exact A|apply (IH kv I B)].
Qed.

(** ** Values and documents *)
Lemma word_scalars : forall w s r, Forall scalar s -> read_word w s = Some r -> Forall scalar r.
Proof.
  intros w s r S H. unfold read_word in H. destruct (str_eqb (firstn (length w) s) w); [|discriminate H]. injection H as <-.
  rewrite <- (firstn_skipn (length w) s) in S. apply Forall_app in S. apply S.
Qed.

Definition wf_pairs (ps : list (list str * json)) : Prop := Forall (fun p => Forall (Forall scalar) (fst p) /\ wf_json (snd p)) ps.

Lemma skip_scalars : forall s note, Forall scalar s -> Forall scalar (skip_blank note s).
Proof. intros s note. apply (skip_blank_scalars (length s)). apply le_n. Qed.

Lemma read_wf : forall fuel,
  (forall s j r, Forall scalar s -> read_value fuel s = Some (j, r) -> wf_json j /\ Forall scalar r) /\
  (forall s l r, Forall scalar s -> read_array fuel s = Some (l, r) -> Forall wf_json l /\ Forall scalar r) /\
  (forall s ps r, Forall scalar s -> read_inline fuel s = Some (ps, r) -> wf_pairs ps /\ Forall scalar r).
Proof.
  induction fuel as [|fuel (IV & IA & II)]; [repeat split; discriminate|]. split; [|split].
  - intros s j r S H. cbn [read_value] in H. destruct s as [|c s]; [discriminate H|]. assert (S0 : Forall scalar s) by (inversion S; assumption).
    destruct ((c =? 34) || (c =? 39)).
    { apply opt_some in H as ([v r'] & A & H). injection H as <- <-. apply string_both in A as [A B]; [|exact S]. split; [constructor|]; assumption. }
    destruct (c =? 91).
    { apply opt_some in H as ([v r'] & A & H). injection H as <- <-. apply IA in A as [A B]; [|assumption]. split; [constructor|]; assumption. }
    destruct (c =? 123).
    { assert (W : Forall scalar (skip_ws s)) by (apply skip_ws_scalars; assumption). destruct (skip_ws s) as [|d r']; [discriminate H|].
      destruct (d =? 125); [injection H as <- <-; inv_scalars; split; [constructor; constructor|assumption]|].
      apply opt_some in H as ([ps r2] & A & H). apply opt_some in H as (kvs & K & H). injection H as <- <-.
      apply II in A as [A B]; [|assumption]. split; [|exact B]. apply (add_pairs_wf ps [] kvs A wf_nil) in K. destruct K.
      change (JObj (map (fun kv => (fst kv, item_json (snd kv))) kvs)) with (item_json (Table true true kvs)). apply item_json_wf. constructor; assumption. }
    destruct (read_word (lit "true") (c :: s)) as [r'|] eqn:E1.
    { injection H as <- <-. split; [constructor|]. apply (word_scalars _ _ _ S E1). }
    destruct (read_word (lit "false") (c :: s)) as [r'|] eqn:E2; [|discriminate H].
    injection H as <- <-. split; [constructor|]. apply (word_scalars _ _ _ S E2).
  - intros s l r S H. cbn [read_array] in H. apply (skip_scalars s false) in S. destruct (skip_blank false s) as [|c t]; [discriminate H|].
    destruct (c =? 93); [injection H as <- <-; inv_scalars; split; [constructor|assumption]|].
    apply opt_some in H as ([v r1] & A & H). apply IV in A as [A B]; [|exact S]. apply (skip_scalars r1 false) in B.
    destruct (skip_blank false r1) as [|d r2]; [discriminate H|]. inv_scalars. destruct (d =? 44).
    + apply opt_some in H as ([vs r3] & C & H). injection H as <- <-. apply IA in C as [C D]; [|assumption]. split; [constructor|]; assumption.
    + destruct (d =? 93); [|discriminate H]. injection H as <- <-. split; [repeat constructor|]; assumption.
  - intros s ps r S H. cbn [read_inline] in H. apply opt_some in H as ([k r1] & A & H). apply key_scalars in A as [A B]; [|assumption].
    destruct r1 as [|c r1]; [discriminate H|]. inv_scalars. destruct (c =? 61); [|discriminate H].
    apply opt_some in H as ([v r2] & C & H). apply IV in C as [C D]; [|apply skip_ws_scalars; assumption]. apply skip_ws_scalars in D.
    destruct (skip_ws r2) as [|d r3]; [discriminate H|]. inv_scalars. destruct (d =? 44).
    + apply opt_some in H as ([ps' r4] & E & H). injection H as <- <-. apply II in E as [E F]; [|apply skip_ws_scalars; assumption].
      split; [constructor; [split; assumption|exact E]|exact F].
    + destruct (d =? 125); [|discriminate H]. injection H as <- <-. split; [constructor; [split; assumption|constructor]|assumption].
Qed.

Definition wf_line (l : line) : Prop :=
  match l with Pair k j => Forall (Forall scalar) k /\ wf_json j | Header p => Forall (Forall scalar) p end.

Lemma document_wf : forall fuel s ls, Forall scalar s -> read_document fuel s = Some ls -> Forall wf_line ls.
Proof.
  induction fuel as [|fuel IH]; intros s ls S H; [discriminate H|]. cbn [read_document] in H. apply (skip_scalars s false) in S.
  destruct (skip_blank false s) as [|c t]; [injection H as <-; constructor|]. destruct (c =? 91).
  - apply opt_some in H as ([p r1] & A & H). inv_scalars. apply key_scalars in A as [A B]; [|apply skip_ws_scalars; assumption].
    destruct r1 as [|d r2]; [discriminate H|]. inv_scalars. destruct (d =? 93); [|discriminate H].
    apply opt_some in H as (r3 & C & H). apply opt_some in H as (l & D & H). injection H as <-.
    apply line_end_scalars in C; [|assumption]. apply IH in D; [|exact C]. constructor; assumption.
  - apply opt_some in H as ([k r1] & A & H). apply key_scalars in A as [A B]; [|assumption].
    destruct r1 as [|d r2]; [discriminate H|]. inv_scalars. destruct (d =? 61); [|discriminate H].
    apply opt_some in H as ([v r3] & E & H). apply opt_some in H as (r4 & C & H). apply opt_some in H as (l & D & H). injection H as <-.
    apply (proj1 (read_wf fuel)) in E as [E F]; [|apply skip_ws_scalars; assumption].
    apply line_end_scalars in C; [|assumption]. apply IH in D; [|exact C]. constructor; [split|]; assumption.
Qed.

Lemma group_wf : forall ls, Forall wf_line ls -> wf_pairs (fst (group ls)) /\
  Forall (fun s => Forall (Forall scalar) (fst s) /\ wf_pairs (snd s)) (snd (group ls)).
Proof.
  induction 1 as [|l ls W _ IH]; [split; constructor|]. destruct l as [k j|p]; cbn [group]; destruct (group ls) as [ps ss]; cbn [fst snd] in *.
  - split; [constructor; [exact W|apply IH]|apply IH].
  - split; [constructor|]. constructor; [split; [exact W|apply IH]|apply IH].
Qed.

Lemma add_sections_wf : forall ss kvs kvs', Forall (fun s => Forall (Forall scalar) (fst s) /\ wf_pairs (snd s)) ss -> wf_items kvs ->
  add_sections ss kvs = Some kvs' -> wf_items kvs'.
Proof.
  induction ss as [|[p ps] ss IH]; intros kvs kvs' F W H; [injection H as <-; exact W|]. inversion F as [|? ? [A B] C]; subst. cbn [fst snd] in *.
  cbn [add_sections] in H. apply opt_some in H as (m & H1 & H2). apply (IH m kvs' C); [|exact H2].
  apply (add_section_wf p (add_pairs ps) kvs m A); [|exact W|exact H1]. intros a b Wa E. apply (add_pairs_wf ps a b B Wa E).
Qed.

Theorem parse_wf : forall s j, Forall scalar s -> toml_parse s = Ok j -> wf_json j.
Proof.
  intros s j S H. unfold toml_parse in H. destruct (read_document (Datatypes.S (length s)) s) as [ls|] eqn:R; [|discriminate H].
  apply document_wf in R; [|exact S]. apply group_wf in R as [G1 G2]. cbn [opt_bind] in H. destruct (group ls) as [ps ss]. cbn [fst snd] in *.
  destruct (add_pairs ps []) as [kvs|] eqn:A; [|discriminate H]. cbn [opt_bind] in H.
  destruct (add_sections ss kvs) as [kvs'|] eqn:B; [|discriminate H]. cbn [opt_bind] in H. injection H as <-.
  apply (add_pairs_wf ps [] kvs G1 wf_nil) in A. apply (add_sections_wf ss kvs kvs' G2 A) in B. destruct B as [B1 B2].
  change (JObj (map (fun kv => (fst kv, item_json (snd kv))) kvs')) with (item_json (Table false false kvs')). apply item_json_wf. constructor; assumption.
Qed.

(** ** The configuration *)
Lemma once_in : forall name fs j, field_once name fs = Ok (Some j) -> In (name, j) fs.
Proof.
  intros name fs. induction fs as [|[k v] fs IH]; intros j H; [discriminate H|]. cbn [field_once] in H. apply bind_ok in H as (o & H1 & H2).
  destruct (str_eqb k name) eqn:E.
  - apply str_eqb_eq in E. subst k. destruct o; [discriminate H2|]. injection H2 as <-. left. reflexivity.
  - injection H2 as ->. right. apply IH. exact H1.
Qed.

Definition wf_field (o : option json) : Prop := match o with Some j => wf_json j | None => True end.
Lemma table_wf : forall names j fs, wf_json j -> de_table names j = Ok fs -> Forall wf_field fs.
Proof.
  intros names j fs W H. unfold de_table, de_struct in H. destruct j as [|b|z|t|s|l|kvs]; try discriminate H.
  - destruct (Nat.leb (length names) (length l)); [|discriminate H]. injection H as <-. inversion W as [| |? WL|]; subst.
    apply Forall_forall. intros o I. apply in_map_iff in I as (x & <- & I). cbn [wf_field]. rewrite Forall_forall in WL. apply WL.
    rewrite <- (firstn_skipn (length names) l). apply in_or_app. left. exact I.
  - inversion W as [| | |? WN WF]; subst. apply Forall_forall. intros [x|] I; [|exact Logic.I]. cbn [wf_field].
    destruct (mapM_in _ _ _ _ _ _ H I) as (n & _ & F). apply once_in in F. rewrite Forall_forall in WF. apply (WF _ F).
Qed.

Lemma str_wf : forall o s, wf_field o -> field de_str o = Ok s -> Forall scalar s.
Proof. intros [j|] s W H; [|discriminate H]. cbn [field wf_field] in *. destruct j; try discriminate H. injection H as <-. inversion W. assumption. Qed.
Lemma strs_wf : forall o l, wf_field o -> field (de_vec de_str) o = Ok l -> Forall (Forall scalar) l.
Proof.
  intros [j|] l W H; [|discriminate H]. cbn [field wf_field] in *. destruct j as [| | | | |js|]; try discriminate H. cbn [de_vec] in H.
  inversion W as [| |? WL|]; subst. apply Forall_forall. intros s I. destruct (mapM_in _ _ _ _ _ _ H I) as (j & J & E).
  rewrite Forall_forall in WL. apply (str_wf (Some j) s); [apply (WL j J)|exact E].
Qed.

Lemma schema_wf : forall j s, wf_json j -> de_schema j = Ok s -> schema_scalar s.
Proof.
  intros j s W H. destruct j as [| | | | | |kvs]; try discriminate H. apply schema_exact in H as (_ & _ & _ & A & B & C & _).
  inversion W as [| | |? _ WF]; subst. rewrite Forall_forall in WF.
  pose proof (proj2 (WF _ A)) as WA. pose proof (proj2 (WF _ B)) as WB. pose proof (proj2 (WF _ C)) as WC. cbn [snd] in *.
  inversion WA. inversion WB. inversion WC. repeat split; assumption.
Qed.

Lemma mapM_fst : forall (g : json -> res schema) (kvs : list (str * json)) ps,
  mapM (fun kv => let! s := g (snd kv) in Ok (fst kv, s)) kvs = Ok ps -> map fst ps = map fst kvs.
Proof.
  induction kvs as [|[k v] kvs IH]; intros ps H; [injection H as <-; reflexivity|]. cbn [mapM] in H.
  apply bind_ok in H as (x & X & H). apply bind_ok in H as (y & Y & H). injection H as <-.
  apply bind_ok in X as (s & _ & X). injection X as <-. cbn [map fst]. rewrite (IH y Y). reflexivity.
Qed.

Theorem config_wf : forall j c, wf_json j -> de_config j = Ok c -> config_storable c.
Proof.
  intros j c W H. unfold de_config in H. apply bind_ok in H as (fs & T & H). apply (table_wf _ _ _ W) in T.
  destruct fs as [|a [|b [|? ?]]]; try discriminate H. inversion T as [|? ? WA T2]; subst. inversion T2 as [|? ? WB _]; subst.
  apply bind_ok in H as (d & D & H). apply bind_ok in H as (ps & P & H). injection H as <-. unfold config_storable. cbn [c_document c_plugins].
  destruct a as [ja|]; [|discriminate D]. cbn [field wf_field] in D, WA. unfold de_document in D. apply bind_ok in D as (fs & TD & D).
  apply (table_wf _ _ _ WA) in TD. destruct fs as [|f1 [|f2 [|f3 [|f4 [|? ?]]]]]; try discriminate D.
  repeat match goal with H : Forall wf_field (_ :: _) |- _ => inversion H; clear H; subst end.
  apply bind_ok in D as (n & D1 & D). apply bind_ok in D as (v & D2 & D). apply bind_ok in D as (be & D3 & D). apply bind_ok in D as (au & D4 & D).
  injection D as <-. cbn [d_name d_version d_backend d_authors].
  split; [apply (str_wf f1); assumption|]. split; [apply (str_wf f2); assumption|]. split; [apply (str_wf f3); assumption|].
  split; [apply (strs_wf f4); assumption|].
  destruct b as [jb|]; [|injection P as <-; exact I]. apply bind_ok in P as (l & L & P). injection P as <-. cbn [wf_field] in WB.
  unfold de_plugins in L. destruct jb as [| | | | | |kvs]; try discriminate L. inversion WB as [| | |? WN WF]; subst.
  split; [rewrite (mapM_fst _ _ _ L); exact WN|]. apply Forall_forall. intros [k s] IN.
  destruct (mapM_in _ _ _ _ _ _ L IN) as ([k' v'] & I1 & E). apply bind_ok in E as (s' & E1 & E2). injection E2 as <- <-. cbn [fst snd] in *.
  rewrite Forall_forall in WF. destruct (WF _ I1) as [A B]. split; [exact A|apply (schema_wf v'); assumption].
Qed.

Theorem loaded_storable : forall f c, snd (load_brack_toml toml_crate f) = Ok c -> config_storable c.
Proof.
  intros f c H. unfold load_brack_toml, ibind, read_to_string, done in H. destruct (file f brack_toml) as [b|]; [|discriminate H].
  destruct (from_utf8 b) as [s|] eqn:U; [|discriminate H]. apply from_utf8_inv in U as [U _]. cbn [ok_or snd] in H.
  destruct (toml_read toml_crate s) as [j| | |] eqn:R; try discriminate H. cbn [bind] in H.
  apply (config_wf j c); [apply (parse_wf s j U R)|]. cbn in H. destruct (de_config j); exact H.
Qed.
