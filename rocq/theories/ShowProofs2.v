(** The printed JSON is read back (C83), and what all of it says about the output of `compile`. *)
From Coq Require Import String List NArith ZArith Arith Bool Lia.
From Verif Require Import Base Tokens Graphemes Tokenizer CST AST Parser TransformError Transform Utf8 Framing Json Serde Project Cli Show
  SpecTok SpecFraming SpecJson SpecLsp SpecSerde FramingProofs FramingProofs2 JsonProofs JsonTotal CacheProofs
  ParserProofs2 TransformIds Boundaries HeightProofs SerdeProofs TokenizerProofs ExchangeProofs ShowProofs.
Import ListNotations.

(** * One line *)
Lemma escape_no_lf : forall c, ~ In 10%N (escape_char c).
Proof.
  assert (D : forall d, hex_digit d <> 10%N) by (intro d; unfold hex_digit; destruct (d <? 10)%N; lia).
  intro c. unfold escape_char.
  repeat match goal with |- ~ In _ (if ?b then _ else _) => destruct b eqn:? end; try (apply absent; reflexivity).
  - intros [I|[I|[I|[I|[I|[I|[]]]]]]]; try discriminate I; exact (D _ I).
  - intros [I|[]]. subst c. discriminate.
Qed.
Lemma print_str_no_lf : forall s, ~ In 10%N (print_str s).
Proof.
  intros s I. unfold print_str in I. destruct I as [I|I]; [discriminate|]. apply in_app_or in I as [I|[I|[]]]; [|discriminate].
  apply in_concat in I as (x & Ix & I). apply in_map_iff in Ix as (c & <- & _). exact (escape_no_lf c I).
Qed.
Lemma comma_no_lf : forall l : list str, Forall (fun s => ~ In 10%N s) l -> ~ In 10%N (intercalate [44%N] l).
Proof.
  induction 1 as [|s l H F IH]; [intros []|]. destruct l as [|s2 l]; [exact H|].
  change (intercalate [44%N] (s :: s2 :: l)) with (s ++ [44%N] ++ intercalate [44%N] (s2 :: l)).
  intro I. apply in_app_or in I as [I|I]; [exact (H I)|]. apply in_app_or in I as [[I|[]]|I]; [discriminate|exact (IH I)].
Qed.
Lemma print_no_lf : forall j, plain j -> ~ In 10%N (print j).
Proof.
  induction j using json_ind'; intro P; cbn [print].
  - apply absent. reflexivity.
  - destruct b; apply absent; reflexivity.
  - assert (D : forall n, ~ In 10%N (dec n)) by (intro n; apply (decimal_ascii _ _ (dec_decimal n))).
    destruct z; cbn [print_int]; try apply D. intros [I|I]; [discriminate|exact (D _ I)].
  - destruct P.
  - apply print_str_no_lf.
  - cbn [plain] in P. apply fold_Forall in P. intros [I|I]; [discriminate|]. apply in_app_or in I as [I|[I|[]]]; [|discriminate].
    revert I. apply comma_no_lf. apply Forall_map. rewrite Forall_forall in *. auto.
  - intros [I|I]; [discriminate|]. apply in_app_or in I as [I|[I|[]]]; [|discriminate]. revert I. apply comma_no_lf. apply Forall_map.
    cbn [plain] in P. revert P. induction H as [|[k x] l E F IH]; intro P; [constructor|]. destruct P as [Px P]. constructor; [|apply IH; exact P].
    intro I. apply in_app_or in I as [I|I]; [exact (print_str_no_lf _ I)|]. destruct I as [I|I]; [discriminate|]. exact (E Px I).
Qed.

(** * Tokens *)
Definition token_fine (t : token) : Prop := loc_words (tl t) /\ Forall scalar (tok_src (tk t)).

Lemma de_ser_token : forall t, token_fine t -> de_token (ser_token t) = Ok t.
Proof.
  intros [k l] [L _]. cbn [tk tl] in *. unfold de_token, ser_token. cbn [tk tl].
  destruct k; cbn [token_text token_name variant de_enum bind]; cbn -[de_loc ser_loc]; rewrite (de_ser_loc l L); reflexivity.
Qed.

Lemma scalar_src : forall t s, token_fine t -> token_text (tk t) = Some s -> Forall scalar s.
Proof. intros [k l] s [_ F] E. cbn [tk] in *. destruct k; cbn in *; try discriminate; injection E as <-; exact F. Qed.

Lemma token_plain : forall t, token_fine t -> plain (ser_token t) /\ texts (ser_token t).
Proof.
  intros t T. destruct (loc_plain (tl t) (proj1 T)) as [P X]. unfold ser_token.
  assert (N : Forall scalar (token_name (tk t))) by (destruct (tk t); apply ascii_scalar; reflexivity).
  destruct (token_text (tk t)) as [s|] eqn:E; cbn [variant plain texts fold_right]; auto.
  pose proof (scalar_src t s T E). repeat (split; auto).
Qed.

Lemma token_nesting : forall t, nesting (ser_token t) <= 4.
Proof. intro t. unfold ser_token. destruct (token_text (tk t)); cbn; lia. Qed.

Lemma tokens_read : forall ts, Forall token_fine ts ->
  plain (JArr (map ser_token ts)) /\ of_text (de_vec de_token) (to_text (JArr (map ser_token ts))) = Ok ts.
Proof.
  intros ts F.
  assert (A : Forall (fun x => plain x /\ texts x) (map ser_token ts)).
  { apply Forall_map. eapply Forall_impl; [|exact F]. apply token_plain. }
  apply Forall_and_inv in A as [A1 A2]. split; [apply fold_Forall; exact A1|].
  rewrite of_to_text; [|apply fold_Forall; assumption..].
  replace (nesting (JArr (map ser_token ts)) <? 128) with true.
  - cbn [de_vec]. apply mapM_ok. eapply Forall_impl; [|exact F]. apply de_ser_token.
  - symmetry. apply Nat.ltb_lt. rewrite nesting_arr, map_map.
    assert (list_max (map (fun t => nesting (ser_token t)) ts) <= 4); [|lia].
    apply list_max_le. apply Forall_map. apply Forall_forall. intros t _. apply token_nesting.
Qed.

Lemma tokens_fine : forall seg, seg_laws seg -> forall s ts, Forall scalar s -> word (length s) ->
  tokenize_str seg s = Ok ts -> Forall token_fine ts.
Proof.
  intros seg L s ts Sc W H. apply Forall_forall. intros t It. destruct (token_bounds seg L s ts H t It) as (B1 & B2 & B3 & B4).
  unfold word in W. split; [unfold loc_words, word; repeat split; lia|].
  destruct (tokenize_lossless seg L s ts H) as (rest & E & _).
  apply Forall_forall. intros x Ix. rewrite Forall_forall in Sc. apply Sc. rewrite E. apply in_or_app. left.
  eapply source_in; eassumption.
Qed.

(** * CST *)
Notation cfine := (cok (fun p => word (pline p) /\ word (pchar p)) (Forall scalar)).

Fixpoint sers (ids : list nat -> str) (n : nat) (cs : list cst) : list json :=
  match cs with [] => [] | x :: cs' => ser_cst (fun p => ids (n :: p)) x :: sers ids (S n) cs' end.
Lemma ser_inner : forall ids k cs l, ser_cst ids (CInner k cs l)
  = variant (cinner_name k) (jobj [("id", JStr (ids [])); ("children", JArr (sers ids 0 cs)); ("location", ser_loc l)]%string).
Proof.
  intros ids k cs l. cbn [ser_cst]. do 3 f_equal. f_equal. f_equal. f_equal. generalize 0.
  induction cs as [|c cs IH]; intro n; [reflexivity|]. cbn [sers]. f_equal. apply IH.
Qed.

Lemma cinner_of_name : forall k, cinner_of (cinner_name k) = Some k.
Proof. destruct k; reflexivity. Qed.
Lemma cleaf_of_name : forall k, cleaf_of (cleaf_name k) = Some k /\ cinner_of (cleaf_name k) = None.
Proof. destruct k; split; reflexivity. Qed.

Lemma de_ser_cst_go : forall c, cfine c -> forall ids fuel, tall c <= fuel -> de_cst_go fuel (ser_cst ids c) = Ok c.
Proof.
  induction c as [k v l|k cs l IH] using cst_ind'; intros S ids fuel H; (destruct fuel as [|fuel]; [cbn in H; lia|]).
  - inversion S as [? ? ? [[] []] _|]; subst. destruct (cleaf_of_name k) as [E1 E2].
    cbn [de_cst_go ser_cst variant de_enum bind]. rewrite E1, E2. cbn -[de_loc ser_loc de_option ser_option].
    rewrite de_ser_option. cbn [bind]. rewrite (de_ser_loc l) by (unfold loc_words; auto). reflexivity.
  - inversion S as [|? ? ? F [[] []]]; subst. rewrite ser_inner. cbn [de_cst_go variant de_enum bind]. rewrite cinner_of_name.
    cbn -[de_loc ser_loc de_cst_go sers].
    assert (M : forall n, mapM (de_cst_go fuel) (sers ids n cs) = Ok cs).
    { cbn [tall] in H. apply le_S_n in H. clear S. revert H. induction cs as [|c cs IHc]; intros H n; [reflexivity|].
      inversion IH as [|? ? Hc IH']; inversion F as [|? ? Fc F']; subst. cbn [map] in H. rewrite list_max_cons in H.
      cbn [sers mapM]. rewrite (Hc Fc) by lia. cbn [bind]. rewrite IHc by (assumption || lia). reflexivity. }
    rewrite M. cbn [bind]. rewrite (de_ser_loc l) by (unfold loc_words; auto). reflexivity.
Qed.

Lemma nesting_ser_cst : forall c ids, nesting (ser_cst ids c) = 3 * tall c + 1.
Proof.
  induction c as [k v l|k cs l IH] using cst_ind'; intro ids.
  - cbn [ser_cst variant]. destruct v; reflexivity.
  - rewrite ser_inner.
    change (nesting (variant (cinner_name k) (jobj [("id", JStr (ids [])); ("children", JArr (sers ids 0 cs)); ("location", ser_loc l)]%string)))
      with (S (Nat.max (S (Nat.max 0 (Nat.max (nesting (JArr (sers ids 0 cs))) (Nat.max 2 0)))) 0)).
    rewrite nesting_arr.
    assert (M : forall n, list_max (map nesting (sers ids n cs)) = match cs with [] => 0 | _ => 3 * list_max (map tall cs) + 1 end).
    { induction IH as [|c cs Hc F IHc]; intro n; [reflexivity|]. cbn [sers map]. rewrite !list_max_cons, Hc, IHc.
      destruct cs as [|y cs]; [cbn; lia|]. lia. }
    rewrite M. cbn [tall]. destruct cs as [|x cs]; [reflexivity|]. lia.
Qed.

Lemma cst_plain : forall c, cfine c -> forall ids, (forall p, Forall scalar (ids p)) -> plain (ser_cst ids c) /\ texts (ser_cst ids c).
Proof.
  induction c as [k v l|k cs l IH] using cst_ind'; intros S ids U.
  - inversion S as [? ? ? L V|]; subst.
    destruct (loc_plain l) as [L1 L2]; [destruct L as [[] []]; unfold loc_words; auto|].
    cbn [ser_cst variant jobj map plain texts fold_right fst snd].
    assert (P : plain (ser_option v) /\ texts (ser_option v)) by (destruct v; cbn; auto). destruct P as [P1 P2].
    split; [tauto|]. split; [destruct k; apply ascii_scalar; reflexivity|].
    repeat (split; auto); apply ascii_scalar; reflexivity.
  - inversion S as [|? ? ? F L]; subst.
    destruct (loc_plain l) as [L1 L2]; [destruct L as [[] []]; unfold loc_words; auto|].
    assert (A : forall n, Forall (fun x => plain x /\ texts x) (sers ids n cs)).
    { clear S. induction cs as [|c cs IHc]; intro n; [constructor|]. inversion IH; inversion F; subst. cbn [sers]. constructor; [|auto].
      match goal with X : _ -> forall ids, _ |- _ => apply X; [assumption|] end. intro p. apply U. }
    specialize (A 0). apply Forall_and_inv in A as [A1 A2]. rewrite ser_inner.
    assert (B1 : plain (JArr (sers ids 0 cs))) by (apply fold_Forall; exact A1).
    assert (B2 : texts (JArr (sers ids 0 cs))) by (apply fold_Forall; exact A2).
    remember (JArr (sers ids 0 cs)) as j.
    cbn [variant jobj map plain texts fold_right fst snd].
    split; [tauto|]. split; [destruct k; apply ascii_scalar; reflexivity|].
    repeat (split; auto); apply ascii_scalar; reflexivity.
Qed.

Lemma parse_fine : forall seg, seg_laws seg -> forall s ts c, Forall scalar s -> word (length s) ->
  tokenize_str seg s = Ok ts -> parse ts = Ok c -> cfine c.
Proof.
  intros seg L s ts c Sc W H P. eapply parse_ok; [split; reflexivity| |exact P|].
  - intros k s0 E. destruct k; cbn in E; try discriminate; injection E as <-; apply ascii_scalar; reflexivity.
  - eapply Forall_impl; [|exact (tokens_fine seg L s ts Sc W H)]. intros t [(A & B & C & D) X].
    split; [repeat split; assumption|]. destruct (tk t); exact X || exact I.
Qed.

(** * What `compile` prints *)
Section Levels.
  Variables (shown : N -> bool) (ids : list nat -> str).

  Theorem json_tokens : forall seg, seg_laws seg -> forall s ts, Forall scalar s -> word (length s) -> tokenize_str seg s = Ok ts ->
    exists line, printed_text shown ids (PTokens true ts) = line ++ [10%N] /\ ~ In 10%N line /\ of_text (de_vec de_token) (utf8 line) = Ok ts.
  Proof.
    intros seg L s ts Sc W H. destruct (tokens_read ts (tokens_fine seg L s ts Sc W H)) as [P R].
    eexists. split; [reflexivity|]. split; [apply print_no_lf; exact P|exact R].
  Qed.

  Theorem json_cst : forall seg, seg_laws seg -> forall s ts c, Forall scalar s -> word (length s) -> (forall p, Forall scalar (ids p)) ->
    tokenize_str seg s = Ok ts -> parse ts = Ok c ->
    exists line, printed_text shown ids (PCst true c) = line ++ [10%N] /\ ~ In 10%N line /\
      of_text de_cst (utf8 line) = if tall c <=? 42 then Ok c else Err (lit "recursion limit exceeded").
  Proof.
    intros seg L s ts c Sc W U H P. pose proof (parse_fine seg L s ts c Sc W H P) as F. destruct (cst_plain c F ids U) as [P1 P2].
    eexists. split; [reflexivity|]. split; [apply print_no_lf; exact P1|].
    change (utf8 (print (ser_cst ids c))) with (to_text (ser_cst ids c)). rewrite (of_to_text de_cst _ P1 P2), nesting_ser_cst.
    assert (D : de_cst (ser_cst ids c) = Ok c).
    { unfold de_cst. apply de_ser_cst_go; [exact F|]. rewrite jdepth_nesting, nesting_ser_cst. lia. }
    rewrite D. destruct (tall c <=? 42) eqn:E; [apply Nat.leb_le in E|apply Nat.leb_gt in E].
    - replace (3 * tall c + 1 <? 128) with true by (symmetry; apply Nat.ltb_lt; lia). reflexivity.
    - replace (3 * tall c + 1 <? 128) with false by (symmetry; apply Nat.ltb_ge; lia). reflexivity.
  Qed.

  Theorem json_ast : forall a, storable a ->
    exists line, printed_text shown ids (PAst true a) = line ++ [10%N] /\ ~ In 10%N line /\
      of_text de_ast (utf8 line) = if height a <=? 42 then Ok a else Err (lit "recursion limit exceeded").
  Proof.
    intros a S. eexists. split; [reflexivity|]. split; [apply print_no_lf; apply ast_plain; exact S|exact (read_ast a S)].
  Qed.
End Levels.

Lemma inner_inj : forall (a b : str), println a = println b -> a = b.
Proof. unfold println. intros a b H. apply app_inj_tail in H as [H _]. exact H. Qed.

(** The texts of [{:?}] *)
Theorem plain_inj : forall shown ids ids' p q,
  match p, q with
  | PTokens false _, PTokens false _ | PCst false _, PCst false _ => True
  | (PAst false _ | PErrors (_ :: _)), (PAst false _ | PErrors (_ :: _)) => True
  | _, _ => False
  end ->
  printed_text shown ids p = printed_text shown ids' q -> p = q.
Proof.
  assert (Mixed : forall shown a e es, println (debug_ast shown a) = concat (map (fun e => println (debug_error e)) (e :: es)) -> False).
  { intros shown a [k l] es H. cbn [map concat] in H. unfold println, debug_error in H. cbn [fst snd] in H. rewrite <- !app_assoc in H.
    destruct a as [k' i cs l'|k' i v l']; cbn [debug_ast] in H; unfold debug_inner, debug_leaf in H; rewrite <- !app_assoc in H.
    - apply name_inj in H as [H _]; [destruct k', k; discriminate H|apply absent; destruct k'; reflexivity|apply error_name_good].
    - apply name_inj in H as [H _]; [destruct k', k; discriminate H|apply absent; destruct k'; reflexivity|apply error_name_good]. }
  intros shown ids ids' [[] ts|[] c|[] a|[|e es]|s] [[] ts'|[] c'|[] a'|[|e' es']|s'] []; cbn [printed_text]; intro H.
  - f_equal. exact (lines_inj (debug_token shown) (token_inj shown) ts ts' H).
  - f_equal. apply inner_inj in H. exact (cst_inj shown c c' ids ids' H).
  - f_equal. apply inner_inj in H. exact (ast_inj shown a a' H).
  - exfalso. exact (Mixed shown a e' es' H).
  - exfalso. symmetry in H. exact (Mixed shown a' e es H).
  - f_equal. exact (lines_inj debug_error error_inj (e :: es) (e' :: es') H).
Qed.

(** One line for each of them *)
Lemma count_absent : forall s : str, ~ In 10%N s -> count_occ N.eq_dec s 10%N = 0.
Proof. intros s H. apply count_occ_not_In. exact H. Qed.
Lemma lines_count : forall {A} (f : A -> str) l, (forall a, ~ In 10%N (f a)) ->
  count_occ N.eq_dec (concat (map (fun a => println (f a)) l)) 10%N = length l.
Proof.
  intros A f l F. induction l as [|a l IH]; [reflexivity|]. cbn [map concat length]. unfold println in *.
  rewrite !count_occ_app, IH, (count_absent _ (F a)). reflexivity.
Qed.
Theorem plain_lines : forall shown ids,
  (forall ts, count_occ N.eq_dec (printed_text shown ids (PTokens false ts)) 10%N = length ts) /\
  (forall es, count_occ N.eq_dec (printed_text shown ids (PErrors es)) 10%N = length es).
Proof.
  intros shown ids. split.
  - intro ts. cbn [printed_text]. apply (lines_count (debug_token shown)). apply token_no_lf.
  - intro es. cbn [printed_text]. apply (lines_count debug_error). apply error_no_lf.
Qed.
