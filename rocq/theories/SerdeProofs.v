(** The texts exchanged with plugins carry the values. *)
From Coq Require Import String List NArith ZArith Bool Lia Arith.
From Verif Require Import Base Tokens AST Plugin Utf8 Framing Json SpecJson JsonProofs JsonTotal SpecLsp Serde SpecSerde TransformIds.
Import ListNotations.

Lemma jdepth_nesting : forall j, jdepth j = nesting j.
Proof.
  induction j using json_ind'; try reflexivity; cbn [jdepth nesting]; f_equal.
  - induction H as [|x l E F IH]; [reflexivity|]. unfold list_max in *. cbn [map fold_right]. rewrite E, IH. reflexivity.
  - induction H as [|[k x] l E F IH]; [reflexivity|]. unfold list_max in *. cbn [map fold_right snd] in *. rewrite E, IH. reflexivity.
Qed.

Lemma mapM_ok : forall {A B} (f : A -> res B) (g : B -> A) l, Forall (fun y => f (g y) = Ok y) l -> mapM f (map g l) = Ok l.
Proof. intros A B f g l F. induction F as [|x l E F IH]; [reflexivity|]. cbn [map mapM]. rewrite E. cbn [bind]. rewrite IH. reflexivity. Qed.

(** * Values come back *)

Lemma de_ser_usize : forall n, word n -> de_usize (ser_usize n) = Ok n.
Proof.
  intros n H. unfold word in H. unfold de_usize, ser_usize.
  replace ((0 <=? Z.of_nat n)%Z && (Z.of_nat n <? 2 ^ 64)%Z) with true by
    (symmetry; apply andb_true_iff; split; [apply Z.leb_le|apply Z.ltb_lt]; lia).
  rewrite Nat2Z.id. reflexivity.
Qed.

Lemma de_ser_loc : forall l, loc_words l -> de_loc (ser_loc l) = Ok l.
Proof.
  intros [[a b] [c d]] (A & B & C & D). cbn [lstart lend pline pchar] in *.
  unfold de_loc, ser_loc. cbn -[ser_usize de_usize].
  rewrite (de_ser_usize a A). cbn -[ser_usize de_usize]. rewrite (de_ser_usize b B). cbn -[ser_usize de_usize].
  rewrite (de_ser_usize c C). cbn -[ser_usize de_usize]. rewrite (de_ser_usize d D). reflexivity.
Qed.

Lemma inner_of_name : forall k, inner_of (inner_name k) = Some k.
Proof. destruct k; reflexivity. Qed.
Lemma leaf_of_name : forall k, leaf_of (leaf_name k) = Some k /\ inner_of (leaf_name k) = None.
Proof. destruct k; split; reflexivity. Qed.

Lemma de_ser_option : forall o, de_option (ser_option o) = Ok o.
Proof. destruct o; reflexivity. Qed.

Lemma list_max_in : forall l n, In n l -> n <= list_max l.
Proof. intros l n I. pose proof (proj1 (list_max_le l (list_max l)) (le_n _)) as F. rewrite Forall_forall in F. auto. Qed.

Lemma de_ser_ast_go : forall a, storable a -> forall fuel, height a <= fuel -> de_ast_go fuel (ser_ast a) = Ok a.
Proof.
  induction a as [k i v l|k i cs l IH] using ast_ind'; intros S fuel H; (destruct fuel as [|fuel]; [cbn in H; lia|]).
  - destruct S as (_ & L & _). destruct (leaf_of_name k) as [E1 E2].
    cbn [de_ast_go ser_ast variant de_enum bind]. rewrite E1, E2. cbn -[de_loc ser_loc de_option ser_option].
    rewrite de_ser_option. cbn [bind]. rewrite (de_ser_loc l L). reflexivity.
  - destruct S as (_ & L & C). cbn [de_ast_go ser_ast variant de_enum bind]. rewrite inner_of_name.
    cbn -[de_loc ser_loc de_ast_go]. rewrite mapM_ok.
    + cbn [bind]. rewrite (de_ser_loc l L). reflexivity.
    + cbn [height] in H. apply le_S_n in H. rewrite Forall_forall in *. intros x I. apply IH; [exact I| |].
      * clear -C I. induction cs as [|y cs IHc]; [destruct I|]. destruct C as [Y C]. destruct I as [<-|I]; auto.
      * pose proof (list_max_in (map height cs) (height x) (in_map height cs x I)). lia.
Qed.

Lemma nesting_ser_loc : forall l, nesting (ser_loc l) = 2.
Proof. reflexivity. Qed.

Lemma nesting_arr : forall l, nesting (JArr l) = S (list_max (map nesting l)).
Proof. intro l. cbn [nesting]. f_equal. induction l as [|x l IH]; [reflexivity|]. unfold list_max in *. cbn [map fold_right]. rewrite IH. reflexivity. Qed.

Lemma list_max_map : forall {A} (f g : A -> nat) l, Forall (fun x => f x = 3 * g x + 1) l ->
  list_max (map f l) = match l with [] => 0 | _ => 3 * list_max (map g l) + 1 end.
Proof.
  intros A f g l F. induction F as [|x l E F IH]; [reflexivity|]. unfold list_max in *. cbn [map fold_right]. rewrite IH, E. destruct l as [|y l]; [cbn; lia|]. lia.
Qed.

Lemma nesting_ser_ast : forall a, nesting (ser_ast a) = 3 * height a + 1.
Proof.
  induction a as [k i v l|k i cs l IH] using ast_ind'.
  - cbn [ser_ast variant]. destruct v; reflexivity.
  - change (nesting (ser_ast (AInner k i cs l)))
      with (S (Nat.max (S (Nat.max 0 (Nat.max (nesting (JArr (map ser_ast cs))) (Nat.max 2 0)))) 0)).
    rewrite nesting_arr, map_map, (list_max_map (fun x => nesting (ser_ast x)) height) by exact IH.
    cbn [height]. destruct cs as [|x cs]; [reflexivity|]. lia.
Qed.

Theorem de_ser_ast : forall a, storable a -> de_ast (ser_ast a) = Ok a.
Proof.
  intros a S. unfold de_ast. apply de_ser_ast_go; [exact S|]. rewrite jdepth_nesting, nesting_ser_ast. lia.
Qed.

Lemma de_ser_value : forall v, de_value (ser_value v) = Ok v.
Proof.
  intros [s|l|o]; try reflexivity.
  - unfold de_value, ser_value. cbn -[mapM lit str_eqb]. rewrite mapM_ok; [reflexivity|]. apply Forall_forall. reflexivity.
  - destruct o; reflexivity.
Qed.

Lemma de_ser_type : forall t, de_type (ser_type t) = Ok t.
Proof.
  induction t; try reflexivity; cbn [ser_type variant de_type].
  - change (str_eqb (lit "TOption") (lit "TOption")) with true. cbv iota. rewrite IHt. reflexivity.
  - change (str_eqb (lit "TArray") (lit "TOption")) with false. change (str_eqb (lit "TArray") (lit "TArray")) with true.
    cbv iota. rewrite IHt. reflexivity.
Qed.

Lemma de_ser_metadata : forall m, de_metadata (ser_metadata m) = Ok m.
Proof.
  intros [n c args r]. unfold de_metadata, ser_metadata. cbn -[mapM de_type ser_type lit].
  unfold de_struct. cbn -[de_type ser_type de_argument].
  rewrite mapM_ok.
  - cbn [bind]. rewrite de_ser_type. reflexivity.
  - apply Forall_forall. intros [a t] _. cbn -[de_type ser_type]. rewrite de_ser_type. reflexivity.
Qed.

(** * Texts come back *)

Lemma fold_Forall : forall {A} (P : A -> Prop) l, fold_right (fun x p => P x /\ p) True l <-> Forall P l.
Proof.
  intros A P l. induction l as [|x l IH]; cbn [fold_right]; [split; auto|]. rewrite IH. split; [intros [H F]; auto|intro F; inversion F; auto].
Qed.

Lemma word_int : forall n, word n -> plain (ser_usize n).
Proof. intros n W. unfold word in W. cbn [plain ser_usize]. lia. Qed.

Lemma ascii_scalar : forall s, forallb (fun c => N.ltb c 128) s = true -> Forall scalar s.
Proof.
  intros s H. apply Forall_forall. intros c I. rewrite forallb_forall in H. apply H in I. apply N.ltb_lt in I.
  unfold scalar. lia.
Qed.

Lemma loc_plain : forall l, loc_words l -> plain (ser_loc l) /\ texts (ser_loc l).
Proof.
  intros [[a b] [c d]] (A & B & C & D). cbn [lstart lend pline pchar] in *. apply word_int in A, B, C, D.
  split.
  - cbn [ser_loc ser_pos jobj map plain fold_right fst snd lstart lend pline pchar]. auto.
  - cbn [ser_loc ser_pos jobj map texts fold_right fst snd lstart lend pline pchar ser_usize].
    repeat split; apply ascii_scalar; reflexivity.
Qed.

Lemma ast_plain : forall a, storable a -> plain (ser_ast a) /\ texts (ser_ast a).
Proof.
  induction a as [k i v l|k i cs l IH] using ast_ind'; intro S.
  - destruct S as (I & L & V). destruct (loc_plain l L) as [L1 L2].
    cbn [ser_ast variant jobj map plain texts fold_right fst snd].
    assert (P : plain (ser_option v) /\ texts (ser_option v)) by (destruct v; cbn; auto). destruct P as [P1 P2].
    split; [tauto|]. split; [destruct k; apply ascii_scalar; reflexivity|].
    repeat (split; auto); apply ascii_scalar; reflexivity.
  - destruct S as (I & L & C). destruct (loc_plain l L) as [L1 L2]. apply fold_Forall in C.
    assert (A : Forall (fun x => plain x /\ texts x) (map ser_ast cs)).
    { apply Forall_map. rewrite Forall_forall in *. auto. }
    apply Forall_and_inv in A as [A1 A2].
    assert (B1 : plain (JArr (map ser_ast cs))) by (apply fold_Forall; exact A1).
    assert (B2 : texts (JArr (map ser_ast cs))) by (apply fold_Forall; exact A2).
    remember (JArr (map ser_ast cs)) as j.
    change (ser_ast (AInner k i cs l)) with (variant (inner_name k)
      (jobj [("id"%string, JStr i); ("children"%string, JArr (map ser_ast cs)); ("location"%string, ser_loc l)])). rewrite <- Heqj.
    cbn [variant jobj map plain texts fold_right fst snd].
    split; [tauto|]. split; [destruct k; apply ascii_scalar; reflexivity|].
    repeat (split; auto); apply ascii_scalar; reflexivity.
Qed.

Lemma of_to_text : forall {A} (f : json -> res A) j, plain j -> texts j ->
  of_text f (to_text j) = if nesting j <? 128 then f j else Err (lit "recursion limit exceeded").
Proof.
  intros A f j P T. unfold of_text, to_text. rewrite from_utf8_utf8 by (apply print_scalar; exact T).
  rewrite from_str_print by exact P. destruct (nesting j <? 128); reflexivity.
Qed.

(** A plugin's answer to a macro call *)
Theorem read_ast : forall a, storable a ->
  of_text de_ast (to_text (ser_ast a)) = if height a <=? 42 then Ok a else Err (lit "recursion limit exceeded").
Proof.
  intros a S. destruct (ast_plain a S) as [P T]. rewrite (of_to_text de_ast _ P T), nesting_ser_ast, (de_ser_ast a S).
  destruct (height a <=? 42) eqn:E; [apply Nat.leb_le in E|apply Nat.leb_gt in E].
  - replace (3 * height a + 1 <? 128) with true by (symmetry; apply Nat.ltb_lt; lia). reflexivity.
  - replace (3 * height a + 1 <? 128) with false by (symmetry; apply Nat.ltb_ge; lia). reflexivity.
Qed.

Theorem read_macro : forall a id, storable a -> Forall scalar id ->
  of_text de_macro (to_text (ser_input (IMacro a id)))
  = if height a <=? 41 then Ok (a, id) else Err (lit "recursion limit exceeded").
Proof.
  intros a id S I. destruct (ast_plain a S) as [P T]. cbn [ser_input].
  assert (N : nesting (JArr [ser_ast a; JStr id]) = 3 * height a + 2).
  { rewrite nesting_arr. cbn [map list_max fold_right]. rewrite nesting_ser_ast. cbn [nesting]. lia. }
  rewrite of_to_text, N.
  - unfold de_macro. rewrite (de_ser_ast a S). cbn [bind de_str].
    destruct (height a <=? 41) eqn:E; [apply Nat.leb_le in E|apply Nat.leb_gt in E].
    + replace (3 * height a + 2 <? 128) with true by (symmetry; apply Nat.ltb_lt; lia). reflexivity.
    + replace (3 * height a + 2 <? 128) with false by (symmetry; apply Nat.ltb_ge; lia). reflexivity.
  - cbn [plain fold_right]. auto.
  - cbn [texts fold_right]. auto.
Qed.

(** Arguments of commands always arrive. *)
Theorem read_values : forall vs, Forall storable_value vs ->
  of_text (de_vec de_value) (to_text (ser_input (IValues vs))) = Ok vs.
Proof.
  intros vs F. cbn [ser_input].
  assert (V : forall v, storable_value v -> plain (ser_value v) /\ texts (ser_value v) /\ nesting (ser_value v) <= 2).
  { intros [s|l|o] S; cbn [ser_value variant].
    - cbn -[lit]. repeat split; auto. apply ascii_scalar. reflexivity.
    - cbn [storable_value] in S.
      assert (A1 : plain (JArr (map JStr l))) by (apply fold_Forall, Forall_map, Forall_forall; intros; exact I).
      assert (A2 : texts (JArr (map JStr l))) by (apply fold_Forall, Forall_map; exact S).
      assert (A3 : nesting (JArr (map JStr l)) <= 1).
      { rewrite nesting_arr, map_map. cbn [nesting]. clear. induction l as [|x l IH]; [cbn; lia|]. cbn [map list_max fold_right] in *. exact IH. }
      remember (JArr (map JStr l)) as j. unfold variant; cbn [plain texts nesting fold_right]. repeat split; auto; try (apply ascii_scalar; reflexivity); try lia.
    - destruct o; cbn -[lit] in *; repeat split; auto; apply ascii_scalar; reflexivity. }
  assert (N : nesting (JArr (map ser_value vs)) <= 3).
  { rewrite nesting_arr, map_map. apply le_n_S. apply list_max_le. apply Forall_map. rewrite Forall_forall in *. intros v I. apply V. auto. }
  rewrite of_to_text.
  - replace (nesting (JArr (map ser_value vs)) <? 128) with true by (symmetry; apply Nat.ltb_lt; lia).
    cbn [de_vec]. apply mapM_ok. apply Forall_forall. intros v _. apply de_ser_value.
  - apply fold_Forall, Forall_map. rewrite Forall_forall in *. intros v I. apply V. auto.
  - apply fold_Forall, Forall_map. rewrite Forall_forall in *. intros v I. apply V. auto.
Qed.

Lemma nesting_ser_type : forall t, nesting (ser_type t) = type_height t.
Proof. induction t; cbn [ser_type type_height]; try reflexivity; unfold variant; cbn [nesting fold_right]; rewrite IHt; lia. Qed.

Lemma type_plain : forall t, storable_type t -> plain (ser_type t) /\ texts (ser_type t).
Proof.
  induction t; cbn [storable_type ser_type variant]; intro S; try (split; [exact I|]; apply ascii_scalar; reflexivity).
  - destruct (IHt S). cbn [plain texts fold_right]. repeat split; auto. apply ascii_scalar. reflexivity.
  - destruct (IHt S). cbn [plain texts fold_right]. repeat split; auto. apply ascii_scalar. reflexivity.
  - cbn [plain texts fold_right]. repeat split; auto. apply ascii_scalar. reflexivity.
  - cbn [plain texts fold_right]. repeat split; auto. apply ascii_scalar. reflexivity.
Qed.

(** The metadata a plugin announces *)
Theorem read_metadata_ok : forall ms, Forall storable_metadata ms ->
  Forall (fun m => type_height (return_type m) <= 125 /\ Forall (fun a => type_height (snd a) <= 123) (argument_types m)) ms ->
  read_metadata (to_text (JArr (map ser_metadata ms))) = Ok ms.
Proof.
  intros ms F B.
  assert (V : forall m, storable_metadata m -> type_height (return_type m) <= 125 ->
    Forall (fun a => type_height (snd a) <= 123) (argument_types m) ->
    plain (ser_metadata m) /\ texts (ser_metadata m) /\ nesting (ser_metadata m) <= 126).
  { intros m (S1 & S2 & S3 & S4) H1 H2. destruct (type_plain _ S3) as [T1 T2].
    assert (A : Forall (fun j => plain j /\ texts j /\ nesting j <= 124)
      (map (fun a => JArr [JStr (fst a); ser_type (snd a)]) (argument_types m))).
    { apply Forall_map. rewrite Forall_forall in *. intros a I. destruct (S4 a I) as [X1 X2]. destruct (type_plain _ X2) as [Y1 Y2].
      cbn [plain texts nesting fold_right]. rewrite nesting_ser_type. specialize (H2 a I). repeat split; auto. lia. }
    remember (map (fun a => JArr [JStr (fst a); ser_type (snd a)]) (argument_types m)) as l.
    assert (A1 : plain (JArr l)) by (apply fold_Forall; eapply Forall_impl; [|exact A]; intros ? (? & ? & ?); auto).
    assert (A2 : texts (JArr l)) by (apply fold_Forall; eapply Forall_impl; [|exact A]; intros ? (? & ? & ?); auto).
    assert (A3 : nesting (JArr l) <= 125).
    { rewrite nesting_arr. apply le_n_S, list_max_le, Forall_map. eapply Forall_impl; [|exact A]. intros ? (? & ? & ?); auto. }
    unfold ser_metadata. rewrite <- Heql. remember (JArr l) as j.
    cbn [jobj map fst snd plain texts nesting fold_right]. rewrite nesting_ser_type.
    repeat split; auto; try (apply ascii_scalar; reflexivity). lia. }
  assert (W : Forall (fun m => plain (ser_metadata m) /\ texts (ser_metadata m) /\ nesting (ser_metadata m) <= 126) ms).
  { rewrite Forall_forall in *. intros m I. destruct (B m I) as [B1 B2]. apply V; auto. }
  unfold read_metadata. rewrite of_to_text.
  - replace (nesting (JArr (map ser_metadata ms)) <? 128) with true.
    + cbn [de_vec]. apply mapM_ok. apply Forall_forall. intros m _. apply de_ser_metadata.
    + symmetry. apply Nat.ltb_lt. rewrite nesting_arr, map_map.
      assert (list_max (map (fun x => nesting (ser_metadata x)) ms) <= 126); [|lia].
      apply list_max_le, Forall_map. eapply Forall_impl; [|exact W]. intros ? (? & ? & ?). auto.
  - apply fold_Forall, Forall_map. eapply Forall_impl; [|exact W]. intros ? (? & ? & ?). auto.
  - apply fold_Forall, Forall_map. eapply Forall_impl; [|exact W]. intros ? (? & ? & ?). auto.
Qed.
