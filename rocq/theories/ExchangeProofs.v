(** The documents that plugins can be given. *)
From Coq Require Import String List NArith ZArith Arith Bool Lia Permutation.
From Verif Require Import Base Tokens Graphemes Tokenizer CST AST Parser TransformError Transform Plugin Utf8 Json Framing Serde
  SpecTok SpecCST SpecTransform SpecSerde TokenizerProofs PropsTokenizer SemTokProofs TransformProofs TransformIds Boundaries
  ParserProofs PropsParser PropsTransformer LspProofs LspProofs2 LspProofs3 HeightProofs SerdeProofs JsonTotal
  UAX29 ParserWitness TransformWitness Expander Compile GenWitness.
Import ListNotations.

Lemma token_bounds : forall seg, seg_laws seg -> forall s ts, tokenize_str seg s = Ok ts ->
  forall t, In t ts -> pline (lstart (tl t)) <= length s /\ pline (lend (tl t)) <= length s
     /\ pchar (lstart (tl t)) <= length s /\ pchar (lend (tl t)) <= length s.
Proof.
  intros seg L s ts H t I. destruct (tokenize_lossless seg L s ts H) as (rest & E & _).
  pose proof (C04_ranges_tile seg L s ts H) as Ti.
  destruct (tiled_bounds (fun v => length (seg v)) (clusters_le seg L) ts 0 0 t Ti I) as (B1 & B2 & B3).
  assert (Same : pline (lend (tl t)) = pline (lstart (tl t))).
  { clear - Ti I. revert Ti I. generalize 0 at 1. generalize 0. induction ts as [|t0 ts IH]; intros c l Ti I; [destruct I|].
    cbn [tiled] in Ti. destruct Ti as [T0 Ti]. destruct I as [<-|I]; [rewrite T0; reflexivity|].
    destruct (tk t0); eapply IH; eassumption. }
  rewrite E, app_length. lia.
Qed.

Lemma source_in : forall ts t x, In t ts -> In x (tok_src (tk t)) -> In x (source ts).
Proof.
  intros ts t x I J. unfold source. apply in_concat. exists (tok_src (tk t)). split; [|exact J].
  apply in_map_iff. exists t. auto.
Qed.

Lemma aok_storable : forall a, aok (fun p => word (pline p) /\ word (pchar p)) (Forall scalar) a ->
  Forall (Forall scalar) (ids a) -> storable a.
Proof.
  induction a as [k i v l|k i cs l IH] using ast_ind'; intros A I.
  - inversion A as [? ? ? ? L V|]; subst. cbn [ids] in I. inversion I; subst.
    destruct L as [[] []]. cbn [storable]. unfold loc_words. repeat split; assumption.
  - inversion A as [|? ? ? ? F L]; subst. rewrite ids_inner in I.
    assert (X : Forall (Forall scalar) (flat_map ids cs) /\ Forall scalar i).
    { split.
      - apply Forall_forall. intros x Hx. rewrite Forall_forall in I. apply I. first [right; exact Hx | apply in_or_app; auto].
      - rewrite Forall_forall in I. apply I. first [left; reflexivity | apply in_or_app; right; left; reflexivity]. }
    destruct X as [X1 X2]. destruct L as [[] []]. cbn [storable]. unfold loc_words. repeat split; try assumption.
    apply fold_Forall. rewrite Forall_forall in IH, F |- *. intros x Ix. apply IH; [exact Ix|apply F; exact Ix|].
    apply Forall_forall. intros y Iy. rewrite Forall_forall in X1. apply X1. apply in_flat_map. eauto.
Qed.

Theorem document_storable : forall seg, seg_laws seg -> forall uuid s ts c a es,
  Forall scalar s -> word (length s) -> (forall n, Forall scalar (uuid n)) ->
  tokenize_str seg s = Ok ts -> parse ts = Ok c -> transform uuid c = Ok (a, es) -> storable a.
Proof.
  intros seg L uuid s ts c a es Sc W U H P T. apply aok_storable.
  - eapply (transform_ok (fun p => word (pline p) /\ word (pchar p))) with (ts := ts); try eassumption.
    + split; reflexivity.
    + intros k s0 E. destruct k; cbn in E; try discriminate; injection E as <-; apply ascii_scalar; reflexivity.
    + apply Forall_forall. intros t It. destruct (token_bounds seg L s ts H t It) as (B1 & B2 & B3 & B4).
      unfold word in W. split; [unfold lok, word; repeat split; lia|].
      destruct (tokenize_lossless seg L s ts H) as (rest & E & _).
      assert (X : Forall scalar (tok_src (tk t))).
      { apply Forall_forall. intros x Ix. rewrite Forall_forall in Sc. apply Sc. rewrite E. apply in_or_app. left.
        eapply source_in; eassumption. }
      destruct (tk t); exact X || exact Logic.I.
  - unfold transform in T. apply bind_ok in T as ([c' es'] & S & T). apply bind_ok in T as ([a' n] & A & T). injection T as <- _.
    apply aux_ids in A as [_ A]. eapply Permutation_Forall; [symmetry; exact A|].
    apply Forall_forall. intros x Ix. apply in_map_iff in Ix as (m & <- & _). apply U.
Qed.

(** ** Macros *)
Theorem macro_gets_document : forall seg, seg_laws seg -> forall uuid s ts c a es,
  Forall scalar s -> word (length s) -> (forall n, Forall scalar (uuid n)) ->
  tokenize_str seg s = Ok ts -> parse ts = Ok c -> transform uuid c = Ok (a, es) ->
  deepest 0 (map tk ts) <= 18 -> forall id, Forall scalar id ->
  of_text de_macro (to_text (ser_input (IMacro a id))) = Ok (a, id).
Proof.
  intros seg L uuid s ts c a es Sc W U H P T D id I.
  rewrite (read_macro a id (document_storable seg L uuid s ts c a es Sc W U H P T) I).
  pose proof (transform_height uuid ts c a es P T). replace (height a <=? 41) with true; [reflexivity|].
  symmetry. apply Nat.leb_le. lia.
Qed.

Theorem macro_exchange : forall f h p fn a id, storable a -> Forall scalar id -> height a <= 41 ->
  storable (f a id) -> height (f a id) <= 42 ->
  world_of (macro_plugin f) h (mkEvent p fn (IMacro a id)) = RAst (f a id).
Proof.
  intros f h p fn a id S I H S' H'. unfold world_of, macro_plugin, event_text. cbn [snd ev_input read_reply].
  rewrite (read_macro a id S I). replace (height a <=? 41) with true by (symmetry; apply Nat.leb_le; exact H).
  unfold read_reply. rewrite (read_ast _ S'). replace (height (f a id) <=? 42) with true by (symmetry; apply Nat.leb_le; exact H').
  reflexivity.
Qed.

(** What is read from any bytes is an AST or an error. *)
Definition answered {A} (r : res A) : Prop := (exists x, r = Ok x) \/ exists e, r = Err e.

Lemma answered_bind : forall A B (m : res A) (k : A -> res B), answered m -> (forall x, m = Ok x -> answered (k x)) -> answered (bind m k).
Proof. intros A B m k [[x ->]|[e ->]] K; cbn [bind]; [apply K; reflexivity|right; eauto]. Qed.
Lemma answered_ok : forall A (x : A), answered (Ok x).
Proof. left. eauto. Qed.
Lemma answered_err : forall A e, answered (@Err A e).
Proof. right. eauto. Qed.

Lemma mapM_answered : forall A B (f : A -> res B) l, (forall x, In x l -> answered (f x)) -> answered (mapM f l).
Proof.
  intros A B f l. induction l as [|x l IH]; intro H; cbn [mapM]; [apply answered_ok|].
  apply answered_bind; [apply H; left; reflexivity|]. intros y _. apply answered_bind; [apply IH; intros z Iz; apply H; right; exact Iz|].
  intros ys _. apply answered_ok.
Qed.

Lemma field_once_answered : forall n fs, answered (field_once n fs).
Proof.
  intros n fs. induction fs as [|[k v] fs IH]; cbn [field_once]; [apply answered_ok|].
  apply answered_bind; [exact IH|]. intros o _. destruct (str_eqb k n); [destruct o|]; apply answered_ok || apply answered_err.
Qed.

Lemma struct_answered : forall ns j, answered (de_struct ns j).
Proof.
  intros ns j. unfold de_struct. destruct j; try apply answered_err.
  - destruct (Nat.eqb _ _); apply answered_ok || apply answered_err.
  - apply mapM_answered. intros x _. apply field_once_answered.
Qed.

Lemma field_answered : forall A (f : json -> res A) o, (forall j, o = Some j -> answered (f j)) -> answered (field f o).
Proof. intros A f [j|] H; cbn [field]; [apply H; reflexivity|apply answered_err]. Qed.

Lemma str_answered : forall j, answered (de_str j).
Proof. intros []; apply answered_ok || apply answered_err. Qed.
Lemma usize_answered : forall j, answered (de_usize j).
Proof. intros []; cbn [de_usize]; try (destruct (_ && _)%bool); apply answered_ok || apply answered_err. Qed.
Lemma pos_answered : forall j, answered (de_pos j).
Proof.
  intro j. unfold de_pos. apply answered_bind; [apply struct_answered|]. intros [|a [|b [|? ?]]] _; try apply answered_err.
  apply answered_bind; [apply field_answered; intros; apply usize_answered|]. intros x _.
  apply answered_bind; [apply field_answered; intros; apply usize_answered|]. intros y _. apply answered_ok.
Qed.
Lemma loc_answered : forall j, answered (de_loc j).
Proof.
  intro j. unfold de_loc. apply answered_bind; [apply struct_answered|]. intros [|a [|b [|? ?]]] _; try apply answered_err.
  apply answered_bind; [apply field_answered; intros; apply pos_answered|]. intros x _.
  apply answered_bind; [apply field_answered; intros; apply pos_answered|]. intros y _. apply answered_ok.
Qed.
Lemma optional_answered : forall o, answered (optional o).
Proof. intros [[]|]; cbn; apply answered_ok || apply answered_err. Qed.
Lemma enum_answered : forall j, answered (de_enum j).
Proof. intros [| | | | | |[|[k v] [|? ?]]]; apply answered_ok || apply answered_err. Qed.

Lemma jdepth_arr : forall x l, In x l -> jdepth x < jdepth (JArr l).
Proof.
  intros x l I. cbn [jdepth]. apply Nat.lt_succ_r. pose proof (proj1 (list_max_le (map jdepth l) _) (le_n _)) as F.
  rewrite Forall_forall in F. apply F, in_map, I.
Qed.
Lemma jdepth_obj : forall k x l, In (k, x) l -> jdepth x < jdepth (JObj l).
Proof.
  intros k x l I. cbn [jdepth]. apply Nat.lt_succ_r. set (ds := map _ l).
  pose proof (proj1 (list_max_le ds _) (le_n _)) as F. rewrite Forall_forall in F. apply F.
  unfold ds. apply in_map_iff. exists (k, x). auto.
Qed.
Lemma field_once_in : forall n fs v, field_once n fs = Ok (Some v) -> In (n, v) fs.
Proof.
  intros n fs. induction fs as [|[k x] fs IH]; intros v H; cbn [field_once] in H; [discriminate|].
  apply bind_ok in H as (o & E & H). destruct (str_eqb k n) eqn:K.
  - destruct o; [discriminate|]. injection H as <-. apply str_eqb_eq in K. subst k. left. reflexivity.
  - injection H as ->. right. apply IH. exact E.
Qed.
Lemma mapM_in : forall A B (f : A -> res B) l ys y, mapM f l = Ok ys -> In y ys -> exists x, In x l /\ f x = Ok y.
Proof.
  intros A B f l. induction l as [|x l IH]; intros ys y H I; cbn [mapM] in H.
  - injection H as <-. destruct I.
  - apply bind_ok in H as (z & E & H). apply bind_ok in H as (zs & E' & H). injection H as <-.
    destruct I as [<-|I]; [exists x; split; [left; reflexivity|exact E]|].
    destruct (IH _ _ E' I) as (x' & I' & E''). exists x'. split; [right; exact I'|exact E''].
Qed.
Lemma struct_depth : forall ns j fs v, de_struct ns j = Ok fs -> In (Some v) fs -> jdepth v < jdepth j.
Proof.
  intros ns j fs v H I. unfold de_struct in H. destruct j; try discriminate.
  - destruct (Nat.eqb _ _); [|discriminate]. injection H as <-. apply in_map_iff in I as (x & E & I). injection E as ->.
    apply jdepth_arr. exact I.
  - destruct (mapM_in _ _ _ _ _ _ H I) as (n & _ & E). apply field_once_in in E. eapply jdepth_obj. exact E.
Qed.

Lemma ast_go_answered : forall fuel j, jdepth j < fuel -> answered (de_ast_go fuel j).
Proof.
  induction fuel as [|fuel IH]; intros j H; [lia|]. cbn [de_ast_go].
  apply answered_bind; [apply enum_answered|]. intros [name content] E.
  assert (C : forall x, content = Some x -> jdepth x < jdepth j).
  { intros x ->. destruct j as [| | | | | |[|[k v] [|? ?]]]; try discriminate. cbn in E. injection E as -> ->.
    eapply jdepth_obj. left. reflexivity. }
  destruct (inner_of name) as [k|].
  - apply answered_bind; [apply field_answered; intros; apply struct_answered|].
    intros [|a [|b [|c [|? ?]]]] F; try apply answered_err.
    apply answered_bind; [apply field_answered; intros; apply str_answered|]. intros i _.
    apply answered_bind.
    + apply field_answered. intros x ->. unfold de_vec. destruct x; try apply answered_err.
      apply mapM_answered. intros y Iy. apply IH. apply jdepth_arr in Iy.
      destruct content as [content|]; [|discriminate]. cbn [field] in F.
      pose proof (struct_depth _ _ _ _ F (or_intror (or_introl eq_refl))). pose proof (C _ eq_refl). lia.
    + intros cs _. apply answered_bind; [apply field_answered; intros; apply loc_answered|]. intros l _. apply answered_ok.
  - destruct (leaf_of name) as [k|]; [|apply answered_err].
    apply answered_bind; [apply field_answered; intros; apply struct_answered|].
    intros [|a [|b [|c [|? ?]]]] F; try apply answered_err.
    apply answered_bind; [apply field_answered; intros; apply str_answered|]. intros i _.
    apply answered_bind; [apply optional_answered|]. intros v _.
    apply answered_bind; [apply field_answered; intros; apply loc_answered|]. intros l _. apply answered_ok.
Qed.

Theorem any_reply : forall b, answered (of_text de_ast b).
Proof.
  intro b. unfold of_text. destruct (from_utf8 b) as [s|]; [|apply answered_err].
  apply answered_bind; [exact (from_str_total s)|]. intros j _. apply ast_go_answered. lia.
Qed.

(** ** A document that is too deep *)
Fixpoint nested (n : nat) : str := match n with O => lit "<m.mac x>" | S n => lit "[m.f " ++ nested n ++ lit "]" end.
Definition deep_text : str := nested 19.

Lemma deep_macro : forall uuid W, (forall h p f x i, W h (mkEvent p f (IMacro x i)) = RFail) ->
  match to_ast gseg uuid deep_text with
  | Ok (a, _) => match expander W demo a [] with (Err _, _) => True | _ => False end
  | _ => False
  end.
Proof. intros uuid W H. vm_compute. rewrite H. exact I. Qed.

Lemma deep_height : forall uuid,
  match to_ast gseg uuid deep_text with Ok (a, es) => height a = 44 /\ es = [] | _ => False end.
Proof. intro uuid. vm_compute. split; reflexivity. Qed.

Lemma to_ast_storable : forall seg, seg_laws seg -> forall uuid s, (forall n, Forall scalar (uuid n)) ->
  Forall scalar s -> word (length s) -> forall a es, to_ast seg uuid s = Ok (a, es) -> storable a.
Proof.
  intros seg L uuid s U Sc W a es H. unfold to_ast in H. apply bind_ok in H as (c & T & H).
  unfold front in T. apply bind_ok in T as (ts & T & P).
  exact (document_storable seg L uuid s ts c a es Sc W U T P H).
Qed.

Lemma deep_scalar : Forall scalar deep_text.
Proof. apply ascii_scalar. vm_compute. reflexivity. Qed.
Lemma deep_word : word (length deep_text).
Proof. vm_compute. reflexivity. Qed.

Lemma too_deep_for : forall r : res (ast * list terror), (forall a es, r = Ok (a, es) -> storable a) ->
  match r with Ok (a, es) => height a = 44 /\ es = [] | _ => False end ->
  (forall W, (forall h p f x i, W h (mkEvent p f (IMacro x i)) = RFail) ->
    match r with
    | Ok (a, _) => match expander W demo a [] with (Err _, _) => True | _ => False end
    | _ => False
    end) ->
  exists a, r = Ok (a, []) /\
    (forall id, Forall scalar id -> exists e, of_text de_macro (to_text (ser_input (IMacro a id))) = Err e) /\
    (exists e, of_text de_ast (to_text (ser_ast a)) = Err e) /\
    exists e h, expander (world_of (fun _ _ => Some (to_text (ser_ast a)))) demo a [] = (Err e, h).
Proof.
  intros [[a es]| | |] S H D; try contradiction. destruct H as [H ->]. exists a. split; [reflexivity|].
  specialize (S a [] eq_refl).
  split; [intros id I; rewrite (read_macro a id S I), H; eexists; reflexivity|].
  assert (R : of_text de_ast (to_text (ser_ast a)) = Err (lit "recursion limit exceeded")) by (rewrite (read_ast a S), H; reflexivity).
  split; [eauto|].
  assert (F : forall h p f x i, world_of (fun _ _ => Some (to_text (ser_ast a))) h (mkEvent p f (IMacro x i)) = RFail)
    by (intros; unfold world_of; cbn [ev_input read_reply]; unfold read_reply; rewrite R; reflexivity).
  specialize (D _ F). destruct (expander _ demo a []) as [[| e | |] h]; try contradiction. eauto.
Qed.

Lemma too_deep : forall seg uuid, seg_laws seg -> (forall n, Forall scalar (uuid n)) ->
  exists a, to_ast seg uuid deep_text = Ok (a, []) /\
    (forall id, Forall scalar id -> exists e, of_text de_macro (to_text (ser_input (IMacro a id))) = Err e) /\
    (exists e, of_text de_ast (to_text (ser_ast a)) = Err e) /\
    exists e h, expander (world_of (fun _ _ => Some (to_text (ser_ast a)))) demo a [] = (Err e, h).
Proof.
  intros seg uuid L U. rewrite (to_ast_gseg seg uuid _ L) by reflexivity.
  apply too_deep_for; [exact (to_ast_storable gseg gseg_laws uuid deep_text U deep_scalar deep_word)|exact (deep_height uuid)|exact (deep_macro uuid)].
Qed.
