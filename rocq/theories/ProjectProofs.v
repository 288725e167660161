(** Plugin entries and configurations. *)
From Coq Require Import String List NArith ZArith Arith Bool Lia Permutation.
From Verif Require Import Base Plugin Utf8 Json Serde Project SpecProject SerdeProofs ExchangeProofs.
Import ListNotations.

Definition values (name : str) (kvs : list (str * json)) : list json :=
  map snd (filter (fun kv => str_eqb (fst kv) name) kvs).
Definition slot {A} (de : json -> res A) (name : string) (kvs : list (str * json)) (old new : option A) : Prop :=
  match values (lit name) kvs with
  | [] => new = old
  | [v] => old = None /\ exists x, de v = Ok x /\ new = Some x
  | _ => False
  end.

Lemma slot_skip : forall A (de : json -> res A) name k v kvs old new, str_eqb k (lit name) = false ->
  slot de name ((k, v) :: kvs) old new <-> slot de name kvs old new.
Proof. intros A de name k v kvs old new H. unfold slot, values. cbn [filter fst]. rewrite H. reflexivity. Qed.

Lemma slot_take : forall A (de : json -> res A) name k v kvs old new, str_eqb k (lit name) = true ->
  slot de name ((k, v) :: kvs) old new <-> exists x, take old (de v) = Ok x /\ slot de name kvs x new.
Proof.
  intros A de name k v kvs old new H. unfold slot, values. cbn [filter fst]. rewrite H. cbn [map snd].
  destruct (map snd (filter _ kvs)) as [|v' [|v'' vs]].
  - split.
    + intros (-> & x & E & ->). exists (Some x). unfold take. rewrite E. split; reflexivity.
    + intros (x & T & ->). destruct old; [discriminate|]. split; [reflexivity|]. unfold take in T.
      apply bind_ok in T as (y & E & T). injection T as <-. eauto.
  - split; [contradiction|]. intros (x & T & -> & _). destruct old; [discriminate|]. unfold take in T.
    apply bind_ok in T as (y & E & T). discriminate.
  - split; [contradiction|]. intros (x & T & []).
Qed.

Definition slots (kvs : list (str * json)) (f f' : fields) : Prop :=
  slot de_str "schema" kvs (f_schema f) (f_schema f') /\ slot de_str "owner" kvs (f_owner f) (f_owner f') /\
  slot de_str "repo" kvs (f_repo f) (f_repo f') /\ slot de_str "version" kvs (f_version f) (f_version f') /\
  slot de_bool "expr_hook" kvs (f_expr_hook f) (f_expr_hook f') /\ slot de_bool "stmt_hook" kvs (f_stmt_hook f) (f_stmt_hook f') /\
  slot de_bool "document_hook" kvs (f_document_hook f) (f_document_hook f') /\ slot de_bool "text_hook" kvs (f_text_hook f) (f_text_hook f').

Lemma bind_ok_iff : forall A B (m : res A) (k : A -> res B) y, bind m k = Ok y <-> exists x, m = Ok x /\ k x = Ok y.
Proof.
  intros A B m k y. split; [apply bind_ok|]. intros (x & -> & H). exact H.
Qed.

Ltac field_case IH Inc name :=
  rewrite (Inc (lit name) ltac:(cbn; tauto) eq_refl);
  repeat match goal with
  | |- context [slot ?de ?n ((lit ?n, ?v) :: ?kvs) ?o ?x] => rewrite (slot_take _ de n (lit n) v kvs o x eq_refl)
  | |- context [slot ?de ?n ((lit ?m, ?v) :: ?kvs) ?o ?x] => rewrite (slot_skip _ de n (lit m) v kvs o x eq_refl)
  end;
  split;
  [ intros (f1 & T & V); apply bind_ok in T as (x & T & E); injection E as <-;
    apply IH in V as [I S]; unfold slots in S;
    cbn [f_schema f_owner f_repo f_version f_expr_hook f_stmt_hook f_document_hook f_text_hook] in S;
    split; [exact I|]; decompose [and] S; repeat split; try assumption; exists x; split; assumption
  | intros [I S]; decompose [and ex] S; eexists; split;
    [ match goal with H : take _ _ = Ok _ |- _ => rewrite H end; reflexivity
    | apply IH; split; [exact I|]; unfold slots;
      cbn [f_schema f_owner f_repo f_version f_expr_hook f_stmt_hook f_document_hook f_text_hook]; repeat split; assumption ] ].

Lemma visit_slots : forall kvs f f', visit kvs f = Ok f' <-> incl (map fst kvs) known_fields /\ slots kvs f f'.
Proof.
  induction kvs as [|[k v] kvs IH]; intros f f'.
  - cbn [visit map]. unfold slots, slot, values. cbn [filter map]. split.
    + intro H. injection H as <-. split; [intros x []|]. repeat split; reflexivity.
    + intros [_ (A & B & C & D & E & F & G & H)]. destruct f, f'. cbn in *. subst. reflexivity.
  - cbn [visit]. rewrite bind_ok_iff. cbn [map fst].
    assert (Inc : forall s, In s known_fields -> k = s -> (incl (k :: map fst kvs) known_fields <-> incl (map fst kvs) known_fields)).
    { intros s I ->. split; [intros H x Hx; apply H; right; exact Hx|]. intros H x [<-|Hx]; [exact I|apply H; exact Hx]. }
    unfold slots.
    destruct (str_eqb k (lit "schema")) eqn:E1; [apply str_eqb_eq in E1; subst k; field_case IH Inc "schema"%string|].
    destruct (str_eqb k (lit "owner")) eqn:E2; [apply str_eqb_eq in E2; subst k; field_case IH Inc "owner"%string|].
    destruct (str_eqb k (lit "repo")) eqn:E3; [apply str_eqb_eq in E3; subst k; field_case IH Inc "repo"%string|].
    destruct (str_eqb k (lit "version")) eqn:E4; [apply str_eqb_eq in E4; subst k; field_case IH Inc "version"%string|].
    destruct (str_eqb k (lit "expr_hook")) eqn:E5; [apply str_eqb_eq in E5; subst k; field_case IH Inc "expr_hook"%string|].
    destruct (str_eqb k (lit "stmt_hook")) eqn:E6; [apply str_eqb_eq in E6; subst k; field_case IH Inc "stmt_hook"%string|].
    destruct (str_eqb k (lit "document_hook")) eqn:E7; [apply str_eqb_eq in E7; subst k; field_case IH Inc "document_hook"%string|].
    destruct (str_eqb k (lit "text_hook")) eqn:E8; [apply str_eqb_eq in E8; subst k; field_case IH Inc "text_hook"%string|].
    split.
    + intros (f1 & X & _). discriminate.
    + intros [I _]. exfalso. specialize (I k (or_introl eq_refl)). unfold known_fields in I. cbn [map In] in I.
      apply str_eqb_neq in E1, E2, E3, E4, E5, E6, E7, E8. intuition congruence.
Qed.

Lemma values_in : forall name kvs v, In v (values name kvs) <-> In (name, v) kvs.
Proof.
  intros name kvs v. unfold values. rewrite in_map_iff. split.
  - intros ([k x] & E & I). cbn in E. subst x. apply filter_In in I as [I E]. cbn in E. apply str_eqb_eq in E. subst k. exact I.
  - intro I. exists (name, v). split; [reflexivity|]. apply filter_In. split; [exact I|apply str_eqb_refl].
Qed.
Lemma values_nil : forall name kvs, values name kvs = [] <-> ~ In name (map fst kvs).
Proof.
  intros name kvs. split.
  - intros H I. apply in_map_iff in I as ([k v] & E & I). cbn in E. subst k. apply values_in in I. rewrite H in I. exact I.
  - intro H. destruct (values name kvs) as [|v vs] eqn:E; [reflexivity|]. exfalso. apply H.
    assert (I : In v (values name kvs)) by (rewrite E; left; reflexivity). apply values_in in I. apply (in_map fst) in I. exact I.
Qed.
Lemma values_one : forall name kvs v, NoDup (map fst kvs) -> In (name, v) kvs -> values name kvs = [v].
Proof.
  intros name kvs v. induction kvs as [|[k x] kvs IH]; intros N I; [destruct I|].
  cbn [map fst] in N. inversion N as [|? ? N1 N2]; subst. unfold values. cbn [filter fst].
  destruct I as [I|I].
  - injection I as -> ->. rewrite str_eqb_refl. cbn [map snd]. f_equal. apply values_nil. exact N1.
  - destruct (str_eqb k name) eqn:E.
    + apply str_eqb_eq in E. subst k. exfalso. apply N1. apply (in_map fst) in I. exact I.
    + apply IH; assumption.
Qed.
Lemma values_nodup : forall kvs, (forall name, length (values name kvs) <= 1) -> NoDup (map fst kvs).
Proof.
  induction kvs as [|[k v] kvs IH]; intro H; [constructor|]. cbn [map fst]. constructor.
  - intro I. specialize (H k). unfold values in H. cbn [filter fst] in H. rewrite str_eqb_refl in H. cbn [map length] in H.
    fold (values k kvs) in H. apply in_map_iff in I as ([k' x] & E & I). cbn in E. subst k'. apply values_in in I.
    destruct (values k kvs); [destruct I|]. cbn [length] in H. lia.
  - apply IH. intro name. specialize (H name). unfold values in H |- *. cbn [filter fst] in H.
    destruct (str_eqb k name); [cbn [map length] in H; lia|exact H].
Qed.

Lemma slot_start : forall A (de : json -> res A) name kvs new, slot de name kvs None new <->
  match new with
  | Some x => exists v, values (lit name) kvs = [v] /\ de v = Ok x
  | None => values (lit name) kvs = []
  end.
Proof.
  intros A de name kvs new. unfold slot. destruct (values (lit name) kvs) as [|v [|v' vs]].
  - split; [intros ->; reflexivity|]. destruct new; [intros (v & E & _); discriminate|reflexivity].
  - split; [intros (_ & x & E & ->); eauto|]. destruct new; [|discriminate].
    intros (v' & E & D). injection E as <-. split; [reflexivity|eauto].
  - split; [contradiction|]. destruct new; [intros (? & E & _)|intro E]; discriminate.
Qed.

Lemma de_str_ok : forall v x, de_str v = Ok x <-> v = JStr x.
Proof. intros v x. split; [destruct v; try discriminate; cbn; intro H; injection H as ->; reflexivity|intros ->; reflexivity]. Qed.
Lemma de_bool_ok : forall v x, de_bool v = Ok x <-> v = JBool x.
Proof. intros v x. split; [destruct v; try discriminate; cbn; intro H; injection H as ->; reflexivity|intros ->; reflexivity]. Qed.

Lemma slot_length : forall A (de : json -> res A) name kvs new, slot de name kvs None new -> length (values (lit name) kvs) <= 1.
Proof. intros A de name kvs new. unfold slot. destruct (values (lit name) kvs) as [|? [|? ?]]; cbn; [lia|lia|contradiction]. Qed.

Lemma ok_or_ok : forall A (o : option A) e x, ok_or o e = Ok x <-> o = Some x.
Proof. intros A [y|] e x; cbn; split; intro H; congruence. Qed.

Theorem schema_exact : forall kvs s, de_schema (JObj kvs) = Ok s <-> entry_of kvs s.
Proof.
  intros kvs s. unfold de_schema. split.
  - intro H. apply bind_ok in H as (f & V & H). apply bind_ok in H as (sc & F1 & H). apply bind_ok in H as (ow & F2 & H).
    apply bind_ok in H as (re & F3 & H). apply bind_ok in H as (ve & F4 & H).
    destruct (str_eqb sc (lit "github")) eqn:G; [|discriminate]. apply str_eqb_eq in G. subst sc. injection H as <-.
    apply ok_or_ok in F1, F2, F3, F4. apply visit_slots in V as [I (A & B & C & D & P & Q & R & S)].
    rewrite F1 in A. rewrite F2 in B. rewrite F3 in C. rewrite F4 in D. cbn [f_schema f_owner f_repo f_version f_expr_hook f_stmt_hook f_document_hook f_text_hook no_fields] in *.
    assert (N : NoDup (map fst kvs)).
    { apply values_nodup. intro name. destruct (in_dec str_dec name known_fields) as [K|K].
      - unfold known_fields in K. cbn [map In] in K.
        destruct K as [<-|[<-|[<-|[<-|[<-|[<-|[<-|[<-|[]]]]]]]]]; eapply slot_length; eassumption.
      - rewrite (proj2 (values_nil name kvs)); [cbn; lia|]. intro X. apply K, I, X. }
    apply slot_start in A as (v1 & A & A'), B as (v2 & B & B'), C as (v3 & C & C'), D as (v4 & D & D').
    apply de_str_ok in A', B', C', D'. subst.
    assert (Hook : forall name o, slot de_bool name kvs None o -> hook_field kvs name o).
    { intros name o X. apply slot_start in X. destruct o as [b|]; cbn [hook_field].
      - destruct X as (v & X & Y). apply de_bool_ok in Y. subst v. apply values_in. rewrite X. left. reflexivity.
      - apply values_nil. exact X. }
    unfold entry_of. cbn [s_owner s_repo s_version s_expr_hook s_stmt_hook s_document_hook s_text_hook].
    repeat split; try assumption; try (apply values_in; rewrite ?A, ?B, ?C, ?D; left; reflexivity); apply Hook; assumption.
  - intros (N & I & A & B & C & D & P & Q & R & S).
    assert (Hook : forall name o, hook_field kvs name o -> slot de_bool name kvs None o).
    { intros name o X. apply slot_start. destruct o as [b|]; cbn [hook_field] in X.
      - exists (JBool b). split; [apply values_one; assumption|reflexivity].
      - apply values_nil. exact X. }
    assert (Text : forall name x, In (lit name, JStr x) kvs -> slot de_str name kvs None (Some x)).
    { intros name x X. apply slot_start. exists (JStr x). split; [apply values_one; assumption|reflexivity]. }
    set (f := mkFields (Some (lit "github")) (Some (s_owner s)) (Some (s_repo s)) (Some (s_version s)) (s_expr_hook s) (s_stmt_hook s)
                (s_document_hook s) (s_text_hook s)).
    assert (V : visit kvs no_fields = Ok f).
    { apply visit_slots. split; [exact I|]. unfold slots, f.
      cbn [f_schema f_owner f_repo f_version f_expr_hook f_stmt_hook f_document_hook f_text_hook no_fields].
      repeat split; auto. }
    rewrite V. unfold f. cbn [bind f_schema f_owner f_repo f_version f_expr_hook f_stmt_hook f_document_hook f_text_hook ok_or].
    rewrite str_eqb_refl. destruct s; reflexivity.
Qed.

Lemma ser_schema_entry : forall s, exists kvs, ser_schema s = JObj kvs /\ entry_of kvs s.
Proof.
  intro s. eexists. split; [reflexivity|]. unfold entry_of.
  destruct s as [o r v [e|] [st|] [d|] [t|]];
    cbn [s_owner s_repo s_version s_expr_hook s_stmt_hook s_document_hook s_text_hook ser_hook app map fst snd hook_field];
    (split; [repeat constructor; cbn [In]; intuition discriminate|]);
    (split; [unfold known_fields; intros x X; cbn [map In] in X |- *; tauto|]);
    cbn [In]; repeat split; auto 12; intuition discriminate.
Qed.

Theorem de_ser_schema : forall s, de_schema (ser_schema s) = Ok s.
Proof. intro s. destruct (ser_schema_entry s) as (kvs & -> & E). apply schema_exact. exact E. Qed.

Theorem schema_answered : forall j, (exists s, de_schema j = Ok s) \/ exists e, de_schema j = Err e.
Proof.
  intro j. destruct j; try (right; eexists; reflexivity). unfold de_schema.
  assert (V : forall kvs f, answered (visit kvs f)).
  { clear. induction kvs as [|[k v] kvs IH]; intro f; cbn [visit]; [apply answered_ok|].
    apply answered_bind; [|intros; apply IH].
    assert (T : forall A (old : option A) r, answered r -> answered (take old r)).
    { intros A [x|] r R; cbn [take]; [apply answered_err|]. apply answered_bind; [exact R|intros; apply answered_ok]. }
    assert (B : forall j, answered (de_bool j)) by (intros []; apply answered_ok || apply answered_err).
    repeat match goal with |- context [if ?b then _ else _] => destruct b end;
      try apply answered_err; (apply answered_bind; [apply T; apply str_answered || apply B|intros; apply answered_ok]). }
  assert (O : forall A (o : option A) e, answered (ok_or o e)) by (intros A [x|] e; apply answered_ok || apply answered_err).
  apply answered_bind; [apply V|]. intros f _. repeat (apply answered_bind; [apply O|]; intros ? _).
  destruct (str_eqb _ _); apply answered_ok || apply answered_err.
Qed.

(** ** Configurations *)
Lemma de_ser_document : forall d, de_document (ser_document d) = Ok d.
Proof.
  intros [n v b au]. unfold de_document.
  assert (E : de_table ["name"; "version"; "backend"; "authors"]%string (ser_document (mkDocument n v b au))
              = Ok [Some (JStr n); Some (JStr v); Some (JStr b); Some (JArr (map JStr au))]) by reflexivity.
  rewrite E. cbn [bind field de_str de_vec]. rewrite mapM_ok; [reflexivity|]. apply Forall_forall. intros x _. reflexivity.
Qed.

Theorem de_ser_config : forall c, de_config (ser_config c) = Ok c.
Proof.
  intros [d [ps|]]; unfold de_config.
  - assert (E : de_table ["document"; "plugins"]%string (ser_config (mkConfig d (Some ps)))
                = Ok [Some (ser_document d); Some (JObj (map (fun p => (fst p, ser_schema (snd p))) ps))]) by reflexivity.
    rewrite E. cbn [bind field]. rewrite de_ser_document. cbn [bind de_plugins]. rewrite mapM_ok; [reflexivity|].
    apply Forall_forall. intros [k s] _. cbn [fst snd]. rewrite de_ser_schema. reflexivity.
  - assert (E : de_table ["document"; "plugins"]%string (ser_config (mkConfig d None)) = Ok [Some (ser_document d); None]) by reflexivity.
    rewrite E. cbn [bind field]. rewrite de_ser_document. reflexivity.
Qed.
