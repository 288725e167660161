(** Tables, signatures and plugin sets. *)
From Coq Require Import String List NArith Bool Arith Lia Permutation.
From Verif Require Import Base Tokens AST SpecTransform Plugin Codegen SpecGen.
Import ListNotations.

(** ** Tables *)
Lemma ptype_eqb_eq : forall a b, ptype_eqb a b = true <-> a = b.
Proof.
  induction a; destruct b; cbn; try (split; intro H; congruence); try (rewrite IHa; split; congruence);
    rewrite str_eqb_eq; split; congruence.
Qed.

Lemma sig_eqb_eq : forall a b, sig_eqb a b = true <-> a = b.
Proof.
  intros [a s] [b t]. unfold sig_eqb. cbn. rewrite andb_true_iff, str_eqb_eq, ptype_eqb_eq. split; [intros []|intro H; injection H]; split || idtac; congruence.
Qed.

Section Tables.
  Context {K V : Type} (eqb : K -> K -> bool) (eqb_eq : forall a b, eqb a b = true <-> a = b).

  Lemma eqb_neq : forall a b, eqb a b = false <-> a <> b.
  Proof.
    intros a b. split; intro H.
    - intro E. apply eqb_eq in E. congruence.
    - destruct (eqb a b) eqn:E; [apply eqb_eq in E; contradiction|reflexivity].
  Qed.

  Lemma get_entry : forall (m : list (K * V)) k v, hm_get eqb m k = Some v <-> entry m k v.
  Proof.
    induction m as [|[k' v'] m IH]; intros k v; cbn.
    - split; [discriminate|]. intros ([|] & m2 & E & _); discriminate.
    - destruct (eqb k k') eqn:E.
      + apply eqb_eq in E as <-. split.
        * intros [= <-]. exists [], m. split; [reflexivity|intros []].
        * intros ([|[k2 v2] m1] & m2 & E & N); inversion E; subst; [reflexivity|].
          exfalso. apply N. left. reflexivity.
      + apply eqb_neq in E. rewrite IH. split.
        * intros (m1 & m2 & -> & N). exists ((k', v') :: m1), m2. split; [reflexivity|].
          intros [F|F]; [cbn in F; congruence|contradiction].
        * intros ([|[k2 v2] m1] & m2 & F & N); inversion F; subst; [congruence|].
          exists m1, m2. split; [reflexivity|]. intro I. apply N. right. exact I.
  Qed.

  Lemma get_none : forall (m : list (K * V)) k, hm_get eqb m k = None <-> ~ In k (map fst m).
  Proof.
    induction m as [|[k' v'] m IH]; intro k; cbn; [split; [intros _ []|reflexivity]|].
    destruct (eqb k k') eqn:E.
    - apply eqb_eq in E as <-. split; [discriminate|]. intro H. exfalso. apply H. left. reflexivity.
    - apply eqb_neq in E. rewrite IH. split; intros H; [intros [F|F]; [congruence|contradiction]|].
      intro I. apply H. right. exact I.
  Qed.

  Lemma get_insert : forall (m : list (K * V)) k v k',
    hm_get eqb (hm_insert eqb m k v) k' = if eqb k' k then Some v else hm_get eqb m k'.
  Proof.
    induction m as [|[a x] m IH]; intros k v k'; cbn; [reflexivity|].
    destruct (eqb k a) eqn:E; cbn.
    - apply eqb_eq in E as <-. destruct (eqb k' k); reflexivity.
    - destruct (eqb k' a) eqn:E2; [|apply IH]. apply eqb_eq in E2 as ->.
      destruct (eqb a k) eqn:E3; [|reflexivity]. apply eqb_eq in E3 as ->.
      apply eqb_neq in E. contradiction.
  Qed.
End Tables.

Lemma entry_det : forall K V (m : list (K * V)) k v v', entry m k v -> entry m k v' -> v = v'.
Proof.
  intros K V m k v v' (a & b & E & N) (c & d & F & M). subst m. revert c F M N.
  induction a as [|[x y] a IH]; intros [|[x' y'] c] F M N; cbn in *.
  - inversion F; subst; reflexivity.
  - inversion F; subst. exfalso. apply M. left. reflexivity.
  - inversion F; subst. exfalso. apply N. left. reflexivity.
  - inversion F; subst. apply (IH c); [assumption|intro I; apply M; right; exact I|intro I; apply N; right; exact I].
Qed.

Definition get_plugin ps n := hm_get str_eqb (name_to_plugin ps) n.
Definition get_meta p k := hm_get sig_eqb (p_metadata p) k.

Lemma provides_get : forall ps n f t md, provides ps n f t md <->
  exists p, get_plugin ps n = Some p /\ get_meta p (f, t) = Some md.
Proof.
  intros ps n f t md. unfold provides, get_plugin, get_meta. split; intros (p & A & B); exists p.
  - rewrite (get_entry str_eqb str_eqb_eq), (get_entry sig_eqb sig_eqb_eq). auto.
  - rewrite (get_entry str_eqb str_eqb_eq) in A. rewrite (get_entry sig_eqb sig_eqb_eq) in B. auto.
Qed.

Lemma provides_det : forall ps n f t m m', provides ps n f t m -> provides ps n f t m' -> m = m'.
Proof.
  intros ps n f t m m' (p & A & B) (p' & A' & B'). rewrite (entry_det _ _ _ _ _ _ A' A) in B'.
  exact (entry_det _ _ _ _ _ _ B B').
Qed.

Lemma provides_dec : forall ps n f t, (exists md, provides ps n f t md) \/ (forall md, ~ provides ps n f t md).
Proof.
  intros ps n f t. destruct (get_plugin ps n) as [p|] eqn:E.
  - destruct (get_meta p (f, t)) as [md|] eqn:F.
    + left. exists md. apply provides_get. eauto.
    + right. intros md H. apply provides_get in H as (p' & A & B). congruence.
  - right. intros md H. apply provides_get in H as (p' & A & B). congruence.
Qed.

Lemma argument_types_ok : forall ps n f t md, provides ps n f t md ->
  argument_types_of ps n f t = Ok (argument_types md).
Proof.
  intros ps n f t md H. apply provides_get in H as (p & A & B). unfold argument_types_of.
  unfold get_plugin, get_meta in *. rewrite A. cbn. rewrite B. reflexivity.
Qed.

Lemma argument_types_err : forall ps n f t, (forall md, ~ provides ps n f t md) ->
  exists e, argument_types_of ps n f t = Err e.
Proof.
  intros ps n f t H. unfold argument_types_of. destruct (hm_get str_eqb (name_to_plugin ps) n) as [p|] eqn:A; [|cbn; eauto].
  cbn. destruct (hm_get sig_eqb (p_metadata p) (f, t)) as [md|] eqn:B; [|cbn; eauto].
  exfalso. apply (H md). apply provides_get. exists p. auto.
Qed.

Lemma call_ok : forall w ps n f t i md h, provides ps n f t md ->
  call w ps n f t i h = (Ok (w h (mkEvent n (call_name md) i)), h ++ [mkEvent n (call_name md) i]).
Proof.
  intros w ps n f t i md h H. apply provides_get in H as (p & A & B). unfold call, mbind, ret.
  unfold get_plugin, get_meta in *. rewrite A. cbn. rewrite B. reflexivity.
Qed.

Lemma call_err : forall w ps n f t i h, (forall md, ~ provides ps n f t md) ->
  exists e, call w ps n f t i h = (Err e, h).
Proof.
  intros w ps n f t i h H. unfold call, mbind, ret. destruct (hm_get str_eqb (name_to_plugin ps) n) as [p|] eqn:A; [|cbn; eauto].
  cbn. destruct (hm_get sig_eqb (p_metadata p) (f, t)) as [md|] eqn:B; [|cbn; eauto].
  exfalso. apply (H md). apply provides_get. exists p. auto.
Qed.

(** ** Signatures *)
Lemma after_array_cons : forall t ts, after_array (t :: ts) <->
  (is_array t = true /\ forallb is_array ts = false) \/ after_array ts.
Proof.
  intros t ts. split.
  - intros ([|x l1] & a & l2 & b & l3 & E & A & B); cbn in E; inversion E; subst.
    + left. split; [exact A|]. rewrite forallb_app. cbn. rewrite B, andb_false_r. reflexivity.
    + right. exists l1, a, l2, b, l3. auto.
  - intros [[A B]|(l1 & a & l2 & b & l3 & -> & A & B)].
    + assert (exists l2 b l3, ts = l2 ++ b :: l3 /\ is_array b = false) as (l2 & b & l3 & -> & C).
      { induction ts as [|x ts IH]; [discriminate|]. cbn in B. destruct (is_array x) eqn:E.
        - destruct (IH B) as (l2 & b & l3 & -> & C). exists (x :: l2), b, l3. auto.
        - exists [], x, ts. auto. }
      exists [], t, l2, b, l3. auto.
    + exists (t :: l1), a, l2, b, l3. auto.
Qed.

Lemma required_cons : forall t ts, required (t :: ts) = (if is_required t then 1 else 0) + required ts.
Proof. intros t ts. unfold required. cbn. destruct (is_required t); reflexivity. Qed.

(** One step of the loop. *)
Lemma counter_cons : forall checks t ts min max, arg_counter_loop checks (t :: ts) min max =
  if is_array t then arg_counter_loop checks ts min UMax
  else let! b := bound_succ checks max in
       arg_counter_loop checks ts (if is_required t then S min else min) b.
Proof. intros checks [] ts min max; reflexivity. Qed.

Lemma required_if : forall t ts min, is_array t = false ->
  (if is_required t then S min else min) + required ts = min + required (t :: ts).
Proof. intros. rewrite required_cons. destruct (is_required t); lia. Qed.

Lemma array_not_required : forall t, is_array t = true -> is_required t = false.
Proof. intros [] H; cbn in *; congruence. Qed.

(** With overflow checks. *)
Lemma counter_true_umax : forall ts min, 
  (forallb is_array ts = true -> arg_counter_loop true ts min UMax = Ok (min + required ts, UMax)) /\
  (forallb is_array ts = false -> exists e, arg_counter_loop true ts min UMax = Panic e).
Proof.
  induction ts as [|t ts IH]; intro min; [split; [cbn; rewrite Nat.add_0_r; reflexivity|discriminate]|].
  rewrite counter_cons. cbn [forallb]. destruct (is_array t) eqn:E; cbn [andb].
  - rewrite required_cons, (array_not_required _ E). apply IH.
  - split; [discriminate|]. intros _. cbn. eauto.
Qed.

Lemma counter_true : forall ts min k,
  (~ after_array ts -> arg_counter_loop true ts min (Fin k) =
     Ok (min + required ts, if existsb is_array ts then UMax else Fin (k + length ts))) /\
  (after_array ts -> exists e, arg_counter_loop true ts min (Fin k) = Panic e).
Proof.
  induction ts as [|t ts IH]; intros min k.
  - split; [cbn; rewrite !Nat.add_0_r; reflexivity|]. intros ([|] & a & l2 & b & l3 & E & _); discriminate.
  - rewrite counter_cons, after_array_cons. cbn [existsb length]. destruct (is_array t) eqn:E; cbn [orb].
    + destruct (counter_true_umax ts min) as [A B]. split; intro H.
      * rewrite required_cons, (array_not_required _ E). apply A. destruct (forallb is_array ts); [reflexivity|].
        exfalso. apply H. left. auto.
      * destruct (forallb is_array ts) eqn:F; [|apply B; reflexivity]. exfalso.
        destruct H as [[_ H]|(l1 & a & l2 & b & l3 & -> & _ & N)]; [discriminate|].
        rewrite forallb_app in F. cbn in F. rewrite forallb_app in F. cbn in F. rewrite N in F. cbn in F.
        rewrite !andb_false_r in F. discriminate.
    + cbn [bound_succ bind]. destruct (IH (if is_required t then S min else min) (S k)) as [A B]. split; intro H.
      * rewrite A by tauto. rewrite (required_if _ _ _ E). destruct (existsb is_array ts); [reflexivity|].
        rewrite Nat.add_succ_r. reflexivity.
      * apply B. destruct H as [[? _]|H]; [congruence|exact H].
Qed.

(** Without: the bound wraps. *)
Definition wrapped (ts : list ptype) (b : bound) : Prop :=
  forall l1 t l2, ts = l1 ++ t :: l2 -> is_array t = true -> existsb is_array l2 = false ->
  b = match l2 with [] => UMax | _ :: r => Fin (length r) end.

Lemma counter_false_fin : forall ts min k, existsb is_array ts = false ->
  arg_counter_loop false ts min (Fin k) = Ok (min + required ts, Fin (k + length ts)).
Proof.
  induction ts as [|t ts IH]; intros min k H; [cbn; rewrite !Nat.add_0_r; reflexivity|].
  cbn [existsb] in H. apply orb_false_iff in H as [H1 H2]. rewrite counter_cons, H1. cbn [bound_succ bind].
  rewrite IH by exact H2. rewrite (required_if _ _ _ H1). cbn [length]. rewrite Nat.add_succ_r. reflexivity.
Qed.

Lemma counter_false : forall ts min b, exists b', arg_counter_loop false ts min b = Ok (min + required ts, b') /\
  wrapped ts b' /\ (existsb is_array ts = false -> forall k, b = Fin k -> b' = Fin (k + length ts)).
Proof.
  induction ts as [|t ts IH]; intros min b.
  - exists b. cbn. rewrite Nat.add_0_r. split; [reflexivity|]. split; [intros [|] ? ? E; discriminate|].
    intros _ k ->. rewrite Nat.add_0_r. reflexivity.
  - rewrite counter_cons. destruct (is_array t) eqn:E.
    + destruct (existsb is_array ts) eqn:X.
      * destruct (IH min UMax) as (b' & A & W & _). exists b'. rewrite required_cons, (array_not_required _ E). split; [exact A|].
        split; [|cbn; rewrite E; discriminate]. intros [|x l1] a l2 F G N; cbn in F; inversion F; subst; [congruence|].
        exact (W l1 a l2 eq_refl G N).
      * exists (match ts with [] => UMax | _ :: r => Fin (length r) end). rewrite required_cons, (array_not_required _ E).
        split.
        -- destruct ts as [|t' ts]; [cbn; rewrite Nat.add_0_r; reflexivity|]. cbn [existsb] in X. apply orb_false_iff in X as [X1 X2].
           rewrite counter_cons, X1. cbn [bound_succ bind]. rewrite counter_false_fin by exact X2.
           cbn [plus]. rewrite (required_if _ _ _ X1). reflexivity.
        -- split; [|cbn; rewrite E; discriminate]. intros [|x l1] a l2 F G N; cbn in F; inversion F; subst; [reflexivity|].
           rewrite existsb_app in X. cbn in X. rewrite G in X. cbn in X. rewrite orb_true_r in X. discriminate.
    + assert (S : exists k', bound_succ false b = Ok (Fin k') /\ forall k, b = Fin k -> k' = S k).
      { destruct b as [n|]; cbn; eexists; (split; [reflexivity|]); intros k F; congruence. }
      destruct S as (k' & -> & S). cbn [bind]. destruct (IH (if is_required t then Datatypes.S min else min) (Fin k')) as (b' & A & W & B).
      exists b'. rewrite A, (required_if _ _ _ E). split; [reflexivity|]. split.
      * intros [|x l1] a l2 F G N; cbn in F; inversion F; subst; [congruence|]. exact (W l1 a l2 eq_refl G N).
      * cbn [existsb]. rewrite E. cbn. intros X k ->. rewrite (B X k' eq_refl), (S k eq_refl). f_equal. lia.
Qed.

Lemma last_array : forall ts, existsb is_array ts = true ->
  exists l1 t l2, ts = l1 ++ t :: l2 /\ is_array t = true /\ existsb is_array l2 = false.
Proof.
  induction ts as [|t ts IH]; [discriminate|]. cbn. intro H. destruct (existsb is_array ts) eqn:E.
  - destruct (IH eq_refl) as (l1 & a & l2 & -> & A & B). exists (t :: l1), a, l2. auto.
  - rewrite orb_false_r in H. exists [], t, ts. auto.
Qed.

Theorem counter_spec : forall checks ts,
  (exists min max, arg_counter checks ts = Ok (min, max) /\ (checks = true -> ~ after_array ts) /\
     forall n, accepted checks ts n <-> (Nat.ltb n min = false /\ exceeds n max = false)) \/
  (checks = true /\ after_array ts /\ exists e, arg_counter checks ts = Panic e).
Proof.
  intros checks ts. unfold arg_counter, accepted, arity. destruct checks.
  - destruct (counter_true ts 0 0) as [A B].
    assert (D : after_array ts \/ ~ after_array ts).
    { clear. induction ts as [|t ts [IH|IH]].
      - right. intros ([|] & ? & ? & ? & ? & E & _); discriminate.
      - left. apply after_array_cons. auto.
      - rewrite after_array_cons. destruct (is_array t), (forallb is_array ts); intuition congruence. }
    destruct D as [D|D]; [right; auto|left]. rewrite A by exact D. eexists _, _. split; [reflexivity|]. split; [auto|].
    intro n. cbn [plus]. rewrite Nat.ltb_ge. destruct (existsb is_array ts); cbn [exceeds].
    + intuition congruence.
    + rewrite Nat.ltb_ge. intuition.
  - left. destruct (counter_false ts 0 (Fin 0)) as (b & A & W & B). exists (required ts), b.
    rewrite A. split; [reflexivity|]. split; [discriminate|]. intro n. rewrite Nat.ltb_ge.
    destruct (existsb is_array ts) eqn:E.
    + destruct (last_array _ E) as (l1 & t & l2 & F & G & N). rewrite (W l1 t l2 F G N). clear B W.
      split.
      * intros [[H1 _] H2]. split; [exact H1|]. specialize (H2 l1 t l2 F G N). destruct l2 as [|x r]; [reflexivity|].
        cbn [exceeds]. apply Nat.ltb_ge. specialize (H2 ltac:(discriminate)). cbn in H2. lia.
      * intros [H1 H2]. split; [split; [exact H1|discriminate]|]. intros l1' t' l2' F' G' N' NE.
        assert (L : l2' = l2).
        { rewrite F in F'. clear - F' G G' N N'. revert l1' F'. induction l1 as [|x l1 IH]; intros [|x' l1'] F'; cbn in F'; inversion F'; subst.
          - reflexivity.
          - rewrite existsb_app in N. cbn in N. rewrite G', orb_true_r in N. discriminate.
          - rewrite existsb_app in N'. cbn in N'. rewrite G, orb_true_r in N'. discriminate.
          - eauto. }
        subst l2'. destruct l2 as [|x r]; [congruence|]. cbn [exceeds] in H2. apply Nat.ltb_ge in H2. cbn. lia.
    + rewrite (B eq_refl 0 eq_refl). cbn [exceeds plus]. rewrite Nat.ltb_ge. split.
      * intros [[H1 H2] _]. auto.
      * intros [H1 H2]. split; [auto|]. intros l1 t l2 F G N _. exfalso. rewrite F, existsb_app in E. cbn in E.
        rewrite G, orb_true_r in E. discriminate.
Qed.

Lemma arg_counter_no_err : forall checks ts e, arg_counter checks ts <> Err e /\ arg_counter checks ts <> Fuel.
Proof.
  intros checks ts e. destruct (counter_spec checks ts) as [(a & b & -> & _)|(_ & _ & e' & ->)]; split; discriminate.
Qed.

(** ** Binding *)
Lemma bind_cons : forall t ts i args, bind_args (t :: ts) i args =
  let! v := bind_args [t] i args in let! vs := bind_args ts (S i) args in Ok (hd (VText []) v :: vs).
Proof.
  intros t ts i args. cbn [bind_args]. destruct t; cbn [bind hd]; try reflexivity.
  all: try (destruct (nth_error args i); reflexivity). destruct (Nat.leb i (length args)); reflexivity.
Qed.

Lemma bind_one : forall t i args,
  (bindable (length args) i t /\ exists v, bind_args [t] i args = Ok [v] /\ (forall v', value_at args i t v' <-> v' = v)) \/
  (~ bindable (length args) i t /\ (exists e, bind_args [t] i args = Panic e) /\ forall v, ~ value_at args i t v).
Proof.
  intros t i args. unfold bindable, value_at.
  assert (R : is_required t = true -> bind_args [t] i args =
    match nth_error args i with Some x => Ok [VText x] | None => Panic (lit "index out of bounds") end).
  { destruct t; try discriminate; cbn; intros _; destruct (nth_error args i); reflexivity. }
  destruct (is_array t) eqn:A; [|destruct (is_optional t) eqn:O].
  - destruct t; try discriminate. cbn [bind_args]. destruct (Nat.leb i (length args)) eqn:L.
    + left. apply Nat.leb_le in L. split; [exact L|]. eexists. split; [reflexivity|]. intro v'. intuition.
    + right. apply Nat.leb_gt in L. split; [lia|]. split; [cbn; eauto|]. intros v []. lia.
  - destruct t; try discriminate. left. split; [exact I|]. eexists. split; [reflexivity|]. intro v'.
    cbn [bind_args]. destruct (Nat.ltb i (length args)) eqn:L; [reflexivity|]. apply Nat.ltb_ge in L.
    rewrite (proj2 (nth_error_None args i) L). reflexivity.
  - rewrite R by (unfold is_required; rewrite A, O; reflexivity). destruct (nth_error args i) as [x|] eqn:E.
    + left. split; [apply nth_error_Some; congruence|]. eexists. split; [reflexivity|]. intro v'. split.
      * intros (s & [= <-] & ->). reflexivity.
      * intros ->. eauto.
    + right. split; [apply nth_error_None in E; lia|]. split; [eauto|]. intros v (s & F & _). discriminate.
Qed.

Theorem bind_spec : forall ts i args,
  ((forall j t, nth_error ts j = Some t -> bindable (length args) (i + j) t) /\
   exists vs, bind_args ts i args = Ok vs /\ length vs = length ts /\
     (forall j t v, nth_error ts j = Some t -> nth_error vs j = Some v -> value_at args (i + j) t v)) \/
  ((exists j t, nth_error ts j = Some t /\ ~ bindable (length args) (i + j) t) /\ exists e, bind_args ts i args = Panic e).
Proof.
  induction ts as [|t ts IH]; intros i args.
  - left. split; [intros [] ? E; discriminate|]. exists []. split; [reflexivity|]. split; [reflexivity|]. intros [] ? ? E; discriminate.
  - rewrite bind_cons. destruct (bind_one t i args) as [(B & v & -> & V)|(B & (e & ->) & V)]; cbn [bind].
    + destruct (IH (S i) args) as [(BS & vs & -> & L & VS)|((j & u & N & NB) & e & ->)]; cbn [bind hd].
      * left. split.
        -- intros [|j] u E; [injection E as <-; rewrite Nat.add_0_r; exact B|]. cbn in E. rewrite Nat.add_succ_r. apply (BS j u E).
        -- eexists. split; [reflexivity|]. split; [cbn; congruence|]. intros [|j] u x E F.
           ++ injection E as <-. injection F as <-. rewrite Nat.add_0_r. apply V. reflexivity.
           ++ cbn in E, F. rewrite Nat.add_succ_r. apply (VS j u x E F).
      * right. split; [|eauto]. exists (S j), u. rewrite Nat.add_succ_r. auto.
    + right. split; [|eauto]. exists 0, t. rewrite Nat.add_0_r. auto.
Qed.

Lemma value_bindable : forall args i t v, value_at args i t v -> bindable (length args) i t.
Proof.
  intros args i t v H. destruct (bind_one t i args) as [[B _]|[_ [_ N]]]; [exact B|]. exfalso. exact (N v H).
Qed.

Lemma nth_error_ext : forall A (l l' : list A), (forall i, nth_error l i = nth_error l' i) -> l = l'.
Proof.
  induction l as [|x l IH]; intros [|y l'] H; try reflexivity.
  - specialize (H 0). discriminate.
  - specialize (H 0). discriminate.
  - pose proof (H 0) as E. injection E as ->. f_equal. apply IH. intro i. exact (H (S i)).
Qed.

Lemma values_det : forall ts args vs vs', values_for ts args vs -> values_for ts args vs' -> vs = vs'.
Proof.
  intros ts args vs vs' [L V] [L' V']. apply nth_error_ext. intro i. destruct (nth_error ts i) as [t|] eqn:E.
  - assert (I : i < length ts) by (apply nth_error_Some; congruence).
    destruct (nth_error vs i) as [v|] eqn:F; [|apply nth_error_None in F; lia].
    destruct (nth_error vs' i) as [v'|] eqn:G; [|apply nth_error_None in G; lia].
    specialize (V i t v E F). specialize (V' i t v' E G).
    destruct (bind_one t i args) as [(_ & x & _ & X)|(_ & _ & N)]; [|exfalso; exact (N v V)].
    apply X in V. apply X in V'. congruence.
  - apply nth_error_None in E. rewrite (proj2 (nth_error_None vs i)), (proj2 (nth_error_None vs' i)) by lia. reflexivity.
Qed.

Theorem bind_values : forall ts args vs, bind_args ts 0 args = Ok vs <-> values_for ts args vs.
Proof.
  intros ts args vs. destruct (bind_spec ts 0 args) as [(B & us & E & L & V)|((j & t & N & NB) & e & E)]; rewrite E; split.
  - intros [= <-]. split; assumption.
  - intro H. f_equal. exact (values_det _ _ _ _ (conj L V) H).
  - discriminate.
  - intros [L V]. exfalso. apply NB. destruct (nth_error vs j) as [v|] eqn:F.
    + exact (value_bindable _ _ _ _ (V j t v N F)).
    + apply nth_error_None in F. assert (j < length ts) by (apply nth_error_Some; congruence). lia.
Qed.

(** ** What is not provided *)
Lemma plugin_iff : forall ps n, has_plugin ps n <-> hm_get str_eqb (name_to_plugin ps) n <> None.
Proof.
  intros ps n. unfold has_plugin. split.
  - intros (p & E). apply (get_entry str_eqb) in E; [|intros; apply str_eqb_eq]. congruence.
  - intro H. destruct (hm_get str_eqb (name_to_plugin ps) n) as [p|] eqn:E; [|congruence]. exists p.
    apply (get_entry str_eqb); [intros; apply str_eqb_eq|exact E].
Qed.
Lemma unprovided : forall ps n f t, has_plugin ps n -> (forall md, ~ provides ps n f t md) ->
  exists p, hm_get str_eqb (name_to_plugin ps) n = Some p /\ hm_get sig_eqb (p_metadata p) (f, t) = None.
Proof.
  intros ps n f t H N. apply plugin_iff in H. destruct (hm_get str_eqb (name_to_plugin ps) n) as [p|] eqn:E; [|congruence].
  exists p. split; [reflexivity|]. destruct (hm_get sig_eqb (p_metadata p) (f, t)) as [md|] eqn:F; [|reflexivity].
  exfalso. apply (N md). apply provides_get. exists p. auto.
Qed.
Lemma provides_plugin : forall ps n f t md, provides ps n f t md -> has_plugin ps n.
Proof. intros ps n f t md (p & E & _). exists p. exact E. Qed.
