(** When binding arguments panics, and when generation cannot. *)
From Coq Require Import String List NArith Bool Arith Lia.
From Verif Require Import Base Tokens AST SpecTransform TransformIds Plugin Codegen SpecGen PluginProofs GenProofs.
Import ListNotations.

(** ** Signatures *)
Lemma kinds_exclusive : forall t, is_required t = true \/ is_optional t = true \/ is_array t = true.
Proof. intros []; cbn; auto. Qed.

Lemma required_none : forall ts, required ts = 0 -> forall i t, nth_error ts i = Some t -> is_required t = false.
Proof.
  induction ts as [|x ts IH]; intros H i t E; [destruct i; discriminate|]. rewrite required_cons in H.
  destruct (is_required x) eqn:R; [cbn in H; lia|]. destruct i as [|i]; [injection E as <-; exact R|exact (IH H i t E)].
Qed.

Lemma required_first : forall ts k, (forall i t, nth_error ts i = Some t -> is_required t = true -> i + k < required ts) ->
  required ts = 0 \/ (k = 0 /\ exists rs os, ts = rs ++ os /\ Forall (fun t => is_required t = true) rs /\
    length rs = required ts /\ forall i t, nth_error os i = Some t -> is_required t = false).
Proof.
  induction ts as [|x ts IH]; intros k H; [left; reflexivity|]. rewrite required_cons in *. destruct (is_required x) eqn:R; cbn in *.
  - right. assert (K : k < S (required ts)) by (apply (H 0 x); auto).
    assert (T : forall i t, nth_error ts i = Some t -> is_required t = true -> i + k < required ts).
    { intros i t E Q. specialize (H (S i) t E Q). lia. }
    destruct (IH k T) as [Z|(-> & rs & os & -> & F & L & N)].
    + split; [lia|]. exists [x], ts. rewrite Z. split; [reflexivity|]. split; [auto|]. split; [reflexivity|]. exact (required_none ts Z).
    + split; [reflexivity|]. exists (x :: rs), os. split; [reflexivity|]. split; [auto|]. split; [cbn; congruence|exact N].
  - destruct (IH (S k)) as [Z|[Z _]]; [|left; exact Z|discriminate].
    intros i t E Q. specialize (H (S i) t E Q). lia.
Qed.

Lemma required_length : forall ts, required ts <= length ts.
Proof. intro ts. unfold required. induction ts as [|t ts IH]; [reflexivity|]. cbn. destruct (is_required t); cbn; lia. Qed.

Lemma required_app : forall a b, required (a ++ b) = required a + required b.
Proof. intros. unfold required. rewrite filter_app, app_length. reflexivity. Qed.

Lemma required_all : forall rs, Forall (fun t => is_required t = true) rs -> required rs = length rs.
Proof. intros rs F. induction F as [|t rs H _ IH]; [reflexivity|]. rewrite required_cons, H, IH. reflexivity. Qed.

Lemma required_zero : forall ts, Forall (fun t => is_required t = false) ts -> required ts = 0.
Proof. intros rs F. induction F as [|t rs H _ IH]; [reflexivity|]. rewrite required_cons, H, IH. reflexivity. Qed.

Lemma required_not : forall t, is_required t = true -> is_array t = false /\ is_optional t = false.
Proof. intros []; cbn; auto; discriminate. Qed.

Lemma optional_not : forall t, is_optional t = true -> is_array t = false /\ is_required t = false.
Proof. intros []; cbn; auto; discriminate. Qed.

Lemma ordered_bindable : forall ts n, well_ordered ts -> arity ts n -> ~ unbindable ts n.
Proof.
  intros ts n (rs & os & -> & R & O) [A1 A2] (i & t & E & B).
  rewrite required_app, (required_all rs R) in A1. unfold bindable in B.
  destruct (Nat.lt_ge_cases i (length rs)) as [L|L].
  - rewrite nth_error_app1 in E by exact L. rewrite Forall_forall in R. pose proof (R t (nth_error_In _ _ E)) as Q.
    destruct (required_not t Q) as [X Y]. rewrite X, Y in B. lia.
  - rewrite nth_error_app2 in E by exact L. destruct O as [O|(u & -> & U)].
    + rewrite Forall_forall in O. destruct (optional_not t (O t (nth_error_In _ _ E))) as [X _]. rewrite X in B.
      rewrite (O t (nth_error_In _ _ E)) in B. auto.
    + destruct (i - length rs) as [|j] eqn:D; [|destruct j; discriminate]. injection E as <-. rewrite U in B. lia.
Qed.

Lemma ordered_no_overflow : forall ts, well_ordered ts -> ~ after_array ts.
Proof.
  intros ts (rs & os & -> & R & O). induction R as [|t rs H _ IH]; cbn [app].
  - destruct O as [O|(u & -> & U)].
    + intros (l1 & a & l2 & b & l3 & -> & A & _). rewrite Forall_forall in O.
      assert (I : In a (l1 ++ a :: l2 ++ b :: l3)) by (apply in_or_app; right; left; reflexivity).
      destruct (optional_not a (O a I)). congruence.
    + rewrite after_array_cons. cbn. intros [[_ X]|([|] & ? & ? & ? & ? & X & _)]; discriminate.
  - rewrite after_array_cons. destruct (required_not t H) as [X _]. intros [[Y _]|Y]; [congruence|contradiction].
Qed.

(** A signature never panics, in debug builds, exactly if it is in order. *)
Theorem safe_iff_ordered : forall ts,
  (~ after_array ts /\ forall n, accepted true ts n -> ~ unbindable ts n) <-> well_ordered ts.
Proof.
  intro ts. split.
  - intros [NA S]. specialize (S (required ts)). assert (AC : accepted true ts (required ts)).
    { split; [split; [reflexivity|intros _; apply required_length]|exact NA]. }
    specialize (S AC). assert (B : forall i t, nth_error ts i = Some t -> bindable (required ts) i t).
    { intros i t E. unfold bindable. destruct (is_array t) eqn:X; [|destruct (is_optional t) eqn:Y; [exact I|]].
      - destruct (Nat.le_gt_cases i (required ts)) as [L|L]; [exact L|]. exfalso. apply S. exists i, t. split; [exact E|]. unfold bindable. rewrite X. lia.
      - destruct (Nat.lt_ge_cases i (required ts)) as [L|L]; [exact L|]. exfalso. apply S. exists i, t. split; [exact E|]. unfold bindable. rewrite X, Y. lia. }
    assert (F : exists rs os, ts = rs ++ os /\ Forall (fun t => is_required t = true) rs /\
        length rs = required ts /\ forall i t, nth_error os i = Some t -> is_required t = false).
    { destruct (required_first ts 0) as [Z|(_ & H)]; [|exists [], ts; rewrite Z; repeat split; auto; exact (required_none ts Z)|exact H].
      intros i t E Q. specialize (B i t E). unfold bindable in B. destruct (required_not t Q) as [X Y]. rewrite X, Y in B. lia. }
    destruct F as (rs & os & -> & R & L & N). exists rs, os. split; [reflexivity|]. split; [exact R|].
    assert (AR : forall i t, nth_error os i = Some t -> is_array t = true -> i = 0).
    { intros i t E X. specialize (B (length rs + i) t). rewrite nth_error_app2 in B by lia.
      replace (length rs + i - length rs) with i in B by lia. specialize (B E). unfold bindable in B. rewrite X in B. lia. }
    destruct os as [|t os]; [left; constructor|]. destruct (is_array t) eqn:X.
    + right. exists t. split; [|exact X]. destruct os as [|u os]; [reflexivity|]. exfalso.
      destruct (is_array u) eqn:Y; [specialize (AR 1 u eq_refl Y); discriminate|].
      apply NA. exists rs, t, [], u, os. auto.
    + left. apply Forall_forall. intros u I. apply In_nth_error in I as [i E]. pose proof (N i u E) as NR.
      destruct (kinds_exclusive u) as [Q|[Q|Q]]; [congruence|exact Q|]. specialize (AR i u E Q). subst i. injection E as <-. congruence.
  - intro W. split; [exact (ordered_no_overflow ts W)|]. intros n [A _]. exact (ordered_bindable ts n W A).
Qed.

(** ** Commands *)
Section Panic.
  Variable checks : bool.
  Variable w : world.
  Variable ps : plugins.

  Lemma call_no_panic : forall n f t i h e h', call w ps n f t i h <> (Panic e, h').
  Proof.
    intros n f t i h e h' H. destruct (provides_dec ps n f t) as [[md P]|N].
    - rewrite (call_ok _ _ _ _ _ _ md h P) in H. discriminate.
    - destruct (call_err w ps n f t i h N) as [e' E]. rewrite E in H. discriminate.
  Qed.

  Definition calm {A} (m : M A) : Prop := forall h e h', m h <> (Panic e, h').
  Lemma calm_ret : forall A (r : res A), (forall e, r <> Panic e) -> calm (ret r).
  Proof. intros A r H h e h' [= E _]. exact (H e E). Qed.
  Lemma calm_bind : forall A B (m : M A) (f : A -> M B), calm m -> (forall a, calm (f a)) -> calm (mbind m f).
  Proof.
    intros A B m f Hm Hf h e h' H. unfold mbind in H. destruct (m h) as [[a|x|x|] h1] eqn:E; try discriminate.
    - exact (Hf a _ _ _ H).
    - exact (Hm h x h1 E).
  Qed.

  Lemma calm_command_call : forall k n f vs, calm (command_call w ps k n f vs).
  Proof.
    intros k n f vs. assert (T : forall r, calm (ret (text_reply r))) by (intro r; apply calm_ret; intro e; destruct r; discriminate).
    destruct k; cbn [command_call]; unfold call_inline_command, call_block_command; (apply calm_bind; [|exact T]);
      intros h e h'; apply call_no_panic.
  Qed.

  Lemma calm_hooked : forall lv s, calm (hooked (hook_of w ps lv) s).
  Proof.
    intros lv s. unfold hooked. apply calm_bind; [|intro; apply calm_ret; discriminate].
    pose proof (calm_command_call NCurly) as B. pose proof (calm_command_call NSquare) as I. cbn [command_call] in B, I.
    destruct lv; cbn [hook_of]; unfold call_document_hook, call_stmt_hook, call_expr_hook, call_text_hook;
      match goal with |- calm (match ?o with _ => _ end) => destruct o end;
      try (apply calm_ret; discriminate); (apply calm_bind; [|intro; apply calm_ret; discriminate]); [apply B|apply B|apply I|apply I].
  Qed.

  (** A command whose arguments are there: when it panics. *)
  Theorem command_panics : forall k t i im m lm jf f lf args l h ss h1 md,
    command_type k = Some t -> renders_all checks w ps k args h ss h1 -> provides ps m f t md ->
    let ts := map snd (argument_types md) in
    (exists e h', gen checks w ps (AInner k i (ALeaf FModule im (Some m) lm :: ALeaf FIdent jf (Some f) lf :: args) l) h = (Panic e, h')) <->
    (checks = true /\ after_array ts) \/ (accepted checks ts (length ss) /\ unbindable ts (length ss)).
  Proof.
    intros k t i im m lm jf f lf args l h ss h1 md K RA P ts.
    assert (NA : k <> NAngle) by (intros ->; discriminate).
    assert (G : gens checks w ps k args h = (Ok ss, h1)).
    { apply (gens_ok checks w ps k args NA); [|exact RA]. apply Forall_forall. intros c _. apply gen_renders. }
    assert (E : gen checks w ps (AInner k i (ALeaf FModule im (Some m) lm :: ALeaf FIdent jf (Some f) lf :: args) l) h =
            command checks w ps k (ALeaf FModule im (Some m) lm) (ALeaf FIdent jf (Some f) lf) ss h1).
    { rewrite gen_inner. destruct k; try discriminate; unfold mbind; rewrite G; reflexivity. }
    rewrite E. destruct (command_cases checks w ps k t (ALeaf FModule im (Some m) lm) (ALeaf FIdent jf (Some f) lf) ss h1 K)
      as [(im' & m' & lm' & jf' & f' & lf' & md' & E1 & E2 & P' & C)|(N & _)]; [|exfalso; exact (N _ _ _ _ _ _ _ eq_refl eq_refl P)].
    inversion E1; inversion E2; subst. rewrite (provides_det _ _ _ _ _ _ P' P) in C. cbv zeta in C. fold ts in C.
    destruct C as [(A & us & V & ->)|[(A & U & e & ->)|[(C & AA & e & ->)|(A & C & e & ->)]]].
    - split.
      + intros (e & h' & H). exfalso. exact (calm_command_call _ _ _ _ _ _ _ H).
      + intros [[C AA]|[_ (j & u & J & B)]]; exfalso; [exact (accepted_no_overflow checks _ _ A C AA)|exact (unbindable_no_values _ _ _ _ _ J B V)].
    - split; [intros _; right; auto|eauto].
    - split; [intros _; left; auto|eauto].
    - split; [intros (e' & h' & H); discriminate|]. intros [H|[H _]]; exfalso; auto.
  Qed.

  (** ** Whole documents *)
  Hypothesis ordered : forall n f t md, provides ps n f t md -> In t [TInline; TBlock] ->
    well_ordered (map snd (argument_types md)).

  Lemma calm_command : forall k t m f ss, command_type k = Some t -> calm (command checks w ps k m f ss).
  Proof.
    intros k t m f ss K h e h' H.
    destruct (command_cases checks w ps k t m f ss h K) as [(im & mn & lm & jf & fn & lf & md & -> & -> & P & C)|(_ & e' & E)];
      [|rewrite E in H; discriminate]. cbv zeta in C.
    assert (W : well_ordered (map snd (argument_types md))).
    { apply (ordered _ _ _ _ P). destruct k; try discriminate; injection K as <-; cbn; auto. }
    destruct C as [(A & us & V & E)|[(A & (i & u & J) & _)|[(C & AA & _)|(A & C & e' & E)]]].
    - rewrite E in H. exact (calm_command_call _ _ _ _ _ _ _ H).
    - apply (ordered_bindable _ _ W (proj1 A)). exists i, u. exact J.
    - exact (ordered_no_overflow _ W AA).
    - rewrite E in H. discriminate.
  Qed.

  Lemma display_calm : forall a n e, has_values a -> ast_display n a <> Panic e.
  Proof.
    induction a as [k i v l|k i cs l IH] using ast_ind'; intros n e V.
    - destruct v as [s|]; [destruct k; discriminate|]. specialize (V k i l (or_introl eq_refl)).
      destruct V as [<-|[<-|[]]]; discriminate.
    - cbn [ast_display]. match goal with |- context [bind (?F cs) _] => set (go := F) end.
      assert (G : forall e, go cs <> Panic e).
      { assert (V' : Forall has_values cs).
        { apply Forall_forall. intros c I k' i' l' J. apply (V k' i' l'). right. apply in_flat_map. eauto. }
        clear V. induction IH as [|c cs Hc _ IHc]; intros e0; [discriminate|]. inversion V' as [|? ? V1 V2]; subst.
        cbn. fold go. destruct (ast_display (S n) c) as [x|x|x|] eqn:D; cbn; try discriminate.
        - specialize (IHc V2). destruct (go cs) as [y|y|y|]; cbn; try discriminate. specialize (IHc y). congruence.
        - intros [= ->]. exact (Hc _ _ V1 D). }
      destruct (go cs) as [y|y|y|]; cbn; try discriminate. specialize (G y). congruence.
  Qed.

  Lemma calm_gens : forall k cs, Forall has_values cs -> Forall (fun c => has_values c -> calm (gen checks w ps c)) cs ->
    calm (gens checks w ps k cs).
  Proof.
    intros k cs V F. induction F as [|c cs Hc _ IH]; [apply calm_ret; discriminate|]. inversion V as [|? ? V1 V2]; subst.
    rewrite gens_cons. apply calm_bind.
    - apply calm_ret. intros e. pose proof (display_calm c 0) as D. destruct k, c as [[] ? ? ?|[] ? ? ?]; cbn [allowed]; try discriminate;
        match goal with |- context [ast_display ?n ?x] => destruct (ast_display n x) as [y|y|y|] eqn:E end; cbn; try discriminate;
        exfalso; exact (D _ V1 eq_refl).
    - intros _. apply calm_bind; [auto|]. intro x. apply calm_bind; [auto|]. intro. apply calm_ret. discriminate.
  Qed.

  Theorem gen_calm : forall a, has_values a -> calm (gen checks w ps a).
  Proof.
    induction a as [k i v l|k i cs l IH] using ast_ind'; intro V.
    - destruct k; cbn [gen]; try (apply calm_ret; discriminate). apply calm_bind; [apply calm_ret; destruct v; discriminate|].
      intro s. exact (calm_hooked Text s).
    - assert (V' : Forall has_values cs).
      { apply Forall_forall. intros c I k' i' l' J. apply (V k' i' l'). right. apply in_flat_map. eauto. }
      rewrite gen_inner. destruct k.
      + apply calm_bind; [apply calm_gens; assumption|]. intro ss. exact (calm_hooked Document (concat ss)).
      + apply calm_bind; [apply calm_gens; assumption|]. intro ss. exact (calm_hooked Stmt (concat ss)).
      + apply calm_bind; [apply calm_gens; assumption|]. intro ss. exact (calm_hooked Expr (concat ss)).
      + apply calm_ret. discriminate.
      + destruct cs as [|m [|f rest]]; try (apply calm_ret; discriminate). do 2 apply Forall_inv_tail in IH. do 2 apply Forall_inv_tail in V'.
        apply calm_bind; [apply calm_gens; assumption|]. intro ss. exact (calm_command NSquare TInline m f ss eq_refl).
      + destruct cs as [|m [|f rest]]; try (apply calm_ret; discriminate). do 2 apply Forall_inv_tail in IH. do 2 apply Forall_inv_tail in V'.
        apply calm_bind; [apply calm_gens; assumption|]. intro ss. exact (calm_command NCurly TBlock m f ss eq_refl).
  Qed.

  Theorem generate_calm : forall a, has_values a -> calm (generate checks w ps a).
  Proof. intros [[] i cs l|k i v l] V; cbn [generate]; try (apply calm_ret; discriminate). apply gen_calm. exact V. Qed.
End Panic.
