(** Code generation gives up exactly as SpecRefuse.v says. *)
From Coq Require Import String List NArith ZArith Arith Bool Lia.
From Verif Require Import Base Tokens AST SpecTransform Plugin Framing Codegen SpecGen SpecFraming SpecRefuse PluginProofs FramingProofs FramingProofs2
  TransformIds GenProofs.
Import ListNotations.

(** ** Numerals *)
Lemma decimal_zero : forall v, decimal v 0 -> Forall (eq 48%N) v.
Proof.
  intros v D. remember 0%N as n eqn:E. induction D as [d L|v n d D IH L]; subst.
  - constructor; [reflexivity|constructor].
  - apply Forall_app. assert (n = 0 /\ d = 0)%N as [-> ->] by lia. split; [apply IH; reflexivity|constructor; [reflexivity|constructor]].
Qed.
Lemma decimal_nonempty : forall v n, decimal v n -> v <> [].
Proof. intros v n []; [discriminate|]. intro E. apply app_eq_nil in E as [_ E]. discriminate E. Qed.
Lemma decimal_det : forall v n, decimal v n -> (forall r, v = 48%N :: r -> r = []) -> forall v', decimal v' n -> (forall r, v' = 48%N :: r -> r = []) -> v = v'.
Proof.
  assert (Z : forall v n d, decimal v n -> (forall r, v ++ [48 + d]%N = 48%N :: r -> r = []) -> n <> 0%N).
  { intros v n d D C ->. pose proof (decimal_nonempty _ _ D) as NE. apply decimal_zero in D. destruct v as [|x v]; [congruence|].
    inversion D; subst. specialize (C (v ++ [48 + d]%N) eq_refl). apply app_eq_nil in C as [_ C]. discriminate C. }
  intros v n D. induction D as [d L|v n d D IH L]; intros C v' D' C'.
  - inversion D' as [d' L' E|v0 n0 d' D0 L' E]; subst; [reflexivity|]. exfalso. apply (Z _ _ _ D0 C'). lia.
  - remember (10 * n + d)%N as x eqn:X. destruct D' as [d' L'|v0 n0 d' D0 L'].
    + exfalso. apply (Z _ _ _ D C). lia.
    + assert (n0 = n /\ d' = d)%N as [-> ->] by lia. f_equal. apply IH; [|exact D0|].
      * intros r ->. exfalso. specialize (C (r ++ [48 + d]%N) eq_refl). apply app_eq_nil in C as [_ C]. discriminate C.
      * intros r ->. exfalso. specialize (C' (r ++ [48 + d]%N) eq_refl). apply app_eq_nil in C' as [_ C']. discriminate C'.
Qed.
Lemma dec_go_canonical : forall fuel n r, (n < 2 ^ N.of_nat fuel)%N -> dec_go (S fuel) n = 48%N :: r -> r = [] /\ n = 0%N.
Proof.
  induction fuel as [|fuel IH]; intros n r L H.
  - cbn in L. assert (n = 0%N) by lia. subst n. cbn in H. injection H as <-. auto.
  - remember (S fuel) as f. cbn [dec_go] in H. destruct (n <? 10)%N eqn:E.
    + assert (X : (48 + n = 48)%N) by congruence. split; [congruence|lia].
    + exfalso. apply N.ltb_ge in E. subst f.
      assert (B : (n / 10 < 2 ^ N.of_nat fuel)%N).
      { rewrite Nat2N.inj_succ, N.pow_succ_r' in L. apply N.div_lt_upper_bound; lia. }
      destruct (dec_go (S fuel) (n / 10)) as [|x v] eqn:V.
      * apply (decimal_nonempty _ _ (dec_go_decimal fuel _ B)). exact V.
      * cbn [app] in H. injection H as -> H. apply IH in V as [_ V]; [|exact B].
        pose proof (N.div_mod n 10 ltac:(lia)). pose proof (N.mod_lt n 10 ltac:(lia)). lia.
Qed.
Lemma dec_numeral : forall d n, numeral d n <-> d = dec (N.of_nat n).
Proof.
  assert (C : forall n r, dec n = 48%N :: r -> r = []) by (intros n r H; exact (proj1 (dec_go_canonical _ _ _ (size_nat_bound n) H))).
  intros d n. split.
  - intros [D E]. eapply decimal_det; [exact D|exact E|apply dec_decimal|apply C].
  - intros ->. split; [apply dec_decimal|apply C].
Qed.

(** ** The number of arguments *)
Lemma most_det : forall ts a b, most ts a -> most ts b -> a = b.
Proof.
  intros ts a b [[E ->]|(l1 & t & l2 & -> & T & N & L)] [[E' ->]|(l1' & t' & l2' & E2 & T' & N' & L')].
  - reflexivity.
  - exfalso. rewrite E2, existsb_app in E. cbn in E. rewrite T', orb_true_r in E. discriminate E.
  - exfalso. rewrite existsb_app in E'. cbn in E'. rewrite T, orb_true_r in E'. discriminate E'.
  - assert (l2 = l2'); [|subst; lia]. clear L L'. revert l1' E2. induction l1 as [|x l1 IH]; intros [|x' l1'] F; cbn in F; inversion F; subst.
    + reflexivity.
    + rewrite existsb_app in N. cbn in N. rewrite T', orb_true_r in N. discriminate.
    + rewrite existsb_app in N'. cbn in N'. rewrite T, orb_true_r in N'. discriminate.
    + eauto.
Qed.
Lemma counter_exact : forall checks ts, ~ (checks = true /\ after_array ts) ->
  exists b, arg_counter checks ts = Ok (required ts, b) /\ match b with Fin m => most ts m | UMax => forall m, ~ most ts m end.
Proof.
  intros checks ts H. unfold arg_counter. destruct checks.
  - destruct (counter_true ts 0 0) as [A _]. assert (N : ~ after_array ts) by tauto. rewrite A by exact N. eexists. split; [reflexivity|].
    destruct (existsb is_array ts) eqn:E; [|left; auto].
    intros m [[F _]|(l1 & t & l2 & -> & T & F & L)]; [congruence|]. apply N.
    destruct l2 as [|t' l3]; [discriminate L|]. exists l1, t, [], t', l3. cbn [app]. repeat split; auto.
    cbn in F. apply orb_false_iff in F. tauto.
  - destruct (counter_false ts 0 (Fin 0)) as (b & A & W & B). exists b. split; [exact A|]. destruct (existsb is_array ts) eqn:E.
    + destruct (last_array _ E) as (l1 & t & l2 & F & G & N). rewrite (W l1 t l2 F G N). destruct l2 as [|x r].
      * intros m [[X _]|(k1 & u & k2 & F' & T & N' & L)]; [congruence|].
        assert (X : most ts m) by (right; exists k1, u, k2; auto).
        rewrite F in F'. assert (k2 = []).
        { clear - F' G N' L T. revert k1 F'. induction l1 as [|y l1 IH]; intros [|y' k1] F'; cbn in F'; inversion F'; subst; eauto.
          - destruct k1; discriminate.
          - rewrite existsb_app in N'. cbn in N'. rewrite G, orb_true_r in N'. discriminate. }
        subst. discriminate L.
      * right. exists l1, t, (x :: r). auto.
    + rewrite (B eq_refl 0 eq_refl). left. auto.
Qed.

Lemma classify_module : forall a, (exists i m l, a = ALeaf FModule i (Some m) l) \/ (exists i l, a = ALeaf FModule i None l) \/
  (forall i v l, a <> ALeaf FModule i v l).
Proof. intros [k i cs l|[] i [v|] l]; eauto 6; right; right; discriminate. Qed.
Lemma classify_ident : forall a, (exists i m l, a = ALeaf FIdent i (Some m) l) \/ (exists i l, a = ALeaf FIdent i None l) \/
  (forall i v l, a <> ALeaf FIdent i v l).
Proof. intros [k i cs l|[] i [v|] l]; eauto 6; right; right; discriminate. Qed.

Section Refuse.
  Variable checks : bool.
  Variable w : world.
  Variable ps : plugins.
  Notation gen := (gen checks w ps).

  Lemma mbind_err : forall A B (m : M A) (f : A -> M B) h e h', mbind m f h = (Err e, h') <->
    m h = (Err e, h') \/ exists a h1, m h = (Ok a, h1) /\ f a h1 = (Err e, h').
  Proof.
    intros A B m f h e h'. unfold mbind. destruct (m h) as [[a|x|x|] h1]; split.
    - intro H. right. eauto.
    - intros [H|(a' & h1' & E & H)]; [discriminate H|]. injection E as <- <-. exact H.
    - intro H. left. congruence.
    - intros [H|(a' & h1' & E & H)]; [congruence|discriminate E].
    - discriminate.
    - intros [H|(a' & h1' & E & H)]; congruence.
    - discriminate.
    - intros [H|(a' & h1' & E & H)]; congruence.
  Qed.
  Lemma ret_err : forall A (r : res A) h e h', ret r h = (Err e, h') <-> r = Err e /\ h' = h.
  Proof. intros. unfold ret. split; [intros [= -> ->]|intros [-> ->]]; auto. Qed.

  (** Every call succeeds or is refused. *)
  Lemma call_text_err : forall n f t vs h m h',
    mbind (call w ps n f t (IValues vs)) (fun r => ret (text_reply r)) h = (Err m, h') <-> uncalled w ps n f t vs h m h'.
  Proof.
    intros n f t vs h m h'. destruct (hm_get str_eqb (name_to_plugin ps) n) as [p|] eqn:E.
    - assert (HP : has_plugin ps n) by (apply plugin_iff; congruence).
      destruct (provides_dec ps n f t) as [[md P]|N].
      + unfold mbind. rewrite (call_ok _ _ _ _ _ _ md h P). unfold ret. split.
        * intro H. destruct (w h _) eqn:R; cbn in H; try discriminate H; injection H as <- <-; apply (Un_failed w ps n f t vs h md P); congruence.
        * intro U. inversion U as [NP|HP' N|md' P' NR]; subst; [contradiction|exfalso; exact (N md P)|].
          rewrite (provides_det _ _ _ _ _ _ P P') in *. destruct (w h _) eqn:R; [exfalso; eapply NR; reflexivity|reflexivity..].
      + destruct (unprovided ps n f t HP N) as (p' & E' & F). unfold mbind, call, mbind, ret. rewrite E'. cbn [ok_or_else]. rewrite F. cbn [ok_or_else]. split.
        * intros [= <- <-]. apply Un_command; assumption.
        * intro U. inversion U as [NP|HP' N'|md' P' NR]; subst; [contradiction|reflexivity|exfalso; exact (N _ P')].
    - assert (HP : ~ has_plugin ps n) by (rewrite plugin_iff; congruence).
      unfold mbind, call, mbind, ret. rewrite E. cbn [ok_or_else]. split.
      + intros [= <- <-]. apply Un_plugin; assumption.
      + intro U. inversion U as [NP|HP' N'|md' P' NR]; subst; [reflexivity|contradiction|]. exfalso. apply HP. exact (provides_plugin _ _ _ _ _ P').
  Qed.

  Lemma hook_some_err : forall (m : M str) s h e h',
    mbind (mbind m (fun r => ret (Ok (Some r)))) (fun r => ret (Ok (match r with Some x => x | None => s end))) h = (Err e, h')
    <-> m h = (Err e, h').
  Proof.
    intros m s h s' h'. unfold mbind, ret. destruct (m h) as [[a|e|e|] h1]; cbn; split; intro H; inversion H; reflexivity.
  Qed.
  Lemma hooked_err : forall lv s h m h', hooked (hook_of w ps lv) s h = (Err m, h') <-> unpassed w ps lv s h m h'.
  Proof.
    intros lv s h m h'. unfold unpassed.
    assert (N : forall f0 t0, mbind (ret (Ok None)) (fun r => ret (Ok (match r with Some x => x | None => s end))) h = (Err m, h')
       <-> exists n f t, (@None str, f0 : str, t0 : ptype) = (Some n, f, t) /\ uncalled w ps n f t [VText s] h m h').
    { intros f0 t0. unfold mbind, ret. split; [discriminate|]. intros (n & f & t & E & _). discriminate E. }
    assert (S : forall n0 f0 t0, uncalled w ps n0 f0 t0 [VText s] h m h' <-> exists n f t, (Some n0, f0, t0) = (Some n, f, t) /\ uncalled w ps n f t [VText s] h m h').
    { intros n0 f0 t0. split; [eauto 6|]. intros (n & f & t & E & H). injection E as -> -> ->. exact H. }
    destruct lv; cbn [hook_of hook]; unfold hooked.
    - unfold call_document_hook. destruct (document_hook_plugin_name ps); [|apply N]. rewrite hook_some_err, <- S. apply call_text_err.
    - unfold call_stmt_hook. destruct (stmt_hook_plugin_name ps); [|apply N]. rewrite hook_some_err, <- S. apply call_text_err.
    - unfold call_expr_hook. destruct (expr_hook_plugin_name ps); [|apply N]. rewrite hook_some_err, <- S. apply call_text_err.
    - unfold call_text_hook. destruct (text_hook_plugin_name ps); [|apply N]. rewrite hook_some_err, <- S. apply call_text_err.
  Qed.

  Lemma command_call_err : forall k t n f vs h m h', command_type k = Some t ->
    (command_call w ps k n f vs h = (Err m, h') <-> uncalled w ps n f t vs h m h').
  Proof. intros k t n f vs h m h' K. destruct k; try discriminate; injection K as <-; apply call_text_err. Qed.

  Definition called_off (t : ptype) (module ident : ast) (ss : list str) (h : list event) (e : str) (h' : list event) : Prop :=
    exists im m lm jf f lf md vs, module = ALeaf FModule im (Some m) lm /\ ident = ALeaf FIdent jf (Some f) lf /\
      provides ps m f t md /\ accepted checks (map snd (argument_types md)) (length ss) /\
      values_for (map snd (argument_types md)) ss vs /\ uncalled w ps m f t vs h e h'.

  (** The objections exclude each other and a call. *)
  Lemma few_not_accepted : forall ts n, n < required ts -> ~ accepted checks ts n.
  Proof. intros ts n L [A _]. unfold arity in A. lia. Qed.
  Lemma many_not_accepted : forall ts n x, most ts x -> x < n -> ~ (checks = true /\ after_array ts) -> ~ accepted checks ts n.
  Proof.
    intros ts n x M L N A. destruct (counter_spec checks ts) as [(mn & mx & E & _ & S)|(C & AA & _)]; [|apply N; auto].
    apply S in A. destruct A as [_ A]. destruct (counter_exact checks ts N) as (b & E' & B). rewrite E in E'. injection E' as -> ->.
    destruct b as [y|]; [|exact (B x M)]. rewrite (most_det _ _ _ B M) in A. cbn in A. apply Nat.ltb_ge in A. lia.
  Qed.

  Lemma command_err : forall k t module ident ss h e h', command_type k = Some t ->
    (command checks w ps k module ident ss h = (Err e, h') <->
     (objection checks ps t module ident (length ss) e /\ h' = h) \/ called_off t module ident ss h e h').
  Proof.
    intros k t module ident ss h e h' K.
    assert (TY : match k with NCurly => TBlock | _ => TInline end = t) by (destruct k; try discriminate; injection K as <-; reflexivity).
    assert (CC : forall m f args, (match k with NCurly => call_block_command w ps m f args | _ => call_inline_command w ps m f args end) = command_call w ps k m f args)
      by (intros; destruct k; reflexivity).
    unfold command. rewrite TY, mbind_err. setoid_rewrite ret_err. setoid_rewrite ret_ok.
    destruct (classify_module module) as [(im & m & lm & ->)|[(im & lm & ->)|N]].
    2: { split.
         - intros [[[= <-] ->]|(a & h1 & [E _] & _)]; [|discriminate E]. left. split; [eapply Ob_no_module; reflexivity|reflexivity].
         - intros [[O ->]|(im' & m' & lm' & jf & f & lf & md & vs & E & _)]; [|discriminate E]. left. split; [|reflexivity].
           inversion O as [N| | | | | | | ]; try discriminate; [|reflexivity]. exfalso. eapply N; reflexivity. }
    2: { assert (X : match module with ALeaf FModule _ (Some v) _ => Ok v | ALeaf FModule _ None _ => Err (lit "Module name must be a string")
                     | _ => Err (lit "Module must be a module") end = @Err str (lit "Module must be a module")).
         { destruct module as [|[]]; try reflexivity. exfalso. eapply N; reflexivity. }
         rewrite X. split.
         - intros [[[= <-] ->]|(a & h1 & [E _] & _)]; [|discriminate E]. left. split; [apply Ob_module; exact N|reflexivity].
         - intros [[O ->]|(im' & m' & lm' & jf & f & lf & md & vs & E & _)]; [|exfalso; exact (N _ _ _ E)]. left. split; [|reflexivity].
           inversion O; subst; try reflexivity; exfalso; eapply N; reflexivity. }
    assert (P1 : forall (Q : str -> list event -> Prop), ((@Ok str m = Err e /\ h' = h) \/ (exists a h1, (Ok m = Ok a /\ h1 = h) /\ Q a h1)) <-> Q m h).
    { intro Q. split; [intros [[X _]|(a & h1 & [[= <-] ->] & X)]; [discriminate X|exact X]|]. intro X. right. eauto. }
    rewrite P1. clear P1. rewrite mbind_err. setoid_rewrite ret_err. setoid_rewrite ret_ok.
    destruct (classify_ident ident) as [(jf & f & lf & ->)|[(jf & lf & ->)|N]].
    2: { split.
         - intros [[[= <-] ->]|(a & h1 & [E _] & _)]; [|discriminate E]. left. split; [eapply Ob_no_ident; reflexivity|reflexivity].
         - intros [[O ->]|(im' & m' & lm' & jf' & f & lf' & md & vs & _ & E & _)]; [|discriminate E]. left. split; [|reflexivity].
           inversion O as [N| |? ? ? ? N| | | | | ]; try discriminate; [| |reflexivity]; exfalso; eapply N; reflexivity. }
    2: { assert (X : match ident with ALeaf FIdent _ (Some v) _ => Ok v | ALeaf FIdent _ None _ => Err (lit "Identifier name must be a string")
                     | _ => Err (lit "Identifier must be an identifier") end = @Err str (lit "Identifier must be an identifier")).
         { destruct ident as [|[]]; try reflexivity. exfalso. eapply N; reflexivity. }
         rewrite X. split.
         - intros [[[= <-] ->]|(a & h1 & [E _] & _)]; [|discriminate E]. left. split; [eapply Ob_ident; [reflexivity|exact N]|reflexivity].
         - intros [[O ->]|(im' & m' & lm' & jf & f & lf & md & vs & _ & E & _)]; [|exfalso; exact (N _ _ _ E)]. left. split; [|reflexivity].
           inversion O as [M| | | | | | | ]; subst; try discriminate; try reflexivity; exfalso; [eapply M|eapply N..]; reflexivity. }
    assert (P1 : forall (Q : str -> list event -> Prop), ((@Ok str f = Err e /\ h' = h) \/ (exists a h1, (Ok f = Ok a /\ h1 = h) /\ Q a h1)) <-> Q f h).
    { intro Q. split; [intros [[X _]|(a & h1 & [[= <-] ->] & X)]; [discriminate X|exact X]|]. intro X. right. eauto. }
    rewrite P1. clear P1. rewrite mbind_err. setoid_rewrite ret_err. setoid_rewrite ret_ok.
    (* from here on the module and the identifier are named *)
    assert (OB : forall e0, objection checks ps t (ALeaf FModule im (Some m) lm) (ALeaf FIdent jf (Some f) lf) (length ss) e0 <->
      (~ has_plugin ps m /\ e0 = lit "plugin not found: " ++ m) \/
      (has_plugin ps m /\ (forall md, ~ provides ps m f t md) /\ e0 = lit "command not found: " ++ f) \/
      (exists md, provides ps m f t md /\ ~ (checks = true /\ after_array (map snd (argument_types md))) /\
        ((length ss < required (map snd (argument_types md)) /\
          e0 = f ++ lit " requires at least " ++ dec (N.of_nat (required (map snd (argument_types md)))) ++ lit " arguments") \/
         (required (map snd (argument_types md)) <= length ss /\ exists x, most (map snd (argument_types md)) x /\ x < length ss /\
          e0 = f ++ lit " requires at most " ++ dec (N.of_nat x) ++ lit " arguments")))).
    { intro e0. split.
      - intro O. inversion O as [M|? ? M|? ? ? M N|? ? ? ? ? M N|? ? ? ? ? ? M N|? ? ? ? ? ? M N|? ? ? ? ? ? ? ? M N P Q L D|? ? ? ? ? ? ? ? ? M N P Q R S L D];
          subst; try discriminate; try (exfalso; eapply M; reflexivity); try (exfalso; eapply N; reflexivity);
          inversion M; inversion N; subst; [auto|auto| |].
        + right. right. exists md. split; [exact P|]. split; [exact Q|]. left. apply dec_numeral in D. subst. auto.
        + right. right. exists md. split; [exact P|]. split; [exact Q|]. right. split; [exact R|]. exists x. apply dec_numeral in D. subst. auto.
      - intros [[N ->]|[(HP & N & ->)|(md & P & Q & [[L ->]|(R & x & S & L & ->)])]].
        + eapply Ob_plugin; [reflexivity|reflexivity|exact N].
        + eapply Ob_command; [reflexivity|reflexivity|exact HP|exact N].
        + eapply Ob_few; [reflexivity|reflexivity|exact P|exact Q|exact L|apply dec_numeral; reflexivity].
        + eapply Ob_many; [reflexivity|reflexivity|exact P|exact Q|exact R|exact S|exact L|apply dec_numeral; reflexivity]. }
    rewrite OB. clear OB.
    assert (CO : called_off t (ALeaf FModule im (Some m) lm) (ALeaf FIdent jf (Some f) lf) ss h e h' <->
      exists md vs, provides ps m f t md /\ accepted checks (map snd (argument_types md)) (length ss) /\
        values_for (map snd (argument_types md)) ss vs /\ uncalled w ps m f t vs h e h').
    { split.
      - intros (a & b & c & d & x & y & md & vs & E & F & R). inversion E; inversion F; subst. eauto.
      - intros (md & vs & R). unfold called_off. eauto 12. }
    rewrite CO. clear CO.
    destruct (provides_dec ps m f t) as [[md P]|N].
    2: { unfold argument_types_of. destruct (hm_get str_eqb (name_to_plugin ps) m) as [p|] eqn:E; cbn [ok_or_else bind].
         - assert (HP : has_plugin ps m) by (apply plugin_iff; congruence). destruct (unprovided _ _ _ _ HP N) as (p' & E' & F).
           rewrite E in E'. injection E' as <-. rewrite F. cbn [ok_or_else bind]. split.
           + intros [[[= <-] ->]|(a & h1 & [X _] & _)]; [|discriminate X]. left. auto 10.
           + intros [[[[NP _]|[(_ & _ & ->)|(md & P & _)]] ->]|(md & vs & P & _)]; [contradiction|auto|exfalso; exact (N _ P)..].
         - assert (HP : ~ has_plugin ps m) by (rewrite plugin_iff; congruence). split.
           + intros [[[= <-] ->]|(a & h1 & [X _] & _)]; [|discriminate X]. left. auto 10.
           + intros [[[[_ ->]|[(HP' & _)|(md & P & _)]] ->]|(md & vs & P & _)]; [auto|contradiction|exfalso; exact (N _ P)..]. }
    rewrite (argument_types_ok _ _ _ _ _ P).
    assert (P1 : forall (Q : list (str * ptype) -> list event -> Prop), ((Ok (argument_types md) = Err e /\ h' = h) \/ (exists a h1, (Ok (argument_types md) = Ok a /\ h1 = h) /\ Q a h1)) <-> Q (argument_types md) h).
    { intro Q. split; [intros [[X _]|(a & h1 & [[= <-] ->] & X)]; [discriminate X|exact X]|]. intro X. right. eauto. }
    rewrite P1. clear P1.
    assert (U : forall md', provides ps m f t md' -> md' = md) by (intros md' P'; exact (provides_det _ _ _ _ _ _ P' P)).
    set (ts := map snd (argument_types md)) in *. unfold mbind at 1, ret at 1.
    destruct (counter_spec checks ts) as [(mn & mx & C & NC & AC)|(C & AA & x & E)].
    2: { rewrite E. split; [discriminate|].
         intros [[[[NP _]|[(_ & N & _)|(md' & P' & Q & _)]] _]|(md' & vs & P' & A & _)].
         - exfalso. apply NP. exact (provides_plugin _ _ _ _ _ P).
         - exfalso. exact (N _ P).
         - rewrite (U _ P') in Q. exfalso. apply Q. auto.
         - rewrite (U _ P') in A. exfalso. exact (accepted_no_overflow _ _ _ A C AA). }
    assert (NCA : ~ (checks = true /\ after_array ts)) by tauto.
    destruct (counter_exact checks ts NCA) as (b & C' & B). rewrite C. rewrite C in C'. injection C' as -> ->.
    destruct (Nat.ltb (length ss) (required ts)) eqn:L1.
    { apply Nat.ltb_lt in L1. rewrite ret_err. split.
      - intros [[= <-] ->]. left. split; [|reflexivity]. right. right. exists md. split; [exact P|]. split; [exact NCA|]. left. auto.
      - intros [[[[NP _]|[(_ & N & _)|(md' & P' & Q & [[L ->]|(R & _)])]] ->]|(md' & vs & P' & A & _)].
        + exfalso. apply NP. exact (provides_plugin _ _ _ _ _ P).
        + exfalso. exact (N _ P).
        + rewrite (U _ P'). auto.
        + rewrite (U _ P') in R. fold ts in R. lia.
        + rewrite (U _ P') in A. exfalso. exact (few_not_accepted _ _ L1 A). }
    apply Nat.ltb_ge in L1. destruct (exceeds (length ss) b) eqn:L2.
    { destruct b as [x|]; [|discriminate L2]. cbn in L2. apply Nat.ltb_lt in L2. cbn [bound_text]. rewrite ret_err. split.
      - intros [[= <-] ->]. left. split; [|reflexivity]. right. right. exists md. split; [exact P|]. split; [exact NCA|]. right.
        split; [exact L1|]. exists x. auto.
      - intros [[[[NP _]|[(_ & N & _)|(md' & P' & Q & [[L _]|(_ & y & Y & _ & ->)])]] ->]|(md' & vs & P' & A & _)].
        + exfalso. apply NP. exact (provides_plugin _ _ _ _ _ P).
        + exfalso. exact (N _ P).
        + rewrite (U _ P') in L. fold ts in L. lia.
        + rewrite (U _ P') in Y. rewrite (most_det _ _ _ Y B). auto.
        + rewrite (U _ P') in A. exfalso. exact (many_not_accepted _ _ _ B L2 NCA A). }
    assert (AT : accepted checks ts (length ss)) by (apply AC; split; [apply Nat.ltb_ge; exact L1|exact L2]).
    assert (NO : forall e0, ~ ((~ has_plugin ps m /\ e0 = lit "plugin not found: " ++ m) \/
      (has_plugin ps m /\ (forall md, ~ provides ps m f t md) /\ e0 = lit "command not found: " ++ f) \/
      (exists md, provides ps m f t md /\ ~ (checks = true /\ after_array (map snd (argument_types md))) /\
        ((length ss < required (map snd (argument_types md)) /\
          e0 = f ++ lit " requires at least " ++ dec (N.of_nat (required (map snd (argument_types md)))) ++ lit " arguments") \/
         (required (map snd (argument_types md)) <= length ss /\ exists x, most (map snd (argument_types md)) x /\ x < length ss /\
          e0 = f ++ lit " requires at most " ++ dec (N.of_nat x) ++ lit " arguments"))))).
    { intros e0 [[NP _]|[(_ & N & _)|(md' & P' & Q & [[L _]|(_ & y & Y & L & _)])]].
      + apply NP. exact (provides_plugin _ _ _ _ _ P).
      + exact (N _ P).
      + rewrite (U _ P') in L. fold ts in L. lia.
      + rewrite (U _ P') in Y. exact (many_not_accepted _ _ _ Y L NCA AT). }
    unfold mbind, ret at 1. destruct (bind_spec ts 0 ss) as [(_ & us & E & V)|(NB & x & E)]; rewrite E.
    - rewrite CC, (command_call_err k t m f us h e h' K). split.
      + intro X. right. exists md, us. auto.
      + intros [[O _]|(md' & vs & P' & A & V' & X)]; [exfalso; exact (NO _ O)|]. rewrite (U _ P') in V'.
        rewrite (values_det _ _ _ _ V V'). exact X.
    - split; [discriminate|]. intros [[O _]|(md' & vs & P' & A & V' & X)]; [exfalso; exact (NO _ O)|]. rewrite (U _ P') in V'.
      destruct NB as (i & u & NI & NB). exfalso. exact (unbindable_no_values _ _ _ _ _ NI NB V').
  Qed.

  (** ** The rendered *)
  Lemma display_no_err : forall a n e, ast_display n a <> Err e.
  Proof.
    induction a as [k i v l|k i cs l IH] using ast_ind'; intros n e; [destruct k, v; discriminate|]. cbn [ast_display].
    match goal with |- context [(?go cs)] => set (g := go) end.
    assert (G : forall e, g cs <> Err e).
    { induction IH as [|c cs Hc _ IHc]; intros e0; [discriminate|].
      change (g (c :: cs)) with (let! x := ast_display (S n) c in let! y := g cs in Ok (x ++ y)). 
      destruct (ast_display (S n) c) eqn:X; cbn [bind]; try discriminate; [|exfalso; exact (Hc _ _ X)].
      destruct (g cs) eqn:Y; cbn [bind]; try discriminate. exfalso. exact (IHc _ eq_refl). }
    destruct (g cs) eqn:Y; cbn [bind]; try discriminate. exfalso. exact (G _ eq_refl).
  Qed.

  Lemma allowed_err : forall k c m, k <> NAngle -> (allowed k c = Err m <->
    (exists i ds l, c = AInner NAngle i ds l) /\ m = lit "Angle must be expanded by the macro expander." \/
    (~ stands_in c k /\ (forall i ds l, c <> AInner NAngle i ds l) /\ exists s, ast_display 0 c = Ok s /\
       m = lit (node_name k) ++ lit " cannot contain the following node" ++ [10%N] ++ s)).
  Proof.
    intros k c m NA.
    assert (G : (exists i ds l, c = AInner NAngle i ds l) /\ allowed k c = Err (lit "Angle must be expanded by the macro expander.") \/
      (forall i ds l, c <> AInner NAngle i ds l) /\ (stands_in c k /\ allowed k c = Ok tt \/ ~ stands_in c k /\
         allowed k c = let! s := ast_display 0 c in Err (lit (node_name k) ++ lit " cannot contain the following node" ++ [10%N] ++ s))).
    { destruct c as [kc i cs l|kc i v l].
      - destruct kc; try (right; split; [discriminate|]; destruct k; try congruence; cbn [allowed stands_in]; (left; split; [exact I || reflexivity|reflexivity]) || (right; split; [intro X; exact X || discriminate X|reflexivity])).
        left. split; [eauto|]. destruct k; try reflexivity.
      - right. split; [discriminate|]. destruct k; try congruence; destruct kc; cbn [allowed stands_in]; (left; split; [exact I || reflexivity|reflexivity]) || (right; split; [intro X; exact X || discriminate X|reflexivity]). }
    destruct G as [[A ->]|[N [[S ->]|[S ->]]]].
    - split; [intros [= <-]; auto|]. intros [[_ ->]|(_ & N & _)]; [reflexivity|]. destruct A as (i & ds & l & ->). exfalso. eapply N; reflexivity.
    - split; [discriminate|]. intros [[(i & ds & l & ->) _]|(N' & _)]; [exfalso; eapply N; reflexivity|contradiction].
    - destruct (ast_display 0 c) as [s|x|x|] eqn:D; cbn [bind].
      + split; [intros [= <-]; right; eauto|]. intros [[(i & ds & l & ->) _]|(_ & _ & s' & [= <-] & ->)]; [exfalso; eapply N; reflexivity|reflexivity].
      + exfalso. exact (display_no_err _ _ _ D).
      + split; [discriminate|]. intros [[(i & ds & l & ->) _]|(_ & _ & s' & X & _)]; [exfalso; eapply N; reflexivity|discriminate X].
      + split; [discriminate|]. intros [[(i & ds & l & ->) _]|(_ & _ & s' & X & _)]; [exfalso; eapply N; reflexivity|discriminate X].
  Qed.

  Notation gens := (gens checks w ps).
  Lemma gens_err : forall k cs, k <> NAngle ->
    Forall (fun c => forall k', stands_in c k' -> forall h m h', gen c h = (Err m, h') <-> refuses checks w ps c h m h') cs ->
    forall h m h', gens k cs h = (Err m, h') <-> refuses_one checks w ps k cs h m h'.
  Proof.
    intros k cs NA F. induction F as [|c cs Hc _ IH]; intros h m h'.
    - change (gens k []) with (ret (Ok (@nil str))). split; [discriminate|]. intro H. inversion H.
    - rewrite gens_cons, mbind_err, ret_err, (allowed_err k c m NA). split.
      + intros [[[[(i & ds & l & ->) ->]|(N & NN & s & D & ->)] ->]|([] & h1 & A & H)].
        * apply Ro_angle.
        * apply Ro_misplaced; assumption.
        * apply ret_ok in A as [A ->]. apply (allowed_ok k c NA) in A. apply mbind_err in H as [H|(x & h1 & G & H)].
          -- apply Ro_here; [exact A|]. apply (Hc k A). exact H.
          -- apply mbind_err in H as [H|(xs & h2 & _ & H)]; [|discriminate H]. eapply Ro_later; [exact A|apply gen_renders; exact G|apply IH; exact H].
      + intro H. inversion H as [k0 i ds l cs0 h0|k0 c0 cs0 h0 s N NN D|k0 c0 cs0 h0 m0 h1 S R|k0 c0 cs0 h0 s h1 m0 h2 S G R]; subst.
        * left. split; [left; eauto|reflexivity].
        * left. split; [right; eauto|reflexivity].
        * right. exists tt, h. split; [apply ret_ok; split; [apply allowed_ok; assumption|reflexivity]|]. apply mbind_err. left. apply (Hc k S). exact R.
        * right. exists tt, h. split; [apply ret_ok; split; [apply allowed_ok; assumption|reflexivity]|]. apply mbind_err. right. exists s, h1.
          split; [apply gen_renders; exact G|]. apply mbind_err. left. apply IH. exact R.
  Qed.

  Theorem gen_refuses : forall a k', stands_in a k' \/ (exists i cs l, a = AInner NDocument i cs l) ->
    forall h m h', gen a h = (Err m, h') <-> refuses checks w ps a h m h'.
  Proof.
    induction a as [k i v l|k i cs l IH] using ast_ind'; intros k' S h m h'.
    - assert (k = FText) as ->.
      { destruct S as [S|(? & ? & ? & E)]; [|discriminate E]. destruct k, k'; cbn in S; reflexivity || contradiction. }
      cbn [Codegen.gen]. destruct v as [s|].
      + change (mbind (ret (ok_or (Some s) "No value found")) (fun s0 => hooked (call_text_hook w ps) s0) h) with (hooked (hook_of w ps Text) s h).
        rewrite hooked_err. split; [intro H; constructor; exact H|]. intro H. inversion H; subst. assumption.
      + split; [intros [= <- <-]; constructor|]. intro H. inversion H; subst. reflexivity.
    - assert (IH' : Forall (fun c => forall k', stands_in c k' -> forall h m h', gen c h = (Err m, h') <-> refuses checks w ps c h m h') cs).
      { eapply Forall_impl; [|exact IH]. intros c Hc k0 S0. apply (Hc k0). left. exact S0. }
      assert (GO : forall ds, Forall (fun c => forall h s h', gen c h = (Ok s, h') <-> renders checks w ps c h s h') ds)
        by (intro ds; apply Forall_forall; intros; apply gen_renders).
      rewrite gen_inner.
      assert (LV : forall lv, level_of k = Some lv ->
        (mbind (gens k cs) (fun rs => hooked (hook_of w ps lv) (concat rs)) h = (Err m, h') <-> refuses checks w ps (AInner k i cs l) h m h')).
      { intros lv EL. assert (NA : k <> NAngle) by (intros ->; discriminate). assert (NC : forall t, command_type k <> Some t) by (intros t E; destruct k; discriminate).
        rewrite mbind_err, (gens_err k cs NA IH'). split.
        - intros [H|(ss & h1 & G & H)]; [eapply Rf_part; eassumption|]. apply (gens_ok checks w ps k cs NA (GO cs)) in G. apply hooked_err in H.
          eapply Rf_hook; eassumption.
        - intro H. inversion H; subst; try (exfalso; eapply NC; eassumption); [left; assumption|].
          right. do 2 eexists. split; [apply (gens_ok checks w ps k cs NA (GO cs)); eassumption|].
          apply hooked_err. match goal with E : level_of k = Some ?x |- _ => replace lv with x by congruence end. assumption. }
      assert (CM : forall t, command_type k = Some t ->
        (match cs with
         | [] => ret (Err (match k with NCurly => lit "Curly must contain module" | _ => lit "Square must contain module and identifier" end))
         | _ :: [] => ret (Err (match k with NCurly => lit "Curly must contain identifier" | _ => lit "Square must contain module and identifier" end))
         | m :: i :: rest => mbind (gens k rest) (fun args => command checks w ps k m i args)
         end h = (Err m, h') <-> refuses checks w ps (AInner k i cs l) h m h')).
      { intros t ET. assert (NA : k <> NAngle) by (intros ->; discriminate). assert (NL : forall lv, level_of k <> Some lv) by (intros lv E; destruct k; discriminate).
        destruct cs as [|a [|b rest]].
        - rewrite ret_err. split.
          + intros [[= <-] ->]. replace (match k with NCurly => lit "Curly must contain module" | _ => lit "Square must contain module and identifier" end) with (lit (nameless k false)) by (destruct k; reflexivity).
            eapply Rf_empty. exact ET.
          + intro H. inversion H; subst; try (exfalso; eapply NL; eassumption). split; [|reflexivity]. destruct k; reflexivity.
        - rewrite ret_err. split.
          + intros [[= <-] ->]. replace (match k with NCurly => lit "Curly must contain identifier" | _ => lit "Square must contain module and identifier" end) with (lit (nameless k true)) by (destruct k; reflexivity).
            eapply Rf_single. exact ET.
          + intro H. inversion H; subst; try (exfalso; eapply NL; eassumption). split; [|reflexivity]. destruct k; reflexivity.
        - do 2 apply Forall_inv_tail in IH'. rewrite mbind_err, (gens_err k rest NA IH'). split.
          + intros [H|(ss & h1 & G & H)]; [eapply Rf_argument; eassumption|]. apply (gens_ok checks w ps k rest NA (GO rest)) in G.
            apply (command_err k t a b ss h1 m h' ET) in H as [[O ->]|(im & n & lm & jf & f & lf & md & vs & -> & -> & P & A & V & U)].
            * eapply Rf_command; eassumption.
            * eapply Rf_call; eassumption.
          + intro H. inversion H; subst; try (exfalso; eapply NL; eassumption); [left; assumption|right..].
            * do 2 eexists. split; [apply (gens_ok checks w ps k rest NA (GO rest)); eassumption|]. apply (command_err k t a b ss _ m _ ET).
              left. split; [|reflexivity]. match goal with E : command_type k = Some ?x |- _ => match x with t => fail 1 | _ => replace t with x by congruence end end. assumption.
            * do 2 eexists. split; [apply (gens_ok checks w ps k rest NA (GO rest)); eassumption|]. eapply command_err; [eassumption|].
              right. unfold called_off. do 8 eexists. repeat (split; [eassumption || reflexivity|]). eassumption. }
      destruct k.
      + exact (LV Document eq_refl).
      + exact (LV Stmt eq_refl).
      + exact (LV Expr eq_refl).
      + exfalso. destruct S as [S|(? & ? & ? & E)]; [destruct k'; cbn in S; exact S|discriminate E].
      + exact (CM TInline eq_refl).
      + exact (CM TBlock eq_refl).
  Qed.

  Theorem generate_refuses : forall a h m h', generate checks w ps a h = (Err m, h') <->
    ((forall i cs l, a <> AInner NDocument i cs l) /\ m = lit "Document must be a document" /\ h' = h) \/
    ((exists i cs l, a = AInner NDocument i cs l) /\ refuses checks w ps a h m h').
  Proof.
    intros a h m h'.
    assert (D : (exists i cs l, a = AInner NDocument i cs l) \/ (forall i cs l, a <> AInner NDocument i cs l) /\ generate checks w ps a = ret (Err (lit "Document must be a document"))).
    { destruct a as [[] i cs l|]; [left; eauto|right; split; [discriminate|reflexivity]..]. }
    destruct D as [D|[D ->]].
    - destruct D as (i & cs & l & ->). cbn [generate]. rewrite (gen_refuses _ NDocument) by (right; eauto). split; [eauto 6|].
      intros [(N & _)|[_ H]]; [exfalso; eapply N; reflexivity|exact H].
    - rewrite ret_err. split; [intros [[= <-] ->]; auto|]. intros [(_ & -> & ->)|[(i & cs & l & ->) _]]; [auto|exfalso; eapply D; reflexivity].
  Qed.

  (** ** Which node is to blame *)
  Definition rendered (a : ast) : list ast :=
    match a with
    | AInner (NSquare | NCurly) _ cs _ => skipn 2 cs
    | AInner _ _ cs _ => cs
    | ALeaf _ _ _ _ => []
    end.
  Inductive cause : ast -> str -> Prop :=
  | Ca_missing : forall i l, cause (ALeaf FText i None l) (lit "No value found")
  | Ca_empty : forall k t i l b, command_type k = Some t -> cause (AInner k i [] l) (lit (nameless k b))
  | Ca_single : forall k t i a l b, command_type k = Some t -> cause (AInner k i [a] l) (lit (nameless k b))
  | Ca_command : forall k t i a b args l m, command_type k = Some t -> objection checks ps t a b (length args) m ->
      cause (AInner k i (a :: b :: args) l) m
  | Ca_angle : forall a i ds l, In (AInner NAngle i ds l) (rendered a) -> cause a (lit "Angle must be expanded by the macro expander.")
  | Ca_misplaced : forall k i cs l c s, In c (rendered (AInner k i cs l)) -> ~ stands_in c k -> (forall i ds l, c <> AInner NAngle i ds l) ->
      ast_display 0 c = Ok s -> cause (AInner k i cs l) (lit (node_name k) ++ lit " cannot contain the following node" ++ [10%N] ++ s)
  | Ca_call : forall a, cause a (lit "call failed")
  | Ca_hook : forall a lv n f t m, hook ps lv = (Some n, f, t) -> (forall md, ~ provides ps n f t md) -> cause a m.

  Scheme refuses_ind2 := Minimality for refuses Sort Prop with refuses_one_ind2 := Minimality for refuses_one Sort Prop.

  Lemma renders_all_length : forall k cs h ss h', renders_all checks w ps k cs h ss h' -> length ss = length cs.
  Proof. intros k cs h ss h' R. induction R; cbn; congruence. Qed.

  Lemma unpassed_cause : forall a lv s h m h', unpassed w ps lv s h m h' -> cause a m.
  Proof.
    intros a lv s h m h' (n & f & t & H & U). inversion U; subst.
    - eapply Ca_hook; [exact H|]. intros md P. eauto using provides_plugin.
    - eapply Ca_hook; [exact H|assumption].
    - apply Ca_call.
  Qed.

  Lemma refuses_cause : forall a h m h', refuses checks w ps a h m h' -> exists x, In x (ast_nodes a) /\ cause x m.
  Proof.
    assert (SELF : forall a, In a (ast_nodes a)) by (intros []; left; reflexivity).
    assert (UP : forall k i cs l c x, In c cs -> In x (ast_nodes c) -> In x (ast_nodes (AInner k i cs l))).
    { intros k i cs l c x I J. right. apply in_flat_map. eauto. }
    apply (refuses_ind2 checks w ps (fun a h m h' => exists x, In x (ast_nodes a) /\ cause x m)
      (fun k cs h m h' => (forall i l, rendered (AInner k i cs l) = cs \/ exists t, command_type k = Some t) /\
         (forall a, incl cs (rendered a) -> (exists i ds l, a = AInner k i ds l) -> cause a m) \/ exists c x, In c cs /\ In x (ast_nodes c) /\ cause x m)).
    - intros i l h. eexists. split; [apply SELF|constructor].
    - intros i s l h m h' U. eexists. split; [apply SELF|]. eapply unpassed_cause. exact U.
    - intros k lv i cs l h m h' EL _ [[_ C]|(c & x & I & J & C)].
      + eexists. split; [apply SELF|]. apply C; [|eauto]. destruct k; try discriminate; intros y Y; exact Y.
      + exists x. split; [eapply UP; eassumption|exact C].
    - intros k lv i cs l h ss h1 m h' EL _ U. eexists. split; [apply SELF|]. eapply unpassed_cause. exact U.
    - intros k t i l h ET. eexists. split; [apply SELF|]. eapply Ca_empty. exact ET.
    - intros k t i a l h ET. eexists. split; [apply SELF|]. eapply Ca_single. exact ET.
    - intros k t i a b args l h m h' ET _ [[_ C]|(c & x & I & J & C)].
      + eexists. split; [apply SELF|]. apply C; [|eauto]. destruct k; try discriminate; intros y Y; exact Y.
      + exists x. split; [eapply UP; [|eassumption]; right; right; exact I|exact C].
    - intros k t i a b args l h ss m h' ET R O. eexists. split; [apply SELF|]. eapply Ca_command; [exact ET|].
      rewrite <- (renders_all_length _ _ _ _ _ R). exact O.
    - intros k t i im n lm jf f lf args l h ss h1 md vs m h' ET R P A V U. eexists. split; [apply SELF|].
      inversion U as [N|HP N|md' P' N]; subst; [exfalso; apply N; exact (provides_plugin _ _ _ _ _ P)|exfalso; exact (N _ P)|apply Ca_call].
    - intros k i ds l cs h. left. split; [intros; destruct k; cbn; eauto|]. intros a I _. eapply Ca_angle. apply I. left. reflexivity.
    - intros k c cs h s N NN D. left. split; [intros; destruct k; cbn; eauto|]. intros a I (i & ds & l & ->). eapply Ca_misplaced; [apply I; left; reflexivity|assumption..].
    - intros k c cs h m h' S _ (x & J & C). right. exists c, x. split; [left; reflexivity|auto].
    - intros k c cs h s h1 m h' S R _ [[E C]|(d & x & I & J & C)].
      + left. split; [intros; destruct k; cbn; eauto|]. intros a I E'. apply C; [|exact E']. intros y Y. apply I. right. exact Y.
      + right. exists d, x. split; [right; exact I|auto].
  Qed.

  (** ** Documents without errors *)
  Variable word_kind : alkind -> Prop.
  Definition ag_node (x : ast) : Prop :=
    ag_document word_kind x \/ ag_stmt word_kind x \/ ag_expr word_kind x \/ ag_command word_kind x \/
    exists k i s l, x = ALeaf k i (Some s) l.
  Lemma ag_below : forall a, (ag_item word_kind a \/ ag_expr word_kind a \/ exists k, ag_head word_kind k a) -> forall x, In x (ast_nodes a) -> ag_node x.
  Proof.
    induction a as [k i v l|k i cs l IH] using ast_ind'; intros A x I.
    - destruct I as [<-|[]]. do 4 right. destruct A as [A|[A|(k' & A)]]; inversion A; subst; eauto. match goal with X : ag_command _ (ALeaf _ _ _ _) |- _ => inversion X end.
    - rewrite Forall_forall in IH. destruct I as [<-|I].
      + destruct A as [A|[A|(k' & A)]]; [inversion A; subst; unfold ag_node; auto|unfold ag_node; auto|inversion A; subst; unfold ag_node; auto].
      + apply in_flat_map in I as (c & Ic & I). apply (IH c Ic); [|exact I].
        assert (G : ag_command word_kind (AInner k i cs l) -> ag_item word_kind c \/ ag_expr word_kind c \/ exists k, ag_head word_kind k c).
        { intro X. inversion X as [k0 i0 m f args l0 K M F E]; subst. destruct Ic as [<-|[<-|Ic]]; [eauto|eauto|]. right. left. rewrite Forall_forall in E. auto. }
        destruct A as [A|[A|(k' & A)]]; [inversion A; subst; auto| |inversion A; subst; auto].
        inversion A as [i0 xs l0 N F]; subst. left. rewrite Forall_forall in F. auto.
  Qed.
  Lemma ag_nodes : forall a, ag_document word_kind a -> forall x, In x (ast_nodes a) -> ag_node x.
  Proof.
    intros a D x I. pose proof D as D0. destruct D as (i & xs & l & -> & F). destruct I as [<-|I]; [left; exact D0|].
    apply in_flat_map in I as (c & Ic & I). rewrite Forall_forall in F. pose proof (F c Ic) as S. pose proof S as S0. destruct S as (j & ys & k & -> & G).
    destruct I as [<-|I]; [right; left; exact S0|]. apply in_flat_map in I as (d & Id & I). rewrite Forall_forall in G. exact (ag_below d (or_intror (or_introl (G d Id))) x I).
  Qed.

  Theorem document_blame : forall a h m h', ag_document word_kind a -> (forall i cs l, ~ In (AInner NAngle i cs l) (ast_nodes a)) ->
    (forall lv n f t, hook ps lv = (Some n, f, t) -> exists md, provides ps n f t md) ->
    refuses checks w ps a h m h' -> blame checks ps a m.
  Proof.
    intros a h m h' D NA HK R. destruct (refuses_cause _ _ _ _ R) as (x & I & C). pose proof (ag_nodes a D x I) as G.
    assert (CH : forall k i cs l c, x = AInner k i cs l -> In c cs -> In c (ast_nodes a)).
    { intros k i cs l c -> Ic. clear - I Ic. revert I. induction a as [kb ib vb lb|kb ib ds lb IH] using ast_ind'; intro I; [destruct I as [I|[]]; discriminate I|].
      right. destruct I as [I|I]; apply in_flat_map.
      - inversion I; subst. exists c. split; [exact Ic|]. destruct c; left; reflexivity.
      - apply in_flat_map in I as (d & Id & I). rewrite Forall_forall in IH. exists d. auto. }
    assert (PC : forall c, In c (rendered x) -> In c (ast_nodes a)).
    { intros c Ic. destruct x as [k i cs l|]; [|destruct Ic]. apply (CH k i cs l c eq_refl).
      destruct k; cbn in Ic; try exact Ic; destruct cs as [|? [|? ?]]; cbn in Ic; try contradiction; right; right; exact Ic. }
    inversion C; subst.
    - exfalso. destruct G as [G|[G|[G|[G|G]]]]; [destruct G as (? & ? & ? & E & _)|destruct G as (? & ? & ? & E & _)|inversion G|inversion G|destruct G as (? & ? & ? & ? & E)]; discriminate.
    - exfalso. destruct G as [G|[G|[G|[G|G]]]]; [destruct G as (? & ? & ? & E & _)|destruct G as (? & ? & ? & E & _)|inversion G; subst|inversion G|destruct G as (? & ? & ? & ? & E)]; try discriminate; try (subst; discriminate);
        inversion E; subst; discriminate.
    - exfalso. destruct G as [G|[G|[G|[G|G]]]]; [destruct G as (? & ? & ? & E & _)|destruct G as (? & ? & ? & E & _)|inversion G; subst|inversion G|destruct G as (? & ? & ? & ? & E)]; try discriminate; try (subst; discriminate);
        inversion E; subst; discriminate.
    - destruct G as [G|[G|[G|[G|G]]]]; [destruct G as (? & ? & ? & E & _); inversion E; subst; discriminate|destruct G as (? & ? & ? & E & _); inversion E; subst; discriminate|inversion G; subst; discriminate| |destruct G as (? & ? & ? & ? & E); discriminate].
      inversion G as [k0 i0 m0 f0 args0 l0 K M F E]; subst.
      inversion M as [k1 i1 s1 l1|k1 i1 cs1 l1]; subst; [|exfalso; eapply NA, CH; [reflexivity|left; reflexivity]].
      inversion F as [k2 i2 s2 l2|k2 i2 cs2 l2]; subst; [|exfalso; eapply NA, CH; [reflexivity|right; left; reflexivity]].
      eapply Bl_command; eassumption.
    - exfalso. eapply NA. apply PC. eassumption.
    - rename H into Ic, H0 into S, H1 into NN, H2 into DI.
      destruct G as [G|[G|[G|[G|G]]]].
      + destruct G as (j & xs & lx & E & F). inversion E; subst. rewrite Forall_forall in F. destruct (F c Ic) as (? & ? & ? & -> & _). exfalso. apply S. reflexivity.
      + destruct G as (j & xs & lx & E & F). inversion E; subst. rewrite Forall_forall in F. destruct (F c Ic). exfalso. apply S. exact Logic.I.
      + inversion G as [j xs lx N F]; subst. cbn [rendered] in *. rewrite Forall_forall in F. pose proof (F c Ic) as A. inversion A as [kc ic sc lc W|c0 A0]; subst.
        * eapply Bl_word; [apply PC; exact Ic| |exact DI]. intros ->. apply S. exact Logic.I.
        * inversion A0 as [kk ii mm ff aa ll K]; subst. exfalso. destruct K as [<-|[<-|[<-|[]]]]; [eapply NN; reflexivity|apply S; exact Logic.I..].
      + inversion G as [k0 i0 m0 f0 args0 l0 K M F E]; subst. rewrite Forall_forall in E.
        assert (X : ag_expr word_kind c).
        { apply E. destruct K as [<-|[<-|[<-|[]]]]; [|exact Ic|exact Ic]. exfalso. exact (NA _ _ _ I). }
        destruct X. exfalso. apply S. exact Logic.I.
      + destruct G as (? & ? & ? & ? & E). discriminate E.
    - apply Bl_call.
    - match goal with X : hook ps _ = _ |- _ => destruct (HK _ _ _ _ X) as (md & P) end. exfalso. match goal with X : forall md, ~ _ |- _ => exact (X _ P) end.
  Qed.
End Refuse.
