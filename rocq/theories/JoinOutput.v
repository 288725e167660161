(** Code generation does not look at identifiers and locations; the output of two documents, one
    after the other. *)
From Coq Require Import String List NArith Arith Bool Lia.
From Verif Require Import Base Tokens CST SpecTok Graphemes Tokenizer TokenizerProofs SpecCST Parser ParserProofs ParserTotal
  AST TransformError SpecTransform SpecStrip SpecJoin Transform TransformWitness TransformIds Plugin SpecGen Expander ExpanderProofs Codegen
  GenProofs Compile StripProofs Join JoinProofs.
Import ListNotations.

Lemma bare_display : forall a n, ast_display n (bare a) = ast_display n a.
Proof.
  induction a as [k i v l|k i cs l IH] using ast_ind'; intro n; [destruct k; reflexivity|].
  cbn [bare ast_display].
  match goal with |- bind (?f (map bare cs)) _ = bind (?g cs) _ => assert (E : f (map bare cs) = g cs) end.
  { induction IH as [|x xs Hx _ IHx]; [reflexivity|]. cbn [map]. rewrite Hx, IHx. reflexivity. }
  rewrite E. reflexivity.
Qed.

Lemma bare_allowed : forall k c, allowed k (bare c) = allowed k c.
Proof.
  intros k c. pose proof (bare_display c 0) as D.
  destruct c as [[] i cs l|[] i v l]; destruct k; cbn [bare allowed] in *; rewrite ?D; reflexivity.
Qed.

Section Gen.
  Variable checks : bool.
  Variable w : world.
  Variable ps : plugins.

  Lemma mbind_ext : forall A B (m m' : M A) (f f' : A -> M B), (forall h, m h = m' h) -> (forall a h, f a h = f' a h) ->
    forall h, mbind m f h = mbind m' f' h.
  Proof. intros A B m m' f f' H1 H2 h. unfold mbind. rewrite H1. destruct (m' h) as [[] h']; auto. Qed.

  Lemma bare_command : forall k m i args h, command checks w ps k (bare m) (bare i) args h = command checks w ps k m i args h.
  Proof.
    intros k m i args h. destruct m as [km im cm lm|km im vm lm], i as [ki ii ci li|ki ii vi li];
      try destruct km; try destruct ki; reflexivity.
  Qed.

  Lemma bare_gen : forall a h, gen checks w ps (bare a) h = gen checks w ps a h.
  Proof.
    induction a as [k i v l|k i cs l IH] using ast_ind'; intro h; [destruct k; reflexivity|].
    assert (GO : forall cs, Forall (fun c => forall h, gen checks w ps (bare c) h = gen checks w ps c h) cs -> forall h,
      (fix go (cs : list ast) : M (list str) :=
           match cs with
           | [] => ret (Ok [])
           | c :: cs' =>
             do! _ := ret (allowed k c) in
             do! x := gen checks w ps c in
             do! xs := go cs' in
             ret (Ok (x :: xs))
           end) (map bare cs) h =
      (fix go (cs : list ast) : M (list str) :=
           match cs with
           | [] => ret (Ok [])
           | c :: cs' =>
             do! _ := ret (allowed k c) in
             do! x := gen checks w ps c in
             do! xs := go cs' in
             ret (Ok (x :: xs))
           end) cs h).
    { clear. intros cs H. induction H as [|x xs Hx _ IHx]; intro h; [reflexivity|]. cbn [map].
      apply mbind_ext; [intro h'; rewrite bare_allowed; reflexivity|]. intros _ h1.
      apply mbind_ext; [exact Hx|]. intros y h2. apply mbind_ext; [exact IHx|reflexivity]. }
    cbn [bare gen]. destruct k; try (apply mbind_ext; [apply GO; exact IH|reflexivity]); try reflexivity.
    - destruct cs as [|m [|f args]]; try reflexivity. cbn [map].
      inversion IH as [|? ? _ IH1]; subst. inversion IH1 as [|? ? _ IH2]; subst.
      apply mbind_ext; [apply GO; exact IH2|]. intros xs h1. apply bare_command.
    - destruct cs as [|m [|f args]]; try reflexivity. cbn [map].
      inversion IH as [|? ? _ IH1]; subst. inversion IH1 as [|? ? _ IH2]; subst.
      apply mbind_ext; [apply GO; exact IH2|]. intros xs h1. apply bare_command.
  Qed.

  Theorem bare_generate : forall a b, bare a = bare b -> forall h, generate checks w ps a h = generate checks w ps b h.
  Proof.
    intros a b E h. assert (G : forall x, generate checks w ps (bare x) h = generate checks w ps x h).
    { intros [[] i cs l|k i v l]; try reflexivity. exact (bare_gen (AInner NDocument i cs l) h). }
    rewrite <- (G a), <- (G b), E. reflexivity.
  Qed.

  Lemma renders_all_app : forall k xs h ss h1, renders_all checks w ps k xs h ss h1 ->
    forall ys ss' h2, renders_all checks w ps k ys h1 ss' h2 -> renders_all checks w ps k (xs ++ ys) h (ss ++ ss') h2.
  Proof.
    intros k xs h ss h1 H. induction H as [k h|k c cs h s h1 ss h2 HS HR HA IH]; intros ys ss' h3 H'; [exact H'|].
    cbn [app]. econstructor; eauto.
  Qed.

  (** Without a document hook, the output of a document is that of its parts. *)
  Theorem generate_join : document_hook_plugin_name ps = None ->
    forall i xs l j ys m h sa h1 sb h2, generate checks w ps (AInner NDocument i xs l) h = (Ok sa, h1) ->
    generate checks w ps (AInner NDocument j ys m) h1 = (Ok sb, h2) ->
    forall o n, generate checks w ps (AInner NDocument o (xs ++ ys) n) h = (Ok (sa ++ sb), h2).
  Proof.
    intros ND i xs l j ys m h sa h1 sb h2 GA GB o n.
    apply generate_renders in GA as [_ GA], GB as [_ GB]. apply generate_renders. split; [eauto|].
    inversion GA as [|k lv i0 cs l0 h0 ss h3 s h' LV RA PA|]; subst; [|discriminate].
    inversion GB as [|k lv' i0 cs l0 h0 ss' h4 s h' LV' RB PB|]; subst; [|discriminate].
    cbn in LV, LV'. injection LV as <-. injection LV' as <-.
    assert (P : forall x h y h', passes w ps Document x h y h' <-> y = x /\ h' = h).
    { intros x h0 y h'. unfold passes. cbn [hook]. rewrite ND. split; intro Z; [|destruct Z; auto]; auto. }
    apply P in PA as [-> ->]. apply P in PB as [-> ->].
    econstructor; [reflexivity|eapply renders_all_app; eassumption|]. apply P. rewrite concat_app. auto.
  Qed.
End Gen.

(** What has an output has nothing that the expander looks at. *)
Lemma renders_meets : forall checks w ps a h s h', renders checks w ps a h s h' -> meets a = [].
Proof.
  intros checks w ps. induction a as [k i v l|k i cs l IH] using ast_ind'; intros h s h' H.
  - inversion H; subst; reflexivity.
  - assert (L : forall ds k ss h h', Forall (fun a => forall h s h', renders checks w ps a h s h' -> meets a = []) ds ->
        renders_all checks w ps k ds h ss h' -> flat_map meets ds = []).
    { clear. intros ds k ss h h' F. revert ss h. induction F as [|c cs Hc _ IH]; intros ss h RA; [reflexivity|].
      inversion RA as [|k0 c0 cs1 h0 s h1 ss0 h2 S R RA']; subst. cbn. rewrite (Hc _ _ _ R), (IH _ _ RA'). reflexivity. }
    inversion H as [|k0 lv0 i1 cs1 l1 h0 ss h1 s0 h2 EL' RA PA|k0 t0 i1 im mn lm jf fn lf args l1 h0 ss h1 md vs s0 h2 ET' RA P A V C]; subst.
    + destruct k; try discriminate; exact (L _ _ _ _ _ IH RA).
    + do 2 apply Forall_inv_tail in IH. destruct k; try discriminate; exact (L _ _ _ _ _ IH RA).
Qed.

Lemma generate_inside : forall checks w ps a h s h', generate checks w ps a h = (Ok s, h') -> inside a = [].
Proof.
  intros checks w ps a h s h' H. apply generate_renders in H as [(i & cs & l & ->) H]. exact (renders_meets _ _ _ _ _ _ _ H).
Qed.

Lemma run_nothing : forall w ps doc h o h', run w ps doc [] h o h' -> o = Completed /\ h' = h.
Proof. intros w ps doc h o h' H. inversion H. auto. Qed.

Lemma expander_nothing : forall w ps a h, inside a = [] -> expander w ps a h = (Ok a, h).
Proof.
  intros w ps a h Z. destruct (expander w ps a h) as [r k] eqn:EX. destruct (expander_runs _ _ _ _ _ _ EX) as (o & EO & R).
  rewrite Z in R. apply run_nothing in R as [-> ->]. destruct r; try discriminate; try contradiction.
  rewrite (expander_same _ _ _ _ _ _ EX). reflexivity.
Qed.

Lemma compiled : forall seg uuid checks w ps s h r h', compile seg uuid checks w ps s h = (Ok r, h') <->
  exists ts c d es, tokenize_str seg s = Ok ts /\ parse ts = Ok c /\ transform uuid c = Ok (d, es) /\
    generate checks w ps d h = (Ok r, h').
Proof.
  intros seg uuid checks w ps s h r h'. unfold compile, mbind, ret. split.
  - intro H. destruct (tokenize_str seg s) as [ts| | |]; try discriminate. destruct (parse ts) as [c| | |] eqn:EP; try discriminate.
    destruct (transform uuid c) as [[d es]| | |] eqn:ET; try discriminate.
    destruct (expander w ps d h) as [[d'| | |] k1] eqn:EX; try discriminate.
    pose proof (expander_same _ _ _ _ _ _ EX) as ->. exists ts, c, d, es. repeat split; try assumption.
    rewrite (expander_nothing w ps d h (generate_inside _ _ _ _ _ _ _ H)) in EX. injection EX as <-. exact H.
  - intros (ts & c & d & es & -> & -> & -> & H). rewrite (expander_nothing w ps d h (generate_inside _ _ _ _ _ _ _ H)). exact H.
Qed.

Theorem paragraphs_output : forall seg, seg_laws seg -> forall uuid checks w ps a b ta ea aa esa h sa h1 sb h2,
  (forall a', a <> a' ++ [13%N]) -> ~ In 0%N a ->
  tokenize_str seg (a ++ [10; 10]%N) = Ok (ta ++ [ea]) -> countk opening ta = countk closing ta -> pending ta = false ->
  (exists t, In t ta /\ tk t <> TkNewLine) ->
  to_ast seg uuid (a ++ [10; 10]%N) = Ok (aa, esa) -> filter (of_kind unclosed_kinds) esa = [] ->
  document_hook_plugin_name ps = None ->
  compile seg uuid checks w ps (a ++ [10; 10]%N) h = (Ok sa, h1) ->
  compile seg uuid checks w ps b h1 = (Ok sb, h2) ->
  compile seg uuid checks w ps (a ++ [10; 10]%N ++ b) h = (Ok (sa ++ sb), h2).
Proof.
  intros seg L uuid checks w ps a b ta ea aa esa h sa h1 sb h2 CR NZ EA CN PN HT TA UA ND CA CB.
  assert (TAST : forall s r, to_ast seg uuid s = Ok r -> exists ts c, tokenize_str seg s = Ok ts /\ parse ts = Ok c /\ transform uuid c = Ok r).
  { intros s r H. unfold to_ast in H. apply bind_ok in H as (c & H1 & H). apply bind_ok in H1 as (ts & H0 & H1).
    exists ts, c. auto. }
  apply TAST in TA as (ts & ca & E1 & PA & TA). rewrite EA in E1. injection E1 as <-.
  apply compiled in CA as (ts & ca' & aa' & esa' & E1 & E2 & E3 & GA). rewrite EA in E1. injection E1 as <-.
  rewrite PA in E2. injection E2 as <-. rewrite TA in E3. injection E3 as <- <-.
  apply compiled in CB as (tb & cb & ab & esb & EB & PB & TB & GB).
  destruct (paragraphs_understood seg L uuid a b ta ea ca aa esa tb cb ab esb) as (ts & c & d & es & ET & EP & TD & BD & _); try assumption.
  apply compiled. exists ts, c, d, (esa ++ es). repeat split; try assumption.
  apply generate_renders in GA as X. destruct X as [(i & xs & l & ->) _].
  apply generate_renders in GB as X. destruct X as [(j & ys & m & ->) _]. cbn [parts] in BD.
  rewrite (bare_generate checks w ps d (AInner NDocument i (xs ++ ys) l) BD). eapply generate_join; eassumption.
Qed.
