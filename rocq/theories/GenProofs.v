(** Code generation does what [renders] says. *)
From Coq Require Import String List NArith Bool Arith Lia.
From Verif Require Import Base Tokens AST SpecTransform TransformIds Plugin Codegen SpecGen PluginProofs.
Import ListNotations.

Lemma mbind_ok : forall A B (m : M A) (f : A -> M B) h b h', mbind m f h = (Ok b, h') <->
  exists a h1, m h = (Ok a, h1) /\ f a h1 = (Ok b, h').
Proof.
  intros A B m f h b h'. unfold mbind. destruct (m h) as [[a|e|e|] h1]; split; intro H;
    try discriminate; try (destruct H as (a' & h2 & E & _); discriminate).
  - exists a, h1. auto.
  - destruct H as (a' & h2 & E & F). injection E as <- <-. exact F.
Qed.

Lemma ret_ok : forall A (r : res A) h a h', ret r h = (Ok a, h') <-> r = Ok a /\ h' = h.
Proof. intros. unfold ret. split; [intros [= -> ->]|intros [-> ->]]; auto. Qed.

Section Gen.
  Variable checks : bool.
  Variable w : world.
  Variable ps : plugins.

  Notation gen := (gen checks w ps).

  Definition gens (k : akind) : list ast -> M (list str) :=
    fix go (cs : list ast) : M (list str) :=
      match cs with
      | [] => ret (Ok [])
      | c :: cs' =>
        mbind (ret (allowed k c)) (fun _ => mbind (gen c) (fun x => mbind (go cs') (fun xs => ret (Ok (x :: xs)))))
      end.
  Lemma gens_cons : forall k c cs, gens k (c :: cs) =
    mbind (ret (allowed k c)) (fun _ => mbind (gen c) (fun x => mbind (gens k cs) (fun xs => ret (Ok (x :: xs))))).
  Proof. reflexivity. Qed.

  Lemma gen_inner : forall k i cs l, gen (AInner k i cs l) =
    match k with
    | NDocument => mbind (gens k cs) (fun rs => hooked (call_document_hook w ps) (concat rs))
    | NStmt => mbind (gens k cs) (fun rs => hooked (call_stmt_hook w ps) (concat rs))
    | NExpr => mbind (gens k cs) (fun rs => hooked (call_expr_hook w ps) (concat rs))
    | NSquare | NCurly =>
      match cs with
      | [] => ret (Err (match k with NCurly => lit "Curly must contain module" | _ => lit "Square must contain module and identifier" end))
      | _ :: [] => ret (Err (match k with NCurly => lit "Curly must contain identifier" | _ => lit "Square must contain module and identifier" end))
      | m :: i :: rest => mbind (gens k rest) (fun args => command checks w ps k m i args)
      end
    | NAngle => ret (Err (lit "Angle must be expanded by the macro expander."))
    end.
  Proof. destruct k; reflexivity. Qed.

  Lemma allowed_ok : forall k c, k <> NAngle -> (allowed k c = Ok tt <-> stands_in c k).
  Proof.
    intros k c N. destruct c as [kc i cs l|kc i v l].
    - destruct k, kc; try congruence; cbn [allowed stands_in]; (split; intro H; try reflexivity; try exact I; try discriminate; try contradiction);
        try (destruct (ast_display _ _); discriminate).
    - destruct k, kc; try congruence; cbn [allowed stands_in]; (split; intro H; try reflexivity; try exact I; try discriminate; try contradiction);
        try (destruct (ast_display _ _); discriminate).
  Qed.

  Lemma calls_inline : forall n f vs h s h',
    call_inline_command w ps n f vs h = (Ok s, h') <-> calls w ps n f TInline vs h s h'.
  Proof.
    intros n f vs h s h'. unfold call_inline_command, calls, mbind. destruct (provides_dec ps n f TInline) as [[md P]|N].
    - rewrite (call_ok _ _ _ _ _ _ md h P). unfold ret. split.
      + intro H. destruct (w h _) eqn:E; inversion H; subst. exists md. auto.
      + intros (md' & P' & E & ->). rewrite (provides_det _ _ _ _ _ _ P P'), E. reflexivity.
    - destruct (call_err w ps n f TInline (IValues vs) h N) as [e ->]. split; [discriminate|].
      intros (md & P & _). exfalso. exact (N md P).
  Qed.

  Lemma calls_block : forall n f vs h s h',
    call_block_command w ps n f vs h = (Ok s, h') <-> calls w ps n f TBlock vs h s h'.
  Proof.
    intros n f vs h s h'. unfold call_block_command, calls, mbind. destruct (provides_dec ps n f TBlock) as [[md P]|N].
    - rewrite (call_ok _ _ _ _ _ _ md h P). unfold ret. split.
      + intro H. destruct (w h _) eqn:E; inversion H; subst. exists md. auto.
      + intros (md' & P' & E & ->). rewrite (provides_det _ _ _ _ _ _ P P'), E. reflexivity.
    - destruct (call_err w ps n f TBlock (IValues vs) h N) as [e ->]. split; [discriminate|].
      intros (md & P & _). exfalso. exact (N md P).
  Qed.

  Definition hook_of (lv : level) : list value -> M (option str) :=
    match lv with
    | Document => call_document_hook w ps | Stmt => call_stmt_hook w ps
    | Expr => call_expr_hook w ps | Text => call_text_hook w ps
    end.

  Lemma hook_some : forall (m : M str) s h s' h',
    mbind (mbind m (fun r => ret (Ok (Some r)))) (fun r => ret (Ok (match r with Some x => x | None => s end))) h = (Ok s', h')
    <-> m h = (Ok s', h').
  Proof.
    intros m s h s' h'. unfold mbind, ret. destruct (m h) as [[a|e|e|] h1]; cbn; split; intro H; inversion H; reflexivity.
  Qed.

  Lemma hooked_ok : forall lv s h s' h', hooked (hook_of lv) s h = (Ok s', h') <-> passes w ps lv s h s' h'.
  Proof.
    intros lv s h s' h'. unfold passes.
    assert (N : forall h, mbind (ret (Ok None)) (fun r => ret (Ok (match r with Some x => x | None => s end))) h = (Ok s', h')
                       <-> s' = s /\ h' = h).
    { intro h0. unfold mbind, ret. split; [intros [= <- <-]|intros [-> ->]]; auto. }
    destruct lv; cbn [hook_of hook]; unfold hooked.
    - unfold call_document_hook. destruct (document_hook_plugin_name ps); [|apply N]. rewrite hook_some. apply calls_block.
    - unfold call_stmt_hook. destruct (stmt_hook_plugin_name ps); [|apply N]. rewrite hook_some. apply calls_block.
    - unfold call_expr_hook. destruct (expr_hook_plugin_name ps); [|apply N]. rewrite hook_some. apply calls_inline.
    - unfold call_text_hook. destruct (text_hook_plugin_name ps); [|apply N]. rewrite hook_some. apply calls_inline.
  Qed.

  Definition command_call (k : akind) : str -> str -> list value -> M str :=
    match k with NCurly => call_block_command w ps | _ => call_inline_command w ps end.

  (** Everything a command does after its arguments. *)
  Lemma command_cases : forall k t module ident ss h, command_type k = Some t ->
    (exists im m lm jf f lf md, module = ALeaf FModule im (Some m) lm /\ ident = ALeaf FIdent jf (Some f) lf /\
       provides ps m f t md /\
       let ts := map snd (argument_types md) in
       (accepted checks ts (length ss) /\ exists vs, values_for ts ss vs /\
          command checks w ps k module ident ss h = command_call k m f vs h) \/
       (accepted checks ts (length ss) /\ (exists i u, nth_error ts i = Some u /\ ~ bindable (length ss) i u) /\
          exists e, command checks w ps k module ident ss h = (Panic e, h)) \/
       (checks = true /\ after_array ts /\ exists e, command checks w ps k module ident ss h = (Panic e, h)) \/
       (~ accepted checks ts (length ss) /\ ~ (checks = true /\ after_array ts) /\
          exists e, command checks w ps k module ident ss h = (Err e, h))) \/
    ((forall im m lm jf f lf md, module = ALeaf FModule im (Some m) lm -> ident = ALeaf FIdent jf (Some f) lf ->
        ~ provides ps m f t md) /\ exists e, command checks w ps k module ident ss h = (Err e, h)).
  Proof.
    intros k t module ident ss h K.
    assert (TY : match k with NCurly => TBlock | _ => TInline end = t) by (destruct k; try discriminate; injection K as <-; reflexivity).
    unfold command, mbind, ret. rewrite TY.
    destruct module as [mk im mcs lm|mk im mv lm].
    { right. split; [discriminate|cbn; eauto]. }
    destruct mk; try (right; split; [discriminate|cbn; eauto]; fail). destruct mv as [m|]; [|right; split; [discriminate|cbn; eauto]].
    destruct ident as [ik jf ics lf|ik jf iv lf].
    { right. split; [discriminate|cbn; eauto]. }
    destruct ik; try (right; split; [discriminate|cbn; eauto]; fail). destruct iv as [f|]; [|right; split; [discriminate|cbn; eauto]].
    destruct (provides_dec ps m f t) as [[md P]|N].
    2: { right. split; [|destruct (argument_types_err ps m f t N) as [e ->]; eauto].
         intros im' m' lm' jf' f' lf' md E F. inversion E; inversion F; subst. apply N. }
    left. exists im, m, lm, jf, f, lf, md. split; [reflexivity|]. split; [reflexivity|]. split; [exact P|].
    rewrite (argument_types_ok _ _ _ _ _ P). set (ts := map snd (argument_types md)). cbv zeta.
    destruct (counter_spec checks ts) as [(min & max & -> & NC & AC)|(C & AA & e & ->)]; [|right; right; left; eauto].
    specialize (AC (length ss)).
    destruct (Nat.ltb (length ss) min) eqn:E1.
    { right. right. right. split; [rewrite AC; intros [X _]; discriminate|]. split; [tauto|eauto]. }
    destruct (exceeds (length ss) max) eqn:E2.
    { right. right. right. split; [rewrite AC; intros [_ X]; discriminate|]. split; [tauto|eauto]. }
    destruct (bind_spec ts 0 ss) as [(B & us & E & L & V)|(NB & e & E)]; rewrite E.
    - left. split; [apply AC; auto|]. exists us. split; [split; assumption|]. destruct k; reflexivity.
    - right. left. split; [apply AC; auto|]. split; [exact NB|eauto].
  Qed.

  Lemma command_call_ok : forall k t n f vs h s h', command_type k = Some t ->
    (command_call k n f vs h = (Ok s, h') <-> calls w ps n f t vs h s h').
  Proof.
    intros k t n f vs h s h' K. destruct k; try discriminate; injection K as <-; [apply calls_inline|apply calls_block].
  Qed.

  Lemma unbindable_no_values : forall ts ss i u vs, nth_error ts i = Some u -> ~ bindable (length ss) i u -> ~ values_for ts ss vs.
  Proof.
    intros ts ss i u vs E N [L V]. destruct (nth_error vs i) as [v|] eqn:F.
    - apply N. exact (value_bindable _ _ _ _ (V i u v E F)).
    - apply nth_error_None in F. assert (i < length ts) by (apply nth_error_Some; congruence). lia.
  Qed.

  Lemma accepted_no_overflow : forall ts n, accepted checks ts n -> checks = true -> ~ after_array ts.
  Proof. intros ts n [_ A] ->. exact A. Qed.

  Lemma command_ok : forall k t module ident ss h s h', command_type k = Some t ->
    (command checks w ps k module ident ss h = (Ok s, h') <->
     exists im m lm jf f lf md vs, module = ALeaf FModule im (Some m) lm /\ ident = ALeaf FIdent jf (Some f) lf /\
       provides ps m f t md /\ accepted checks (map snd (argument_types md)) (length ss) /\
       values_for (map snd (argument_types md)) ss vs /\ calls w ps m f t vs h s h').
  Proof.
    intros k t module ident ss h s h' K.
    destruct (command_cases k t module ident ss h K) as [(im & m & lm & jf & f & lf & md & -> & -> & P & C)|(N & e & ->)].
    2: { split; [discriminate|]. intros (im & m & lm & jf & f & lf & md & vs & E & F & P & _). exfalso. exact (N _ _ _ _ _ _ _ E F P). }
    cbv zeta in C. assert (X : forall im' m' lm' jf' f' lf' md', ALeaf FModule im (Some m) lm = ALeaf FModule im' (Some m') lm' ->
        ALeaf FIdent jf (Some f) lf = ALeaf FIdent jf' (Some f') lf' -> provides ps m' f' t md' -> md' = md /\ m' = m /\ f' = f).
    { intros im' m' lm' jf' f' lf' md' E F P'. inversion E; inversion F; subst. split; [|auto]. exact (provides_det _ _ _ _ _ _ P' P). }
    destruct C as [(A & us & V & ->)|[(A & (i & u & NI & NB) & e & ->)|[(C & AA & e & ->)|(A & C & e & ->)]]].
    - rewrite (command_call_ok k t m f us h s h' K). split.
      + intro H. exists im, m, lm, jf, f, lf, md, us. repeat (split; [eassumption || reflexivity|]); eassumption.
      + intros (im' & m' & lm' & jf' & f' & lf' & md' & vs & E & F & P' & A' & V' & H).
        destruct (X _ _ _ _ _ _ _ E F P') as (-> & -> & ->). rewrite (values_det _ _ _ _ V V'). exact H.
    - split; [discriminate|]. intros (im' & m' & lm' & jf' & f' & lf' & md' & vs & E & F & P' & A' & V' & H).
      destruct (X _ _ _ _ _ _ _ E F P') as (-> & -> & ->). exfalso. exact (unbindable_no_values _ _ _ _ _ NI NB V').
    - split; [discriminate|]. intros (im' & m' & lm' & jf' & f' & lf' & md' & vs & E & F & P' & A' & V' & H).
      destruct (X _ _ _ _ _ _ _ E F P') as (-> & -> & ->). exfalso. exact (accepted_no_overflow _ _ A' C AA).
    - split; [discriminate|]. intros (im' & m' & lm' & jf' & f' & lf' & md' & vs & E & F & P' & A' & V' & H).
      destruct (X _ _ _ _ _ _ _ E F P') as (-> & -> & ->). exfalso. exact (A A').
  Qed.

  Lemma gens_ok : forall k cs, k <> NAngle ->
    Forall (fun c => forall h s h', gen c h = (Ok s, h') <-> renders checks w ps c h s h') cs ->
    forall h ss h', gens k cs h = (Ok ss, h') <-> renders_all checks w ps k cs h ss h'.
  Proof.
    intros k cs N F. induction F as [|c cs Hc _ IH]; intros h ss h'.
    - change (gens k []) with (ret (Ok (@nil str))). rewrite ret_ok. split; [intros [[= <-] ->]; constructor|]. intro H. inversion H; auto.
    - rewrite gens_cons, mbind_ok. split.
      + intros (u & h1 & H1 & H2). apply ret_ok in H1 as [H1 ->]. destruct u. apply (allowed_ok k c N) in H1.
        apply mbind_ok in H2 as (x & h2 & H2 & H3). apply mbind_ok in H3 as (xs & h3 & H3 & H4). apply ret_ok in H4 as [[= <-] ->].
        econstructor; [exact H1|apply Hc; exact H2|apply IH; exact H3].
      + intro H. inversion H as [|k0 c0 cs0 h0 s h1 ss0 h2 S R RA]; subst. exists tt, h. split; [apply ret_ok; split; [apply allowed_ok; assumption|reflexivity]|].
        apply mbind_ok. exists s, h1. split; [apply Hc; exact R|]. apply mbind_ok. exists ss0, h'. split; [apply IH; exact RA|reflexivity].
  Qed.

  Theorem gen_renders : forall a h s h', gen a h = (Ok s, h') <-> renders checks w ps a h s h'.
  Proof.
    induction a as [k i v l|k i cs l IH] using ast_ind'; intros h s h'.
    - destruct k; cbn [Codegen.gen]; try (split; [discriminate|intro H; inversion H]). rewrite mbind_ok. split.
      + intros (x & h1 & H1 & H2). destruct v as [y|]; [|discriminate]. cbn in H1. injection H1 as <- <-.
        constructor. exact (proj1 (hooked_ok Text y h s h') H2).
      + intro H. inversion H; subst. exists s0, h. split; [reflexivity|]. apply (hooked_ok Text). assumption.
    - rewrite gen_inner. 
      assert (LV : forall lv, level_of k = Some lv -> 
        (mbind (gens k cs) (fun rs => hooked (hook_of lv) (concat rs)) h = (Ok s, h') <-> renders checks w ps (AInner k i cs l) h s h')).
      { intros lv EL. rewrite mbind_ok. assert (NA : k <> NAngle) by (intros ->; discriminate).
        split.
        - intros (ss & h1 & H1 & H2). apply (gens_ok k cs NA IH) in H1. apply hooked_ok in H2. econstructor; eassumption.
        - intro H. inversion H as [|k0 lv0 i0 cs0 l0 h0 ss h1 s0 h2 EL' RA PA|k0 t0]; subst.
          + rewrite EL in EL'. injection EL' as <-. exists ss, h1. split; [apply (gens_ok k cs NA IH); exact RA|apply hooked_ok; exact PA].
          + destruct k; discriminate. }
      assert (CM : forall t, command_type k = Some t ->
        (match cs with
         | [] => ret (Err (match k with NCurly => lit "Curly must contain module" | _ => lit "Square must contain module and identifier" end))
         | _ :: [] => ret (Err (match k with NCurly => lit "Curly must contain identifier" | _ => lit "Square must contain module and identifier" end))
         | m :: i :: rest => mbind (gens k rest) (fun args => command checks w ps k m i args)
         end h = (Ok s, h') <-> renders checks w ps (AInner k i cs l) h s h')).
      { intros t ET. assert (NA : k <> NAngle) by (intros ->; discriminate).
        destruct cs as [|m [|f rest]].
        1,2: split; [discriminate|]; intro H; inversion H; subst; destruct k; discriminate.
        rewrite mbind_ok. do 2 apply Forall_inv_tail in IH. split.
        - intros (ss & h1 & H1 & H2). apply (gens_ok k rest NA IH) in H1. apply (command_ok k t m f ss h1 s h' ET) in H2.
          destruct H2 as (im & mn & lm & jf & fn & lf & md & vs & -> & -> & P & A & V & C). econstructor; eassumption.
        - intro H. inversion H as [|k0 lv0 i0 cs0 l0 h0 ss h1 s0 h2 EL' RA PA|k0 t0 i0 im mn lm jf fn lf args l0 h0 ss h1 md vs s0 h2 ET' RA P A V C]; subst.
          + destruct k; discriminate.
          + exists ss, h1. split; [apply (gens_ok k rest NA IH); exact RA|]. apply (command_ok k t0 _ _ ss h1 s h' ET').
            exists im, mn, lm, jf, fn, lf, md, vs. repeat (split; [eassumption || reflexivity|]); eassumption. }
      destruct k.
      + exact (LV Document eq_refl).
      + exact (LV Stmt eq_refl).
      + exact (LV Expr eq_refl).
      + split; [discriminate|]. intro H. inversion H; subst; discriminate.
      + exact (CM TInline eq_refl).
      + exact (CM TBlock eq_refl).
  Qed.

  Theorem generate_renders : forall a h s h', generate checks w ps a h = (Ok s, h') <->
    (exists i cs l, a = AInner NDocument i cs l) /\ renders checks w ps a h s h'.
  Proof.
    intros a h s h'. destruct a as [k i cs l|k i v l]; [destruct k|]; cbn [generate];
      try (split; [discriminate|]; intros ((i' & cs' & l' & E) & _); discriminate).
    rewrite gen_renders. split; [eauto|]. intros [_ H]. exact H.
  Qed.

  (** ** No macro *)
  Lemma renders_no_angle : forall a h s h', renders checks w ps a h s h' ->
    forall i cs l, ~ In (AInner NAngle i cs l) (ast_nodes a).
  Proof.
    induction a as [k i v l|k i cs l IH] using ast_ind'; intros h s h' H i0 cs0 l0 I.
    - destruct I as [I|[]]. discriminate.
    - assert (L : forall ds k ss h h', Forall (fun a => forall h s h', renders checks w ps a h s h' ->
          forall i cs l, ~ In (AInner NAngle i cs l) (ast_nodes a)) ds -> renders_all checks w ps k ds h ss h' ->
          ~ In (AInner NAngle i0 cs0 l0) (flat_map ast_nodes ds)).
      { clear. intros ds k ss h h' F. revert ss h. induction F as [|c cs Hc _ IH]; intros ss h RA; [intros []|].
        inversion RA as [|k0 c0 cs1 h0 s h1 ss0 h2 S R RA']; subst. cbn. intro I.
        apply in_app_or in I as [I|I]; [exact (Hc _ _ _ R _ _ _ I)|exact (IH _ _ RA' I)]. }
      inversion H as [|k0 lv0 i1 cs1 l1 h0 ss h1 s0 h2 EL' RA PA|k0 t0 i1 im mn lm jf fn lf args l1 h0 ss h1 md vs s0 h2 ET' RA P A V C];
        subst; destruct I as [E|I].
      + inversion E; subst. discriminate.
      + exact (L _ _ _ _ _ IH RA I).
      + inversion E; subst. discriminate.
      + cbn in I. destruct I as [I|[I|I]]; try discriminate. do 2 apply Forall_inv_tail in IH. exact (L _ _ _ _ _ IH RA I).
  Qed.

  (** ** Every call is justified *)
  Definition traces {A} (m : M A) : Prop := forall h r h', m h = (r, h') ->
    exists es, h' = h ++ es /\ Forall (justified ps) es.

  Lemma traces_ret : forall A (r : res A), traces (ret r).
  Proof. intros A r h r' h' [= <- <-]. exists []. rewrite app_nil_r. auto. Qed.

  Lemma traces_bind : forall A B (m : M A) (f : A -> M B), traces m -> (forall a, traces (f a)) -> traces (mbind m f).
  Proof.
    intros A B m f Hm Hf h r h' H. unfold mbind in H. destruct (m h) as [r1 h1] eqn:E. destruct (Hm _ _ _ E) as (es & -> & F).
    destruct r1 as [a|e|e|]; try (inversion H; subst; exists es; auto; fail).
    destruct (Hf a _ _ _ H) as (es2 & -> & F2). exists (es ++ es2). rewrite app_assoc. split; [reflexivity|]. apply Forall_app; auto.
  Qed.

  Lemma traces_call : forall n f t vs, (forall md, provides ps n f t md -> justified ps (mkEvent n (call_name md) (IValues vs))) ->
    traces (call w ps n f t (IValues vs)).
  Proof.
    intros n f t vs J h r h' H. destruct (provides_dec ps n f t) as [[md P]|N].
    - rewrite (call_ok _ _ _ _ _ _ md h P) in H. inversion H; subst. eexists. split; [reflexivity|]. constructor; [|constructor]. exact (J md P).
    - destruct (call_err w ps n f t (IValues vs) h N) as [e E]. rewrite E in H. inversion H; subst. exists []. rewrite app_nil_r. auto.
  Qed.

  Lemma traces_hooked : forall lv s, traces (hooked (hook_of lv) s).
  Proof.
    intros lv s. unfold hooked. apply traces_bind; [|intro; apply traces_ret].
    assert (H : forall n f t, hook ps lv = (Some n, f, t) -> traces (call w ps n f t (IValues [VText s]))).
    { intros n f t E. apply traces_call. intros md P. left. exists lv, n, f, t, md, s. auto. }
    destruct lv; cbn [hook_of hook] in *; unfold call_document_hook, call_stmt_hook, call_expr_hook, call_text_hook,
      call_inline_command, call_block_command; match goal with |- traces (match ?o with _ => _ end) => destruct o end;
      try apply traces_ret; repeat (apply traces_bind; [|intro; apply traces_ret]); eapply H; reflexivity.
  Qed.

  Lemma traces_command : forall k t m i args, command_type k = Some t -> traces (command checks w ps k m i args).
  Proof.
    intros k t m i args K h r h' H.
    assert (Z : forall e : str, (Err e, h) = (r, h') \/ (Panic e, h) = (r, h') -> exists es, h' = h ++ es /\ Forall (justified ps) es).
    { intros e [E|E]; inversion E; subst; exists []; rewrite app_nil_r; auto. }
    destruct (command_cases k t m i args h K) as [(im & mn & lm & jf & f & lf & md & -> & -> & P & C)|(_ & e & E)];
      [|rewrite E in H; eauto]. cbv zeta in C.
    destruct C as [(A & us & V & E)|[(_ & _ & e & E)|[(_ & _ & e & E)|(_ & _ & e & E)]]]; rewrite E in H; eauto.
    assert (T : traces (command_call k mn f us)).
    { assert (J : forall md, provides ps mn f t md -> justified ps (mkEvent mn (call_name md) (IValues us))).
      { intros md' P'. rewrite (provides_det _ _ _ _ _ _ P' P). right. exists mn, f, t, md, args, us.
        split; [destruct k; try discriminate; injection K as <-; cbn; auto|]. split; [exact P|]. split; [exact (proj1 A)|]. split; [exact V|reflexivity]. }
      destruct k; try discriminate; injection K as <-; cbn [command_call]; unfold call_inline_command, call_block_command;
        (apply traces_bind; [apply traces_call; exact J|intro; apply traces_ret]). }
    exact (T _ _ _ H).
  Qed.

  Lemma traces_gens : forall k cs, Forall (fun c => traces (gen c)) cs -> traces (gens k cs).
  Proof.
    intros k cs F. induction F as [|c cs Hc _ IH]; [apply traces_ret|rewrite gens_cons].
    apply traces_bind; [apply traces_ret|]. intros _. apply traces_bind; [exact Hc|]. intro x. apply traces_bind; [exact IH|]. intro. apply traces_ret.
  Qed.

  Theorem gen_traces : forall a, traces (gen a).
  Proof.
    induction a as [k i v l|k i cs l IH] using ast_ind'.
    - destruct k; cbn [Codegen.gen]; try apply traces_ret. apply traces_bind; [apply traces_ret|]. intro s. exact (traces_hooked Text s).
    - rewrite gen_inner. destruct k.
      + apply traces_bind; [apply traces_gens; exact IH|]. intro ss. exact (traces_hooked Document (concat ss)).
      + apply traces_bind; [apply traces_gens; exact IH|]. intro ss. exact (traces_hooked Stmt (concat ss)).
      + apply traces_bind; [apply traces_gens; exact IH|]. intro ss. exact (traces_hooked Expr (concat ss)).
      + apply traces_ret.
      + destruct cs as [|m [|f rest]]; try apply traces_ret. do 2 apply Forall_inv_tail in IH.
        apply traces_bind; [apply traces_gens; exact IH|]. intro ss. exact (traces_command NSquare TInline m f ss eq_refl).
      + destruct cs as [|m [|f rest]]; try apply traces_ret. do 2 apply Forall_inv_tail in IH.
        apply traces_bind; [apply traces_gens; exact IH|]. intro ss. exact (traces_command NCurly TBlock m f ss eq_refl).
  Qed.

  Theorem generate_traces : forall a, traces (generate checks w ps a).
  Proof. intros [[] i cs l|k i v l]; cbn [generate]; try apply traces_ret. apply gen_traces. Qed.
End Gen.
