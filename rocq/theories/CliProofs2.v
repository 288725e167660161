(** The commands as a whole. *)
From Coq Require Import String List NArith Arith Bool Lia.
From Verif Require Import Base Tokens Tokenizer CST Parser AST TransformError Transform Plugin Expander Codegen Utf8 Framing Json Serde Compile Project SpecProject
  Cli PluginProofs CacheProofs DownloadProofs DownloadProofs2 AddProofs AddProofs2 Utf8Proofs BuildProofs CliProofs.
Import ListNotations.

(** ** `compile` writes nothing *)
Theorem compile_writes_nothing : forall seg uuid checks w wasm ls variable d filename level json f,
  fst (run_compile seg uuid checks w wasm ls variable d filename level json f) = [].
Proof.
  intros. unfold run_compile. cbv zeta. rewrite ibind_pure.
  match goal with |- fst (match ?r with _ => _ end) = [] => destruct r as [names| | |]; try reflexivity end. rewrite ibind_pure.
  match goal with |- fst (match ?r with _ => _ end) = [] => destruct r as [t| | |]; try reflexivity end.
  pose proof (open_plugins_none wasm t f) as N. unfold ibind at 1. destruct (open_plugins wasm t f) as [os r]. cbn [fst] in N. subst os.
  destruct r as [pv| | |]; try reflexivity. cbn [apply_all fold_left]. rewrite ibind_pure.
  destruct (plugins_new pv) as [ps| | |]; try reflexivity. destruct (negb (ends_with (lit ".[]") filename)); reflexivity.
Qed.

Theorem compile_run : forall seg uuid checks w wasm ls variable d names t pv ps filename b s level json f,
  d <> [] -> ls (utf8 d) = Some names -> find_plugins (utf8 d) names [] = Ok t -> open_plugins wasm t f = ([], Ok pv) -> plugins_new pv = Ok ps ->
  ends_with (lit ".[]") filename = true -> file f (utf8 filename) = Some b -> from_utf8 b = Some s ->
  snd (run_compile seg uuid checks w wasm ls variable (Some d) filename level json f)
  = fst (output seg uuid checks w ps level json (Ok s) []).
Proof.
  intros seg uuid checks w wasm ls variable d names t pv ps filename b s level json f D L F Op P E B S. unfold run_compile. cbv zeta.
  rewrite ibind_pure. destruct (utf8 d) as [|c d'] eqn:U; [exfalso; apply D; apply utf8_nil; exact U|]. rewrite L. cbn [ok_or].
  rewrite ibind_pure, F. rewrite (ibind_step _ _ f [] pv Op). cbn [apply_all fold_left]. rewrite ibind_pure, P, E. cbn [negb].
  unfold read_to_string. rewrite B, S. reflexivity.
Qed.

(** ** The hooks are never on *)
Lemma find_flags : forall d names t t', (forall n p fl, In (n, (p, fl)) t -> fl = mkFlags false false false false) ->
  find_plugins d names t = Ok t' -> forall n p fl, In (n, (p, fl)) t' -> fl = mkFlags false false false false.
Proof.
  intros d names. induction names as [|x names IH]; intros t t' F H; cbn [find_plugins] in H; [injection H as <-; exact F|].
  destruct (from_utf8 (join d x)) as [s|]; cbn [ok_or bind] in H; [|discriminate]. destruct (captures s) as [m|]; [|eapply IH; eassumption].
  eapply IH; [|exact H]. clear -F. intros n p fl I. revert I. induction t as [|[k [p' fl']] t IHt]; cbn [hm_insert].
  - intros [I|[]]. congruence.
  - destruct (str_eqb m k); cbn [In].
    + intros [I|I]; [congruence|]. eapply F. right. exact I.
    + intros [I|I]; [injection I as <- <- <-; eapply F; left; reflexivity|]. apply IHt; [|exact I]. intros n' p'' fl'' J. eapply F. right. exact J.
Qed.
Lemma open_flags : forall wasm t f pv, (forall n p fl, In (n, (p, fl)) t -> fl = mkFlags false false false false) ->
  open_plugins wasm t f = ([], Ok pv) -> Forall (fun p => p_flags p = mkFlags false false false false) pv.
Proof.
  intros wasm t. induction t as [|[n [p fl]] t IH]; intros f pv F H; cbn [open_plugins] in H.
  - injection H as <-. constructor.
  - apply ibind_ok in H as (o1 & x & o2 & A & B & _). apply ibind_ok in B as (o3 & xs & o4 & C & D & _).
    injection D as _ <-. unfold open_plugin in A. destruct (file f p) as [b|]; [|discriminate].
    destruct (wasm b) as [metas|]; cbn [ok_or bind] in A; [|discriminate]. injection A as <- A.
    constructor.
    + rewrite (F n p fl (or_introl eq_refl)) in A. unfold plugin_new in A.
      destruct (plugin_loop _ metas [] _) as [[tbl seen]| | |]; cbn [bind] in A; try discriminate.
      cbn [document_hook stmt_hook expr_hook text_hook andb] in A. injection A as <-. reflexivity.
    + pose proof (open_plugins_none wasm t (apply_all f [])) as N. rewrite C in N. cbn [fst] in N. subst o3.
      eapply IH; [|exact C]. intros n' p' fl' J. eapply F. right. exact J.
Qed.
Lemma new_no_hooks : forall pv acc ps, Forall (fun p => p_flags p = mkFlags false false false false) pv -> plugins_loop pv acc = Ok ps ->
  document_hook_plugin_name ps = document_hook_plugin_name acc /\ stmt_hook_plugin_name ps = stmt_hook_plugin_name acc /\
  expr_hook_plugin_name ps = expr_hook_plugin_name acc /\ text_hook_plugin_name ps = text_hook_plugin_name acc.
Proof.
  intros pv. induction pv as [|p pv IH]; intros acc ps F H; cbn [plugins_loop] in H; [injection H as <-; auto|].
  inversion F as [|? ? F1 F']; subst. rewrite F1 in H. cbn [document_hook stmt_hook expr_hook text_hook andb] in H.
  apply IH in H; [|exact F']. exact H.
Qed.
Theorem compile_no_hooks : forall d names t wasm f pv ps, find_plugins d names [] = Ok t -> open_plugins wasm t f = ([], Ok pv) -> plugins_new pv = Ok ps ->
  document_hook_plugin_name ps = None /\ stmt_hook_plugin_name ps = None /\ expr_hook_plugin_name ps = None /\ text_hook_plugin_name ps = None.
Proof.
  intros d names t wasm f pv ps F O P. eapply new_no_hooks with (acc := mkPlugins [] None None None None); [|exact P].
  eapply open_flags; [|exact O]. eapply find_flags; [|exact F]. intros n p fl [].
Qed.

(** ** Plugins without memory *)
Definition steady {A} (m : M A) : Prop := forall h h', fst (m h) = fst (m h').
Lemma steady_ret : forall {A} (r : res A), steady (ret r).
Proof. intros A r h h'. reflexivity. Qed.
Lemma steady_bind : forall {A B} (m : M A) (k : A -> M B), steady m -> (forall x, steady (k x)) -> steady (mbind m k).
Proof.
  intros A B m k S K h h'. unfold mbind. specialize (S h h'). destruct (m h) as [r h1], (m h') as [r' h1']. cbn [fst] in S. subst r'.
  destruct r; try reflexivity. apply K.
Qed.

Section Steady.
  Variable w : world.
  Variable ps : plugins.
  Variable checks : bool.
  Hypothesis forgets : forall h h' e, w h e = w h' e.

  Lemma steady_call : forall n c r i, steady (call w ps n c r i).
  Proof.
    intros. unfold call. apply steady_bind; [apply steady_ret|]. intro p. apply steady_bind; [apply steady_ret|]. intros m h h'.
    cbn [fst]. rewrite (forgets h h'). reflexivity.
  Qed.
  Lemma steady_inline : forall n c a, steady (call_inline_command w ps n c a).
  Proof. intros. apply steady_bind; [apply steady_call|intro; apply steady_ret]. Qed.
  Lemma steady_block : forall n c a, steady (call_block_command w ps n c a).
  Proof. intros. apply steady_bind; [apply steady_call|intro; apply steady_ret]. Qed.
  Lemma steady_macro : forall n c a i, steady (call_macro_command w ps n c a i).
  Proof. intros. apply steady_bind; [apply steady_call|intro; apply steady_ret]. Qed.

  Lemma steady_expand : forall overall a, steady (expand_other w ps overall a).
  Proof.
    intros overall. fix IH 1. intros [k l cs i|k l v i]; cbn [expand_other].
    - apply steady_bind; [|intro; apply steady_ret]. induction cs as [|c cs IHcs]; [apply steady_ret|].
      apply steady_bind; [|intro; apply steady_bind; [exact IHcs|intro; apply steady_ret]].
      assert (A : steady (expand_angle w ps overall c)).
      { unfold expand_angle. apply steady_bind; [apply steady_ret|]. intro x. apply steady_bind; [apply steady_ret|]. intros [m j].
        apply steady_bind; [apply steady_macro|intro; apply steady_ret]. }
      pose proof (IH c) as B. revert A B. clear. intros A B.
      assert (E : match c with AInner NAngle _ _ _ => expand_angle w ps overall c | _ => expand_other w ps overall c end = expand_angle w ps overall c \/
                  match c with AInner NAngle _ _ _ => expand_angle w ps overall c | _ => expand_other w ps overall c end = expand_other w ps overall c)
        by (destruct c as [[] ? ? ?|[] ? ? ?]; auto).
      destruct E as [E|E]; rewrite E; assumption.
    - destruct k; try apply steady_ret; apply steady_bind; intros; apply steady_ret.
  Qed.

  Lemma steady_hooked : forall hook r, (forall a, steady (hook a)) -> steady (hooked hook r).
  Proof. intros hook r H. unfold hooked. apply steady_bind; [apply H|intro; apply steady_ret]. Qed.
  Lemma steady_dochook : forall a, steady (call_document_hook w ps a).
  Proof. intro a. unfold call_document_hook. destruct (document_hook_plugin_name ps); [apply steady_bind; [apply steady_block|intro; apply steady_ret]|apply steady_ret]. Qed.
  Lemma steady_stmthook : forall a, steady (call_stmt_hook w ps a).
  Proof. intro a. unfold call_stmt_hook. destruct (stmt_hook_plugin_name ps); [apply steady_bind; [apply steady_block|intro; apply steady_ret]|apply steady_ret]. Qed.
  Lemma steady_exprhook : forall a, steady (call_expr_hook w ps a).
  Proof. intro a. unfold call_expr_hook. destruct (expr_hook_plugin_name ps); [apply steady_bind; [apply steady_inline|intro; apply steady_ret]|apply steady_ret]. Qed.
  Lemma steady_texthook : forall a, steady (call_text_hook w ps a).
  Proof. intro a. unfold call_text_hook. destruct (text_hook_plugin_name ps); [apply steady_bind; [apply steady_inline|intro; apply steady_ret]|apply steady_ret]. Qed.

  Lemma steady_command : forall k m i args, steady (command checks w ps k m i args).
  Proof.
    intros k m i args. unfold command. apply steady_bind; [apply steady_ret|]. intro mn. apply steady_bind; [apply steady_ret|]. intro idn.
    apply steady_bind; [apply steady_ret|]. intro ts. apply steady_bind; [apply steady_ret|]. intros [mi ma].
    destruct (Nat.ltb (length args) mi); [apply steady_ret|]. destruct (exceeds (length args) ma); [apply steady_ret|].
    apply steady_bind; [apply steady_ret|]. intro vs. destruct k; first [apply steady_block|apply steady_inline].
  Qed.

  Lemma steady_gen : forall a, steady (gen checks w ps a).
  Proof.
    fix IH 1. intros [k l cs i|k l v i].
    - cbn [gen].
      assert (G : forall cs, Forall (fun c => steady (gen checks w ps c)) cs -> steady ((fix go (cs : list ast) : M (list str) :=
           match cs with
           | [] => ret (Ok [])
           | c :: cs' => do! _ := ret (allowed k c) in do! x := gen checks w ps c in do! xs := go cs' in ret (Ok (x :: xs))
           end) cs)).
      { induction cs0 as [|c cs0 IHcs]; intro F; [apply steady_ret|]. inversion F; subst. apply steady_bind; [apply steady_ret|]. intro.
        apply steady_bind; [assumption|]. intro. apply steady_bind; [apply IHcs; assumption|]. intro. apply steady_ret. }
      assert (F : Forall (fun c => steady (gen checks w ps c)) cs) by (clear G; induction cs as [|c cs IHcs]; constructor; [apply IH|apply IHcs]).
      destruct k; try apply steady_ret.
      + apply steady_bind; [apply G; repeat match goal with H : Forall _ (_ :: _) |- _ => inversion H; clear H; subst end; try constructor; assumption|]. intro. apply steady_hooked. apply steady_dochook.
      + apply steady_bind; [apply G; repeat match goal with H : Forall _ (_ :: _) |- _ => inversion H; clear H; subst end; try constructor; assumption|]. intro. apply steady_hooked. apply steady_stmthook.
      + apply steady_bind; [apply G; repeat match goal with H : Forall _ (_ :: _) |- _ => inversion H; clear H; subst end; try constructor; assumption|]. intro. apply steady_hooked. apply steady_exprhook.
      + destruct cs as [|m [|j rest]]; try apply steady_ret. apply steady_bind; [apply G; repeat match goal with H : Forall _ (_ :: _) |- _ => inversion H; clear H; subst end; try constructor; assumption|]. intro. apply steady_command.
      + destruct cs as [|m [|j rest]]; try apply steady_ret. apply steady_bind; [apply G; repeat match goal with H : Forall _ (_ :: _) |- _ => inversion H; clear H; subst end; try constructor; assumption|]. intro. apply steady_command.
    - destruct k; try apply steady_ret. cbn [gen]. apply steady_bind; [apply steady_ret|]. intro. apply steady_hooked. apply steady_texthook.
  Qed.

  Theorem steady_compile : forall seg uuid s, steady (compile seg uuid checks w ps s).
  Proof.
    intros seg uuid s. unfold compile. apply steady_bind; [apply steady_ret|]. intro. apply steady_bind; [apply steady_ret|]. intro.
    apply steady_bind; [apply steady_ret|]. intros [a es]. apply steady_bind; [apply steady_expand|]. intro e.
    unfold generate. destruct e as [[] ? ? ?|]; try apply steady_ret. apply steady_gen.
  Qed.
End Steady.

(** ** `compile` and `build` *)
Lemma compiled_each : forall seg uuid checks w ps f n entries h outs h', compiled seg uuid checks w ps f n entries h outs h' ->
  forall stem gen, In (stem, gen) outs -> exists i b text h0 h1, Forall scalar stem /\ file f (lit "docs/" ++ utf8 stem ++ lit ".[]") = Some b /\
    from_utf8 b = Some text /\ nth_error entries i = Some (utf8 stem ++ lit ".[]") /\ compile seg (uuid (n + i)%nat) checks w ps text h0 = (Ok gen, h1).
Proof.
  intros seg uuid checks w ps f n entries h outs h' C.
  induction C as [n h|n name names h outs h' N C IH|n stem b text gen h1 names h outs h' N Sc R T G C IH]; intros s g I; [destruct I|..].
  - destruct (IH s g I) as (i & b & text & h0 & h1 & A & B & X & D & E). exists (S i), b, text, h0, h1. rewrite <- plus_n_Sm. auto.
  - destruct I as [I|I].
    + injection I as <- <-. exists O, b, text, h, h1. rewrite Nat.add_0_r. auto.
    + destruct (IH s g I) as (i & b' & text' & h0 & h1' & A & B & X & D & E). exists (S i), b', text', h0, h1'. rewrite <- plus_n_Sm. auto.
Qed.

Lemma starts_app : forall p s, starts p (p ++ s) = true.
Proof. induction p as [|x p IH]; intro s; [reflexivity|]. cbn [app starts]. rewrite N.eqb_refl. apply IH. Qed.
Lemma ends_app : forall p s, ends_with s (p ++ s) = true.
Proof. intros p s. unfold ends_with. rewrite rev_app_distr. apply starts_app. Qed.

(** The first document, or any document if the plugins have no memory. *)
Theorem level5_is_build : forall seg uuid checks w wasm ls variable d names t pv ps f entries outs h' stem gen,
  d <> [] -> ls (utf8 d) = Some names -> find_plugins (utf8 d) names [] = Ok t -> open_plugins wasm t f = ([], Ok pv) -> plugins_new pv = Ok ps ->
  (forall h h' e, w h e = w h' e) ->
  compiled seg uuid checks w ps f O entries [] outs h' -> In (stem, gen) outs ->
  exists i, nth_error entries i = Some (utf8 stem ++ lit ".[]") /\
    snd (run_compile seg (uuid i) checks w wasm ls variable (Some d) (lit "docs/" ++ stem ++ lit ".[]") 5 false f) = Ok (PText gen).
Proof.
  intros seg uuid checks w wasm ls variable d names t pv ps f entries outs h' stem gen D L F Op P W C I.
  destruct (compiled_each _ _ _ _ _ _ _ _ _ _ _ C stem gen I) as (i & b & text & h0 & h1 & Sc & B & T & N & E). exists i. split; [exact N|].
  rewrite (compile_run seg (uuid i) checks w wasm ls variable d names t pv ps (lit "docs/" ++ stem ++ lit ".[]") b text 5 false f); try assumption.
  - assert (G : fst (compile seg (uuid i) checks w ps text []) = Ok gen).
    { rewrite (steady_compile w ps checks W seg (uuid i) text [] h0). cbn [plus] in E. rewrite E. reflexivity. }
    destruct (compile seg (uuid i) checks w ps text []) as [r h2] eqn:X. cbn [fst] in G. subst r. apply level5_compile in X. rewrite X. reflexivity.
  - rewrite app_assoc. apply ends_app.
  - rewrite !utf8_app. exact B.
Qed.
Theorem level5_is_build_first : forall seg uuid checks w wasm ls variable d names t pv ps f stem entries gen outs h',
  d <> [] -> ls (utf8 d) = Some names -> find_plugins (utf8 d) names [] = Ok t -> open_plugins wasm t f = ([], Ok pv) -> plugins_new pv = Ok ps ->
  compiled seg uuid checks w ps f O ((utf8 stem ++ lit ".[]") :: entries) [] ((stem, gen) :: outs) h' -> NoDup ((utf8 stem ++ lit ".[]") :: entries) ->
  snd (run_compile seg (uuid O) checks w wasm ls variable (Some d) (lit "docs/" ++ stem ++ lit ".[]") 5 false f) = Ok (PText gen).
Proof.
  intros seg uuid checks w wasm ls variable d names t pv ps f stem entries gen outs h' D L F Op P C ND.
  inversion C as [|? ? ? ? ? ? N C'|? stem2 b text gen2 h1 ? ? outs0 ? N Sc R T G C' X0 X1 X2 X3]; subst.
  - exfalso. inversion ND as [|? ? X _]; subst. apply X. eapply compiled_stems; [|exact C'|left; reflexivity]. exact [].
  - rewrite (compile_run seg (uuid O) checks w wasm ls variable d names t pv ps (lit "docs/" ++ stem ++ lit ".[]") b text 5 false f); try assumption.
    + apply level5_compile in G. rewrite G. reflexivity.
    + rewrite app_assoc. apply ends_app.
    + rewrite !utf8_app. exact R.
Qed.
