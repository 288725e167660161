(** The expander runs through the macros of a document and returns the document. *)
From Coq Require Import String List NArith Bool Arith Lia.
From Verif Require Import Base Tokens CST AST Transform SpecCST SpecTransform TransformError TransformProofs
  TransformMeans TransformIds Plugin Expander SpecGen PluginProofs.
Import ListNotations.

Lemma last_cons : forall A (l : list A) x d, last (x :: l) d = last l x.
Proof. induction l as [|y l IH]; intros x d; [reflexivity|]. change (last (x :: y :: l) d) with (last (y :: l) d). rewrite !IH. reflexivity. Qed.

Lemma angle_names_spec : forall cs m f,
  ((In None (names FModule cs) \/ In None (names FIdent cs)) /\ angle_names cs m f = Err (lit "No value found")) \/
  (~ In None (names FModule cs) /\ ~ In None (names FIdent cs) /\ exists m' f', angle_names cs m f = Ok (m', f') /\
     last (names FModule cs) (Some m) = Some m' /\ last (names FIdent cs) (Some f) = Some f').
Proof.
  induction cs as [|c cs IH]; intros m f; [right; cbn; repeat split; eauto; intros []|].
  assert (SKIP : (forall k, names k (c :: cs) = names k cs) -> angle_names (c :: cs) m f = angle_names cs m f ->
    ((In None (names FModule (c :: cs)) \/ In None (names FIdent (c :: cs))) /\ angle_names (c :: cs) m f = Err (lit "No value found")) \/
    (~ In None (names FModule (c :: cs)) /\ ~ In None (names FIdent (c :: cs)) /\ exists m' f', angle_names (c :: cs) m f = Ok (m', f') /\
     last (names FModule (c :: cs)) (Some m) = Some m' /\ last (names FIdent (c :: cs)) (Some f) = Some f')).
  { intros E1 E2. rewrite !E1, E2. apply IH. }
  destruct c as [k i xs l|[] i v l]; try (apply SKIP; reflexivity); clear SKIP.
  - (* identifier *)
    change (names FModule (ALeaf FIdent i v l :: cs)) with (names FModule cs).
    change (names FIdent (ALeaf FIdent i v l :: cs)) with (v :: names FIdent cs). cbn [angle_names].
    destruct v as [s|]; cbn [ok_or bind].
    + rewrite last_cons. destruct (IH m s) as [[H E]|(N1 & N2 & m' & f' & E & L1 & L2)].
      * left. split; [|exact E]. destruct H as [H|H]; [left; exact H|right; right; exact H].
      * right. split; [exact N1|]. split; [intros [A|A]; [discriminate|contradiction]|]. eauto 6.
    + left. split; [right; left; reflexivity|reflexivity].
  - change (names FIdent (ALeaf FModule i v l :: cs)) with (names FIdent cs).
    change (names FModule (ALeaf FModule i v l :: cs)) with (v :: names FModule cs). cbn [angle_names].
    destruct v as [s|]; cbn [ok_or bind].
    + rewrite last_cons. destruct (IH s f) as [[H E]|(N1 & N2 & m' & f' & E & L1 & L2)].
      * left. split; [|exact E]. destruct H as [H|H]; [left; right; exact H|right; exact H].
      * right. split; [intros [A|A]; [discriminate|contradiction]|]. split; [exact N2|]. eauto 6.
    + left. split; [left; left; reflexivity|reflexivity].
Qed.

Lemma expand_angle_spec : forall w ps doc i cs l h,
  (exists e, macro_call ps doc (AInner NAngle i cs l) e /\
     expand_angle w ps doc (AInner NAngle i cs l) h = (ast_reply (w h e), h ++ [e])) \/
  (exists m, uncallable ps (AInner NAngle i cs l) m /\ expand_angle w ps doc (AInner NAngle i cs l) h = (Err m, h)).
Proof.
  intros w ps doc i cs l h. unfold expand_angle. cbn [ast_children ret mbind].
  destruct (angle_names_spec cs [] []) as [[H E]|(N1 & N2 & m & f & E & L1 & L2)]; unfold mbind, ret; rewrite E; cbn.
  - right. eexists. split; [|reflexivity]. apply Uc_nameless. apply in_or_app. exact H.
  - assert (NN : ~ In None (names FModule cs ++ names FIdent cs)) by (intro X; apply in_app_or in X; tauto).
    unfold call_macro_command, mbind. destruct (provides_dec ps m f TAST) as [[md P]|N].
    + rewrite (call_ok w ps m f TAST _ md h P). left. eexists. split.
      * exists i, cs, l, md, m, f. repeat split; auto.
      * unfold ret. cbn. destruct (w h _); reflexivity.
    + right. unfold call, mbind, ret. destruct (hm_get str_eqb (name_to_plugin ps) m) as [p|] eqn:G; cbn [ok_or_else].
      * assert (HP : has_plugin ps m) by (apply plugin_iff; congruence). destruct (unprovided _ _ _ _ HP N) as (p' & G' & F).
        rewrite G in G'. injection G' as <-. rewrite F. cbn [ok_or_else]. eexists. split; [|reflexivity]. eapply Uc_command; eassumption.
      * eexists. split; [|reflexivity]. eapply Uc_plugin; [exact NN|exact L1|]. rewrite plugin_iff. congruence.
Qed.

(** ** Runs *)
Lemma run_app_stop : forall w ps doc l1 l2 h o h', run w ps doc l1 h o h' -> o <> Completed ->
  run w ps doc (l1 ++ l2) h o h'.
Proof.
  intros w ps doc l1 l2 h o h' R. induction R; intro N; try congruence; cbn.
  - apply Run_broken. assumption.
  - apply Run_unknown. assumption.
  - apply Run_rejected; assumption.
  - eapply Run_call; eauto.
Qed.

Lemma run_app : forall w ps doc l1 l2 h h1 o h2, run w ps doc l1 h Completed h1 -> run w ps doc l2 h1 o h2 ->
  run w ps doc (l1 ++ l2) h o h2.
Proof.
  intros w ps doc l1 l2 h h1 o h2 R. remember Completed as c eqn:C. revert h2. induction R; intros h2 R2; try discriminate C; cbn.
  - exact R2.
  - eapply Run_call; eauto.
Qed.

Lemma macro_det : forall ps doc a e e', macro_call ps doc a e -> macro_call ps doc a e' -> e = e'.
Proof.
  intros ps doc a e e' (i & cs & l & md & m & f & E & _ & _ & A & B & P & ->) (i' & cs' & l' & md' & m' & f' & E' & _ & _ & A' & B' & P' & ->).
  rewrite E in E'. inversion E'; subst. rewrite A in A'. rewrite B in B'. inversion A'; inversion B'; subst.
  rewrite (provides_det _ _ _ _ _ _ P P'). reflexivity.
Qed.

Lemma uncallable_det : forall ps a m m', uncallable ps a m -> uncallable ps a m' -> m = m'.
Proof.
  intros ps a m m' [i cs l I|i cs l n N L P|i cs l n f N L K P Q] U; inversion U; subst; try reflexivity; try contradiction; try congruence.
  all: replace n with m in * by congruence; contradiction.
Qed.
Lemma uncallable_not_called : forall ps doc a e m, macro_call ps doc a e -> ~ uncallable ps a m.
Proof.
  intros ps doc a e x (i & cs & l & md & m & f & -> & N1 & N2 & L & K & P & _) U. inversion U; subst.
  - match goal with X : In None _ |- _ => apply in_app_or in X end. tauto.
  - match goal with X : ~ has_plugin ps ?n |- _ => apply X; replace n with m by congruence end. exact (provides_plugin _ _ _ _ _ P).
  - match goal with X : forall md, ~ provides ps ?n ?g TAST md |- _ => apply (X md); replace n with m by congruence; replace g with f by congruence end. exact P.
Qed.
Lemma uncallable_not_broken : forall ps a m, uncallable ps a m -> ~ broken a.
Proof. intros ps a m [] (k & j & v & l' & X & _); discriminate X. Qed.

Lemma macro_not_broken : forall ps doc a e, macro_call ps doc a e -> ~ broken a.
Proof. intros ps doc a e (i & cs & l & md & m & f & -> & _) (k & j & v & l' & E & _). discriminate. Qed.

Theorem run_det : forall w ps doc l h o h', run w ps doc l h o h' -> forall o2 h2, run w ps doc l h o2 h2 -> o2 = o /\ h2 = h'.
Proof.
  intros w ps doc l h o h' R. induction R as [h|a rest h B|a rest h m U|a rest h e C N|a rest h e r o h' C E R IH];
    intros o2 h2 R2; inversion R2 as [|a2 rest2 h3 B2|a2 rest2 h3 m2 U2|a2 rest2 h3 e2 C2 N2|a2 rest2 h3 e2 r2 o3 h4 C2 E2 R3]; subst; auto; try contradiction;
    try (exfalso; eapply macro_not_broken; eassumption); try (exfalso; eapply uncallable_not_broken; eassumption);
    try (exfalso; eapply uncallable_not_called; eassumption); try (rewrite (uncallable_det _ _ _ _ U2 U); auto; fail); try (exfalso; eapply N; eassumption); try (exfalso; eapply N2; eassumption).
  - rewrite (macro_det _ _ _ _ _ C2 C). auto.
  - rewrite (macro_det _ _ _ _ _ C2 C) in *. exfalso. eapply N; eassumption.
  - rewrite (macro_det _ _ _ _ _ C2 C) in *. exfalso. eapply N2; eassumption.
  - rewrite (macro_det _ _ _ _ _ C2 C) in *. eauto.
Qed.

(** ** The expander *)
Section Expand.
  Variable w : world.
  Variable ps : plugins.
  Variable doc : ast.

  Definition visit (c : ast) : M ast :=
    match c with AInner NAngle _ _ _ => expand_angle w ps doc c | _ => expand_other w ps doc c end.

  Fixpoint visits (cs : list ast) : M (list ast) :=
    match cs with
    | [] => ret (Ok [])
    | c :: cs' => mbind (visit c) (fun x => mbind (visits cs') (fun xs => ret (Ok (x :: xs))))
    end.

  Lemma expand_inner : forall k i cs l,
    expand_other w ps doc (AInner k i cs l) = mbind (visits cs) (fun _ => ret (Ok (AInner k i cs l))).
  Proof.
    reflexivity.
  Qed.

  Definition ends (m : M ast) (l : list ast) : Prop :=
    forall h r h', m h = (r, h') -> exists o, ending_of r o /\ run w ps doc l h o h'.

  Lemma visits_ends : forall cs, Forall (fun c => ends (visit c) (meets c)) cs ->
    forall h r h', visits cs h = (r, h') -> exists o, ending_of r o /\ run w ps doc (flat_map meets cs) h o h'.
  Proof.
    intros cs H. induction H as [|c cs Hc _ IH]; intros h r h' E.
    - injection E as <- <-. exists Completed. split; [reflexivity|constructor].
    - cbn [visits flat_map] in *. unfold mbind at 1 in E. destruct (visit c h) as [r1 h1] eqn:E1. destruct (Hc _ _ _ E1) as (o & EO & R).
      destruct r1 as [x|e|e|]; cbn in EO.
      + subst o. unfold mbind in E. destruct (visits cs h1) as [r2 h2] eqn:E2. destruct (IH _ _ _ E2) as (o & EO & R2).
        exists o. split; [|eapply run_app]; destruct r2; inversion E; subst; eauto.
      + inversion E; subst. eexists. split; [reflexivity|]. apply run_app_stop; [exact R|discriminate].
      + inversion E; subst. exists Panicked. split; [reflexivity|]. apply run_app_stop; [exact R|discriminate].
      + destruct EO.
  Qed.

  Lemma other_ends : forall k i cs l, Forall (fun c => ends (visit c) (meets c)) cs ->
    ends (expand_other w ps doc (AInner k i cs l)) (flat_map meets cs).
  Proof.
    intros k i cs l H h r h' E. rewrite expand_inner in E. unfold mbind in E. destruct (visits cs h) as [r1 h1] eqn:V.
    destruct (visits_ends cs H _ _ _ V) as (o & EO & R). exists o. destruct r1; inversion E; subst; auto.
  Qed.

  Lemma leaf_ends : forall k i v l, ends (expand_other w ps doc (ALeaf k i v l)) (meets (ALeaf k i v l)).
  Proof.
    intros k i v l h r h' E. destruct k; cbn in E; unfold mbind, ret in E; cbn in E; inversion E; subst; cbn [meets];
      first [exists Completed; split; [reflexivity|constructor]
            |exists Panicked; split; [reflexivity|apply Run_broken; eexists _, _, _, _; split; [reflexivity|cbn; tauto]]].
  Qed.

  Lemma visit_ends : forall c, ends (visit c) (meets c).
  Proof.
    induction c as [k i v l|k i cs l IH] using ast_ind'; [exact (leaf_ends k i v l)|].
    destruct k; try exact (other_ends _ i cs l IH).
    intros h r h' E. cbn [visit] in E. cbn [meets].
    destruct (expand_angle_spec w ps doc i cs l h) as [(e & C & F)|(m & U & F)]; rewrite F in E; inversion E; subst.
    - destruct (w h e) as [s|a|] eqn:W; cbn.
      + eexists. split; [reflexivity|]. apply Run_rejected; [exact C|]. intro r. rewrite W. discriminate.
      + exists Completed. split; [reflexivity|]. eapply Run_call; [exact C|exact W|constructor].
      + eexists. split; [reflexivity|]. apply Run_rejected; [exact C|]. intro r. rewrite W. discriminate.
    - eexists. split; [reflexivity|]. apply Run_unknown. exact U.
  Qed.
End Expand.

Theorem expander_runs : forall w ps a h r h', expander w ps a h = (r, h') ->
  exists o, ending_of r o /\ run w ps a (inside a) h o h'.
Proof.
  intros w ps a h r h' E. unfold expander in E. destruct a as [k i cs l|k i v l].
  - refine (other_ends w ps (AInner k i cs l) k i cs l _ h r h' E). apply Forall_forall. intros c _. apply visit_ends.
  - exact (leaf_ends w ps _ k i v l h r h' E).
Qed.

Theorem expander_same : forall w ps a h a' h', expander w ps a h = (Ok a', h') -> a' = a.
Proof.
  intros w ps a h a' h' E. unfold expander in E. destruct a as [k i cs l|k i v l].
  - rewrite expand_inner in E. unfold mbind in E. destruct (visits w ps _ cs h) as [[] h1]; inversion E; reflexivity.
  - destruct k; inversion E; reflexivity.
Qed.

(** Success: exactly one call for each outermost macro, in order. *)
Lemma run_completed : forall w ps doc l h h', run w ps doc l h Completed h' ->
  exists es, h' = h ++ es /\ Forall2 (macro_call ps doc) l es.
Proof.
  intros w ps doc l h h' R. remember Completed as c eqn:C. induction R; try discriminate C.
  - exists []. rewrite app_nil_r. auto.
  - destruct (IHR C) as (es & -> & F). exists (e :: es). rewrite <- app_assoc. auto.
Qed.

Lemma run_panicked : forall w ps doc l h h', run w ps doc l h Panicked h' -> exists b, In b l /\ broken b.
Proof.
  intros w ps doc l h h' R. remember Panicked as c eqn:C. induction R; try discriminate C.
  - exists a. cbn. auto.
  - destruct (IHR C) as (b & I & B). exists b. cbn. auto.
Qed.

(** ** Broken leaves come from invalid escapes *)
Lemma meets_nodes : forall a b, In b (meets a) -> In b (ast_nodes a).
Proof.
  induction a as [k i v l|k i cs l IH] using ast_ind'; intros b H.
  - destruct k; cbn in *; tauto.
  - assert (D : In b [AInner k i cs l] \/ In b (flat_map meets cs)) by (destruct k; cbn in *; tauto).
    destruct D as [[<-|[]]|D]; [left; reflexivity|]. right. apply in_flat_map in D as (c & I & D). apply in_flat_map. exists c. split; [exact I|].
    rewrite Forall_forall in IH. exact (IH c I b D).
Qed.

Lemma inside_nodes : forall a b, In b (inside a) -> In b (ast_nodes a).
Proof.
  intros [k i cs l|k i v l] b H; [|exact (meets_nodes _ _ H)]. right. cbn in H. apply in_flat_map in H as (c & I & D).
  apply in_flat_map. exists c. split; [exact I|exact (meets_nodes _ _ D)].
Qed.

Lemma broken_words : forall a b, In b (ast_nodes a) -> broken b -> In WInvalid (ast_words a).
Proof.
  induction a as [k i v l|k i cs l IH] using ast_ind'; intros b I B.
  - destruct I as [<-|[]]. destruct B as (k' & j & v' & l' & E & K). inversion E; subst. destruct K as [<-|[<-|[]]]; left; reflexivity.
  - destruct I as [<-|I]; [destruct B as (k' & j & v' & l' & E & K); discriminate|]. apply in_flat_map in I as (c & J & D).
    cbn [ast_words]. apply in_or_app. right. apply in_flat_map. exists c. split; [exact J|]. rewrite Forall_forall in IH. exact (IH c J b D B).
Qed.

Definition bad (es : list terror) : Prop := exists l, In (EInvalidBackslash, l) es.
Lemma bad_l : forall a b, bad a -> bad (a ++ b).
Proof. intros a b [l H]. exists l. apply in_or_app. auto. Qed.
Lemma bad_r : forall a b, bad b -> bad (a ++ b).
Proof. intros a b [l H]. exists l. apply in_or_app. auto. Qed.

Lemma SItem_invalid :
  (forall c c' es (H : SItem c c' es), In WInvalid (cst_words c) -> bad es) /\
  (forall xs ys es (H : SItems xs ys es), In WInvalid (words xs) -> bad es).
Proof.
  apply (SItem_both (fun c c' es _ => In WInvalid (cst_words c) -> bad es) (fun xs ys es _ => In WInvalid (words xs) -> bad es)).
  - intros k v l I H. exfalso. destruct k, v; try discriminate; cbn in H; intuition discriminate.
  - intros l _. exists l. left. reflexivity.
  - intros s l l' H. exfalso. cbn in H. intuition discriminate.
  - intros k o c lo body close l xs ys es items HB HF HC HX HS IH HI H. subst xs items. apply bad_l. apply IH.
    rewrite flat_words. cbn [cst_words] in H. apply in_app_or in H as [H|H]; [destruct k; cbn in H; intuition discriminate|].
    change (In WInvalid (words ([CLeaf o None lo] ++ body ++ close))) in H. rewrite !words_app in H.
    assert (Q : forall l, words [CLeaf o None l] = [] /\ words [CLeaf c None l] = [])
      by (intro; destruct k; try discriminate HB; injection HB as <- <-; split; reflexivity).
    rewrite (proj1 (Q lo)) in H. cbn [app] in H. apply in_app_or in H as [H|H]; [exact H|]. exfalso.
    destruct HC as [->|(lc & ->)]; [exact H|]. rewrite (proj2 (Q lc)) in H. exact H.
  - intros [].
  - intros c c' es cs cs' ess H1 IH1 H2 IH2 H. cbn in H. apply in_app_or in H as [H|H]; [apply bad_l; auto|apply bad_r; auto].
Qed.

Lemma SList_invalid : forall (R : cst -> cst -> list terror -> Prop),
  (forall c c' es, R c c' es -> In WInvalid (cst_words c) -> bad es) ->
  forall xs ys es, SList R xs ys es -> In WInvalid (words xs) -> bad es.
Proof.
  intros R HR xs ys es H. induction H as [|c c' es cs cs' ess H1 H2 IH]; [intros []|].
  intro I. cbn in I. apply in_app_or in I as [I|I]; [apply bad_l; exact (HR _ _ _ H1 I)|apply bad_r; auto].
Qed.

Lemma SLine_invalid : forall c c' es, SLine c c' es -> In WInvalid (cst_words c) -> bad es.
Proof.
  intros c c' es H I. inversion H as [xs ys es0 l HN HF HS|k l HI]; subst.
  - exact (proj2 SItem_invalid _ _ _ HS I).
  - exfalso. destruct HI as [<-|[<-|[<-|[<-|[]]]]]; cbn in I; destruct I.
Qed.

Lemma SStmt_invalid : forall c c' es, SStmt c c' es -> In WInvalid (cst_words c) -> bad es.
Proof.
  intros c c' es H I. inversion H as [xs ys es0 l HS|k l HI]; subst.
  - exact (SList_invalid _ SLine_invalid _ _ _ HS I).
  - exfalso. destruct HI as [<-|[<-|[]]]; cbn in I; destruct I.
Qed.

Theorem invalid_reported : forall uuid c a es, g_document c -> transform uuid c = Ok (a, es) ->
  In WInvalid (cst_words c) -> exists l, In (EInvalidBackslash, l) es.
Proof.
  intros uuid c a es G H I. destruct (SDoc_exists c G) as (c' & e & S). unfold transform in H.
  rewrite (SDoc_simplify _ _ _ S) in H. cbn [bind] in H. apply bind_ok in H as ([a' n] & A & H).
  injection H as <- <-. inversion S as [xs ys es0 l HS]; subst.
  exact (SList_invalid _ SStmt_invalid _ _ _ HS I).
Qed.

Theorem expander_panic_free : forall uuid c a es, g_document c -> transform uuid c = Ok (a, es) ->
  (forall l, ~ In (EInvalidBackslash, l) es) ->
  forall w ps h e h', expander w ps a h <> (Panic e, h').
Proof.
  intros uuid c a es G H N w ps h e h' E. destruct (expander_runs _ _ _ _ _ _ E) as (o & EO & R). cbn in EO. subst o.
  destruct (run_panicked _ _ _ _ _ _ R) as (b & I & B). pose proof (broken_words a b (inside_nodes _ _ I) B) as W.
  rewrite (transform_words uuid c a es G H) in W. destruct (invalid_reported uuid c a es G H W) as (l & X). exact (N l X).
Qed.
