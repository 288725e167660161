(** [Plugin::new], [Plugins::new], and independence of the order of the plugins. *)
From Coq Require Import String List NArith Bool Arith Lia Permutation.
From Verif Require Import Base Tokens AST SpecTransform TransformIds Plugin Expander Codegen SpecGen PluginProofs
  ExpanderProofs GenProofs.
Import ListNotations.

(** ** One plugin *)
Definition levels := [Document; Stmt; Expr; Text].
Lemma in_levels : forall lv, In lv levels.
Proof. intros []; cbn; auto. Qed.

Definition is_hook (f : flags) (m : metadata) (lv : level) : bool := str_eqb (command_name m) (hook_name lv) && wants lv f.

Definition add_seen (f : flags) (m : metadata) (seen : flags) : flags :=
  mkFlags (document_hook seen || is_hook f m Document) (stmt_hook seen || is_hook f m Stmt)
          (expr_hook seen || is_hook f m Expr) (text_hook seen || is_hook f m Text).

Lemma wants_add : forall f m seen lv, wants lv (add_seen f m seen) = wants lv seen || is_hook f m lv.
Proof. intros f m seen []; reflexivity. Qed.

Definition bad_type (f : flags) (m : metadata) (lv : level) : bool :=
  is_hook f m lv && negb (ptype_eqb (return_type m) (hook_type lv)).

Lemma plugin_step : forall f m metas tbl seen,
  (existsb (bad_type f m) levels = true /\ exists e, plugin_loop f (m :: metas) tbl seen = Err e) \/
  (existsb (bad_type f m) levels = false /\
   plugin_loop f (m :: metas) tbl seen =
   plugin_loop f metas (hm_insert sig_eqb tbl (command_name m, return_type m) m) (add_seen f m seen)).
Proof.
  intros f m metas tbl seen. cbn [plugin_loop existsb levels].
  change (str_eqb (command_name m) (lit "document") && document_hook f) with (is_hook f m Document).
  change (str_eqb (command_name m) (lit "stmt") && stmt_hook f) with (is_hook f m Stmt).
  change (str_eqb (command_name m) (lit "expr") && expr_hook f) with (is_hook f m Expr).
  change (str_eqb (command_name m) (lit "text") && text_hook f) with (is_hook f m Text).
  change (is_hook f m Document && negb (ptype_eqb (return_type m) TBlock)) with (bad_type f m Document).
  change (is_hook f m Stmt && negb (ptype_eqb (return_type m) TBlock)) with (bad_type f m Stmt).
  change (is_hook f m Expr && negb (ptype_eqb (return_type m) TInline)) with (bad_type f m Expr).
  change (is_hook f m Text && negb (ptype_eqb (return_type m) TInline)) with (bad_type f m Text).
  destruct (bad_type f m Document); [left; cbn; eauto|]. destruct (bad_type f m Stmt); [left; cbn; eauto|].
  destruct (bad_type f m Expr); [left; cbn; eauto|]. destruct (bad_type f m Text); [left; cbn; eauto|].
  right. split; reflexivity.
Qed.

Lemma bad_type_false : forall f m, existsb (bad_type f m) levels = false <->
  forall lv, wants lv f = true -> command_name m = hook_name lv -> return_type m = hook_type lv.
Proof.
  intros f m. split.
  - intros H lv W N. destruct (bad_type f m lv) eqn:B.
    + exfalso. assert (existsb (bad_type f m) levels = true) by (apply existsb_exists; exists lv; split; [apply in_levels|exact B]). congruence.
    + unfold bad_type, is_hook in B. rewrite (proj2 (str_eqb_eq _ _) N), W in B. cbn in B. apply negb_false_iff in B. apply ptype_eqb_eq. exact B.
  - intro H. destruct (existsb (bad_type f m) levels) eqn:E; [|reflexivity]. exfalso. apply existsb_exists in E as (lv & _ & B).
    unfold bad_type, is_hook in B. apply andb_true_iff in B as [B1 B2]. apply andb_true_iff in B1 as [B0 B1]. apply str_eqb_eq in B0.
    rewrite (H lv B1 B0) in B2. rewrite (proj2 (ptype_eqb_eq _ _) eq_refl) in B2. discriminate.
Qed.

Definition loop_result (f : flags) (metas : list metadata) (tbl : list ((str * ptype) * metadata)) (seen : flags) : Prop :=
  exists tbl' seen', plugin_loop f metas tbl seen = Ok (tbl', seen') /\
    (forall lv, wants lv seen' = true <-> wants lv seen = true \/
        (wants lv f = true /\ exists m, In m metas /\ command_name m = hook_name lv)) /\
    (forall n t m, hm_get sig_eqb tbl' (n, t) = Some m <->
        last_command metas n t m \/ ((forall m', In m' metas -> (command_name m', return_type m') <> (n, t)) /\
                                     hm_get sig_eqb tbl (n, t) = Some m)).

Lemma last_command_cons : forall m0 metas n t m, last_command (m0 :: metas) n t m <->
  last_command metas n t m \/ (m = m0 /\ (command_name m0, return_type m0) = (n, t) /\
     forall m', In m' metas -> (command_name m', return_type m') <> (n, t)).
Proof.
  intros m0 metas n t m. split.
  - intros ([|x l1] & l2 & E & N & T & L); inversion E; subst.
    + right. auto.
    + left. exists l1, l2. auto.
  - intros [(l1 & l2 & -> & N & T & L)|(-> & E & L)].
    + exists (m0 :: l1), l2. auto.
    + inversion E; subst. exists [], metas. auto.
Qed.

Lemma sig_in_dec : forall metas (n : str) (t : ptype),
  (exists m, last_command metas n t m) \/ (forall m', In m' metas -> (command_name m', return_type m') <> (n, t)).
Proof.
  induction metas as [|m0 metas IH]; intros n t; [right; intros ? []|].
  destruct (IH n t) as [[m L]|N]; [left; exists m; apply last_command_cons; auto|].
  destruct (sig_eqb (command_name m0, return_type m0) (n, t)) eqn:E.
  - left. exists m0. apply last_command_cons. right. apply sig_eqb_eq in E. auto.
  - right. intros m' [<-|I]; [|auto]. intro F. apply sig_eqb_eq in F. congruence.
Qed.

Lemma plugin_loop_spec : forall f metas tbl seen,
  ((forall lv, wants lv f = true -> forall m, In m metas -> command_name m = hook_name lv -> return_type m = hook_type lv) /\
   loop_result f metas tbl seen) \/
  (~ (forall lv, wants lv f = true -> forall m, In m metas -> command_name m = hook_name lv -> return_type m = hook_type lv) /\
   exists e, plugin_loop f metas tbl seen = Err e).
Proof.
  intros f. induction metas as [|m metas IH]; intros tbl seen.
  - left. split; [intros lv _ m []|]. exists tbl, seen. split; [reflexivity|]. split.
    + intro lv. split; [auto|]. intros [H|(_ & m & [] & _)]. exact H.
    + intros n t m. split; [intro H; right; split; [intros ? []|exact H]|]. intros [([|] & l2 & E & _)|[_ H]]; [discriminate|discriminate|exact H].
  - destruct (plugin_step f m metas tbl seen) as [[B E]|[B E]].
    + right. split; [|exact E]. intro H. assert (existsb (bad_type f m) levels = false); [|congruence].
      apply bad_type_false. intros lv W N. apply (H lv W m (or_introl eq_refl) N).
    + unfold loop_result. rewrite E. rewrite bad_type_false in B.
      destruct (IH (hm_insert sig_eqb tbl (command_name m, return_type m) m) (add_seen f m seen)) as [[T (tbl' & seen' & L & S & G)]|[T L]].
      * left. split; [intros lv W m' [<-|I] N; [exact (B lv W N)|exact (T lv W m' I N)]|].
        exists tbl', seen'. split; [exact L|]. split.
        -- intro lv. rewrite S, wants_add, orb_true_iff. unfold is_hook. rewrite andb_true_iff, str_eqb_eq. split.
           ++ intros [[H|[H1 H2]]|(W & m' & I & N)]; [auto|right; split; [exact H2|exists m; cbn; auto]|right; split; [exact W|exists m'; cbn; auto]].
           ++ intros [H|(W & m' & [<-|I] & N)]; [auto|left; right; auto|right; eauto].
        -- intros n t m'. rewrite G, (get_insert sig_eqb sig_eqb_eq), last_command_cons. destruct (sig_eqb (n, t) (command_name m, return_type m)) eqn:Q.
           ++ apply sig_eqb_eq in Q. split.
              ** intros [H|[H [= <-]]]; [auto|]. left. right. auto.
              ** intros [[H|(-> & _ & H)]|[H _]]; [auto|right; auto|]. exfalso. apply (H m (or_introl eq_refl)). congruence.
           ++ assert (Q' : (command_name m, return_type m) <> (n, t)).
              { intro F. rewrite F in Q. rewrite (proj2 (sig_eqb_eq _ _) eq_refl) in Q. discriminate. }
              split.
              ** intros [H|[H1 H2]]; [auto|]. right. split; [|exact H2]. intros m'' [<-|I]; [exact Q'|exact (H1 m'' I)].
              ** intros [[H|(-> & H & _)]|[H1 H2]]; [auto|contradiction|]. right. split; [|exact H2]. intros m'' I. apply H1. right. exact I.
      * right. split; [|exact L]. intro H. apply T. intros lv W m' I. apply (H lv W m'). right. exact I.
Qed.

Theorem plugin_new_spec : forall name metas f,
  (hooks_exported f metas /\ exists p, plugin_new name metas f = Ok p /\ p_name p = name /\ p_flags p = f /\
     forall n t m, entry (p_metadata p) (n, t) m <-> last_command metas n t m) \/
  (~ hooks_exported f metas /\ exists e, plugin_new name metas f = Err e).
Proof.
  intros name metas f. unfold plugin_new. destruct (plugin_loop_spec f metas [] (mkFlags false false false false)) as [[T (tbl & seen & -> & S & G)]|[T [e ->]]].
  - cbn [bind].
    assert (Z : forall lv, wants lv (mkFlags false false false false) = true -> False) by (intros []; discriminate).
    assert (GO : forall lv, wants lv f && negb (wants lv seen) = true -> ~ hooks_exported f metas).
    { intros lv H X. apply andb_true_iff in H as [W N]. apply negb_true_iff in N. assert (wants lv seen = true); [|congruence].
      apply S. right. split; [exact W|]. exact (proj1 (X lv W)). }
    change (document_hook f && negb (document_hook seen)) with (wants Document f && negb (wants Document seen)).
    change (stmt_hook f && negb (stmt_hook seen)) with (wants Stmt f && negb (wants Stmt seen)).
    change (expr_hook f && negb (expr_hook seen)) with (wants Expr f && negb (wants Expr seen)).
    change (text_hook f && negb (text_hook seen)) with (wants Text f && negb (wants Text seen)).
    destruct (wants Document f && negb (wants Document seen)) eqn:E1; [right; split; [exact (GO _ E1)|eauto]|].
    destruct (wants Stmt f && negb (wants Stmt seen)) eqn:E2; [right; split; [exact (GO _ E2)|eauto]|].
    destruct (wants Expr f && negb (wants Expr seen)) eqn:E3; [right; split; [exact (GO _ E3)|eauto]|].
    destruct (wants Text f && negb (wants Text seen)) eqn:E4; [right; split; [exact (GO _ E4)|eauto]|].
    left. split.
    + intros lv W. split; [|exact (T lv W)]. assert (Q : wants lv seen = true).
      { destruct lv; rewrite W in *; cbn in *; apply negb_false_iff; assumption. }
      apply S in Q as [Q|[_ Q]]; [destruct (Z lv Q)|exact Q].
    + eexists. split; [reflexivity|]. split; [reflexivity|]. split; [reflexivity|]. intros n t m. cbn [p_metadata].
      rewrite <- (get_entry sig_eqb sig_eqb_eq), G. split; [intros [H|[_ H]]; [exact H|discriminate]|auto].
  - right. cbn [bind]. split; [|eauto]. intro X. apply T. intros lv W m I N. exact (proj2 (X lv W) m I N).
Qed.

(** ** A set of plugins *)
Definition hk (lv : level) (ps : plugins) : option str := fst (fst (hook ps lv)).
Lemma enables_wants : forall lv p, enables lv p = wants lv (p_flags p).
Proof. intros [] p; reflexivity. Qed.

Definition add_plugin (acc : plugins) (p : plugin) : plugins :=
  mkPlugins (hm_insert str_eqb (name_to_plugin acc) (p_name p) p)
    (if enables Document p then Some (p_name p) else hk Document acc)
    (if enables Stmt p then Some (p_name p) else hk Stmt acc)
    (if enables Expr p then Some (p_name p) else hk Expr acc)
    (if enables Text p then Some (p_name p) else hk Text acc).

Definition clash (acc : plugins) (p : plugin) (lv : level) : bool := enables lv p && is_some (hk lv acc).

Lemma plugins_step : forall p ps acc,
  (existsb (clash acc p) levels = true /\ exists e, plugins_loop (p :: ps) acc = Err e) \/
  (existsb (clash acc p) levels = false /\ plugins_loop (p :: ps) acc = plugins_loop ps (add_plugin acc p)).
Proof.
  intros p ps acc. cbn [plugins_loop existsb levels].
  change (document_hook (p_flags p) && is_some (document_hook_plugin_name acc)) with (clash acc p Document).
  change (stmt_hook (p_flags p) && is_some (stmt_hook_plugin_name acc)) with (clash acc p Stmt).
  change (expr_hook (p_flags p) && is_some (expr_hook_plugin_name acc)) with (clash acc p Expr).
  change (text_hook (p_flags p) && is_some (text_hook_plugin_name acc)) with (clash acc p Text).
  destruct (clash acc p Document); [left; cbn; eauto|]. destruct (clash acc p Stmt); [left; cbn; eauto|].
  destruct (clash acc p Expr); [left; cbn; eauto|]. destruct (clash acc p Text); [left; cbn; eauto|].
  right. split; reflexivity.
Qed.

Lemma hk_add : forall lv acc p, hk lv (add_plugin acc p) = if enables lv p then Some (p_name p) else hk lv acc.
Proof. intros [] acc p; reflexivity. Qed.

Lemma last_named_cons : forall q ps n p, last_named (q :: ps) n p <->
  last_named ps n p \/ (p = q /\ p_name q = n /\ ~ In n (map p_name ps)).
Proof.
  intros q ps n p. split.
  - intros ([|x l1] & l2 & E & N & L); inversion E; subst; [right; auto|left; exists l1, l2; auto].
  - intros [(l1 & l2 & -> & N & L)|(-> & N & L)]; [exists (q :: l1), l2; auto|exists [], ps; auto].
Qed.

(** The owner, if there was one before. *)
Definition owner (lv : level) (ps : list plugin) (acc : plugins) : option str :=
  match hk lv acc with Some n => Some n | None => hook_owner lv ps end.
Definition fits (ps : list plugin) (acc : plugins) : Prop :=
  forall lv, length (filter (enables lv) ps) + (if is_some (hk lv acc) then 1 else 0) <= 1.

Lemma plugins_loop_spec : forall ps acc,
  (fits ps acc /\ exists r, plugins_loop ps acc = Ok r /\ (forall lv, hk lv r = owner lv ps acc) /\
     forall n p, hm_get str_eqb (name_to_plugin r) n = Some p <->
       last_named ps n p \/ (~ In n (map p_name ps) /\ hm_get str_eqb (name_to_plugin acc) n = Some p)) \/
  (~ fits ps acc /\ exists e, plugins_loop ps acc = Err e).
Proof.
  induction ps as [|q ps IH]; intro acc.
  - left. split; [intro lv; cbn; destruct (hk lv acc); cbn; lia|]. exists acc. split; [reflexivity|]. split.
    + intro lv. unfold owner, hook_owner. cbn. destruct (hk lv acc); reflexivity.
    + intros n p. split; [intro H; right; split; [intros []|exact H]|]. intros [([|] & l2 & E & _)|[_ H]]; [discriminate|discriminate|exact H].
  - destruct (plugins_step q ps acc) as [[C E]|[C E]].
    + right. split; [|exact E]. intro F. apply existsb_exists in C as (lv & _ & C). unfold clash in C. apply andb_true_iff in C as [C1 C2].
      specialize (F lv). cbn in F. rewrite C1, C2 in F. cbn in F. lia.
    + rewrite E. assert (NC : forall lv, enables lv q = true -> hk lv acc = None).
      { intros lv H. destruct (hk lv acc) as [x|] eqn:X; [|reflexivity]. exfalso.
        assert (existsb (clash acc q) levels = true); [|congruence]. apply existsb_exists. exists lv. split; [apply in_levels|].
        unfold clash. rewrite H, X. reflexivity. }
      assert (FE : forall lv, length (filter (enables lv) ps) + (if is_some (hk lv (add_plugin acc q)) then 1 else 0) =
                         length (filter (enables lv) (q :: ps)) + (if is_some (hk lv acc) then 1 else 0)).
      { intro lv. rewrite hk_add. cbn. destruct (enables lv q) eqn:EN; cbn; [|reflexivity]. rewrite (NC lv EN). cbn. lia. }
      destruct (IH (add_plugin acc q)) as [[F (r & L & H & G)]|[F L]].
      * left. split; [intro lv; rewrite <- FE; apply F|]. exists r. split; [exact L|]. split.
        -- intro lv. rewrite H. unfold owner. rewrite hk_add. unfold hook_owner. cbn [filter]. destruct (enables lv q) eqn:EN; [|reflexivity].
           rewrite (NC lv EN). reflexivity.
        -- intros n p. rewrite G. cbn [add_plugin name_to_plugin]. rewrite (get_insert str_eqb str_eqb_eq), last_named_cons. cbn [map In].
           destruct (str_eqb n (p_name q)) eqn:Q.
           ++ apply str_eqb_eq in Q. subst n. split.
              ** intros [X|[X [= <-]]]; auto.
              ** intros [[X|(-> & _ & X)]|[X _]]; auto. exfalso. apply X. left. reflexivity.
           ++ apply str_eqb_neq in Q. split.
              ** intros [X|[X Y]]; [auto|]. right. split; [|exact Y]. intros [Z|Z]; [congruence|contradiction].
              ** intros [[X|(_ & X & _)]|[X Y]]; [auto|congruence|]. right. split; [|exact Y]. intro Z. apply X. right. exact Z.
      * right. split; [|exact L]. intro X. apply F. intro lv. rewrite FE. apply X.
Qed.

Theorem plugins_new_spec : forall ps,
  ((forall lv, length (filter (enables lv) ps) <= 1) /\
   exists r, plugins_new ps = Ok r /\ (forall lv, fst (fst (hook r lv)) = hook_owner lv ps) /\
     forall n p, entry (name_to_plugin r) n p <-> last_named ps n p) \/
  (~ (forall lv, length (filter (enables lv) ps) <= 1) /\ exists e, plugins_new ps = Err e).
Proof.
  intro ps. unfold plugins_new.
  assert (Z : forall lv, hk lv (mkPlugins [] None None None None) = None) by (intros []; reflexivity).
  assert (FI : fits ps (mkPlugins [] None None None None) <-> forall lv, length (filter (enables lv) ps) <= 1).
  { unfold fits. split; intros H lv; specialize (H lv); rewrite Z in *; cbn in *; lia. }
  destruct (plugins_loop_spec ps (mkPlugins [] None None None None)) as [[F (r & L & H & G)]|[F L]].
  - left. split; [apply FI; exact F|]. exists r. split; [exact L|]. split.
    + intro lv. specialize (H lv). unfold owner in H. rewrite Z in H. exact H.
    + intros n p. rewrite <- (get_entry str_eqb str_eqb_eq), G. split; [intros [X|[_ X]]; [exact X|discriminate]|auto].
  - right. split; [|exact L]. intro X. apply F. apply FI. exact X.
Qed.

(** ** Hooks can be called *)
Lemma unique_last_named : forall ps p, NoDup (map p_name ps) -> In p ps -> last_named ps (p_name p) p.
Proof.
  intros ps p N I. apply in_split in I as (l1 & l2 & ->). exists l1, l2. split; [reflexivity|]. split; [reflexivity|].
  rewrite map_app in N. cbn in N. apply NoDup_remove_2 in N. intro X. apply N. apply in_or_app. auto.
Qed.

Theorem hook_provided : forall specs ps r lv n f t, NoDup (map p_name ps) ->
  Forall2 (fun s p => plugin_new (fst (fst s)) (snd (fst s)) (snd s) = Ok p) specs ps ->
  plugins_new ps = Ok r -> hook r lv = (Some n, f, t) -> exists md, provides r n f t md.
Proof.
  intros specs ps r lv n f t N F E H. destruct (plugins_new_spec ps) as [[_ (r' & E' & HK & G)]|[_ (e & E')]]; [|congruence].
  rewrite E in E'. injection E' as <-. specialize (HK lv). rewrite H in HK. cbn in HK. unfold hook_owner in HK.
  destruct (filter (enables lv) ps) as [|p l] eqn:FL; [discriminate|]. injection HK as ->.
  assert (I : In p ps /\ enables lv p = true) by (apply filter_In; rewrite FL; left; reflexivity). destruct I as [I W].
  assert (FT : f = hook_name lv /\ t = hook_type lv) by (destruct lv; cbn in H; injection H as _ <- <-; auto). destruct FT as [-> ->].
  assert (S : exists s, plugin_new (fst (fst s)) (snd (fst s)) (snd s) = Ok p).
  { clear - F I. induction F as [|s q ss qs X _ IH]; [destruct I|]. destruct I as [->|I]; eauto. }
  destruct S as [[[nm metas] fl] S]. cbn in S. destruct (plugin_new_spec nm metas fl) as [[HE (p' & S' & PN & PF & PM)]|[_ (e & S')]]; [|congruence].
  rewrite S in S'. injection S' as <-. rewrite enables_wants, PF in W. destruct (HE lv W) as [(m & IM & NM) TM].
  destruct (sig_in_dec metas (hook_name lv) (hook_type lv)) as [[md L]|X].
  - exists md, p. split; [apply G; apply unique_last_named; assumption|apply PM; exact L].
  - exfalso. apply (X m IM). rewrite NM, (TM m IM NM). reflexivity.
Qed.

(** ** Order *)
Lemma filter_perm : forall A (f : A -> bool) l l', Permutation l l' -> Permutation (filter f l) (filter f l').
Proof.
  intros A f l l' P. induction P; cbn; try (destruct (f x)); try (destruct (f y)); eauto using Permutation.
Qed.

Lemma last_named_perm : forall ps ps' n p, Permutation ps ps' -> NoDup (map p_name ps) -> last_named ps n p -> last_named ps' n p.
Proof.
  intros ps ps' n p P N (l1 & l2 & E & PN & _). subst n. apply unique_last_named.
  - eapply Permutation_NoDup; [apply Permutation_map; exact P|exact N].
  - eapply Permutation_in; [exact P|]. subst ps. apply in_or_app. right. left. reflexivity.
Qed.

Definition same_tables (r r' : plugins) : Prop :=
  (forall n p, entry (name_to_plugin r) n p <-> entry (name_to_plugin r') n p) /\ (forall lv, hook r lv = hook r' lv).

Theorem order_irrelevant : forall ps ps' r, Permutation ps ps' -> NoDup (map p_name ps) -> plugins_new ps = Ok r ->
  exists r', plugins_new ps' = Ok r' /\ same_tables r r'.
Proof.
  intros ps ps' r P N E. destruct (plugins_new_spec ps) as [[L (r0 & E0 & H & G)]|[_ (e & E0)]]; [|congruence].
  rewrite E in E0. injection E0 as <-. pose proof (Permutation_NoDup (Permutation_map p_name P) N) as N'.
  destruct (plugins_new_spec ps') as [[L' (r' & E' & H' & G')]|[L' _]].
  - exists r'. split; [exact E'|]. split.
    + intros n p. rewrite G, G'. split; apply last_named_perm; auto using Permutation_sym.
    + intro lv. assert (X : fst (fst (hook r lv)) = fst (fst (hook r' lv))).
      { rewrite H, H'. unfold hook_owner. pose proof (filter_perm _ (enables lv) _ _ P) as FP. specialize (L lv).
        destruct (filter (enables lv) ps) as [|x [|y l]]; [apply Permutation_nil in FP; rewrite FP; reflexivity| |cbn in L; lia].
        apply Permutation_length_1_inv in FP. rewrite FP. reflexivity. }
      destruct lv; cbn in *; congruence.
  - exfalso. apply L'. intro lv. rewrite <- (Permutation_length (filter_perm _ (enables lv) _ _ P)). apply L.
Qed.

(** The behaviour depends on the tables only. *)
Section Same.
  Variables (checks : bool) (w : world) (r r' : plugins).
  Hypothesis S : same_tables r r'.

  Lemma same_get : forall n, hm_get str_eqb (name_to_plugin r) n = hm_get str_eqb (name_to_plugin r') n.
  Proof.
    intro n. destruct (hm_get str_eqb (name_to_plugin r) n) as [p|] eqn:E; destruct (hm_get str_eqb (name_to_plugin r') n) as [q|] eqn:E'; try reflexivity.
    - rewrite (get_entry _ str_eqb_eq) in E. apply (proj1 S) in E. rewrite <- (get_entry _ str_eqb_eq) in E. congruence.
    - rewrite (get_entry _ str_eqb_eq) in E. apply (proj1 S) in E. rewrite <- (get_entry _ str_eqb_eq) in E. congruence.
    - rewrite (get_entry _ str_eqb_eq) in E'. apply (proj1 S) in E'. rewrite <- (get_entry _ str_eqb_eq) in E'. congruence.
  Qed.

  Lemma same_call : forall n f t i h, call w r n f t i h = call w r' n f t i h.
  Proof. intros. unfold call, mbind, ret. rewrite same_get. reflexivity. Qed.

  Lemma same_bind : forall A B (m m' : M A) (f f' : A -> M B), (forall h, m h = m' h) -> (forall a h, f a h = f' a h) ->
    forall h, mbind m f h = mbind m' f' h.
  Proof. intros A B m m' f f' H1 H2 h. unfold mbind. rewrite H1. destruct (m' h) as [[]]; auto. Qed.

  Lemma same_inline : forall n f vs h, call_inline_command w r n f vs h = call_inline_command w r' n f vs h.
  Proof. intros. apply same_bind; [apply same_call|reflexivity]. Qed.
  Lemma same_block : forall n f vs h, call_block_command w r n f vs h = call_block_command w r' n f vs h.
  Proof. intros. apply same_bind; [apply same_call|reflexivity]. Qed.

  Lemma same_hooked : forall lv s h, hooked (hook_of w r lv) s h = hooked (hook_of w r' lv) s h.
  Proof.
    intros lv s h. apply same_bind; [|reflexivity]. intro h0. pose proof (proj2 S lv) as H.
    destruct lv; cbn in H; injection H as H; cbn [hook_of]; unfold call_document_hook, call_stmt_hook, call_expr_hook, call_text_hook; rewrite H;
      match goal with |- match ?o with _ => _ end _ = _ => destruct o end; try reflexivity; (apply same_bind; [|reflexivity]); intro; apply same_block || apply same_inline.
  Qed.

  Lemma same_command : forall k m f ss h, command checks w r k m f ss h = command checks w r' k m f ss h.
  Proof.
    intros k m f ss h. unfold command. apply same_bind; [reflexivity|]. intros mn h1. apply same_bind; [reflexivity|]. intros fn h2.
    apply same_bind; [intro; unfold ret, argument_types_of; rewrite same_get; reflexivity|]. intros ats h3. apply same_bind; [reflexivity|].
    intros [mi ma] h4. destruct (Nat.ltb _ _); [reflexivity|]. destruct (exceeds _ _); [reflexivity|]. apply same_bind; [reflexivity|].
    intros vs h5. destruct k; apply same_block || apply same_inline.
  Qed.

  Lemma same_gens : forall k cs, Forall (fun c => forall h, gen checks w r c h = gen checks w r' c h) cs ->
    forall h, gens checks w r k cs h = gens checks w r' k cs h.
  Proof.
    intros k cs F. induction F as [|c cs Hc _ IH]; intro h; [reflexivity|]. rewrite !gens_cons.
    apply same_bind; [reflexivity|]. intros _ h1. apply same_bind; [exact Hc|]. intros x h2. apply same_bind; [exact IH|reflexivity].
  Qed.

  Theorem same_gen : forall a h, gen checks w r a h = gen checks w r' a h.
  Proof.
    induction a as [k i v l|k i cs l IH] using ast_ind'; intro h.
    - destruct k; try reflexivity. cbn [gen]. apply same_bind; [reflexivity|]. intros s h1. exact (same_hooked Text s h1).
    - rewrite !gen_inner. destruct k; try reflexivity.
      + apply same_bind; [apply same_gens; exact IH|]. intros ss h1. exact (same_hooked Document _ h1).
      + apply same_bind; [apply same_gens; exact IH|]. intros ss h1. exact (same_hooked Stmt _ h1).
      + apply same_bind; [apply same_gens; exact IH|]. intros ss h1. exact (same_hooked Expr _ h1).
      + destruct cs as [|m [|f rest]]; try reflexivity. do 2 apply Forall_inv_tail in IH.
        apply same_bind; [apply same_gens; exact IH|]. intros. apply same_command.
      + destruct cs as [|m [|f rest]]; try reflexivity. do 2 apply Forall_inv_tail in IH.
        apply same_bind; [apply same_gens; exact IH|]. intros. apply same_command.
  Qed.

  Theorem same_generate : forall a h, generate checks w r a h = generate checks w r' a h.
  Proof. intros [[] i cs l|k i v l] h; try reflexivity. apply same_gen. Qed.

  Lemma same_angle : forall doc a h, expand_angle w r doc a h = expand_angle w r' doc a h.
  Proof.
    intros doc a h. unfold expand_angle. apply same_bind; [reflexivity|]. intros cs h1. apply same_bind; [reflexivity|].
    intros [m f] h2. apply same_bind; [|reflexivity]. intro h3. apply same_bind; [apply same_call|reflexivity].
  Qed.

  Lemma same_visits : forall doc cs, Forall (fun c => forall h, visit w r doc c h = visit w r' doc c h) cs ->
    forall h, visits w r doc cs h = visits w r' doc cs h.
  Proof.
    intros doc cs F. induction F as [|c cs Hc _ IH]; intro h; [reflexivity|]. cbn [visits].
    apply same_bind; [exact Hc|]. intros x h2. apply same_bind; [exact IH|reflexivity].
  Qed.

  Lemma same_visit : forall doc c h, visit w r doc c h = visit w r' doc c h.
  Proof.
    intros doc. induction c as [k i v l|k i cs l IH] using ast_ind'; intro h; [destruct k; reflexivity|].
    destruct k; cbn [visit]; try apply same_angle; rewrite !expand_inner; (apply same_bind; [apply same_visits; exact IH|reflexivity]).
  Qed.

  Theorem same_expander : forall a h, expander w r a h = expander w r' a h.
  Proof.
    intros [k i cs l|k i v l] h; unfold expander; [|destruct k; reflexivity]. rewrite !expand_inner.
    apply same_bind; [|reflexivity]. apply same_visits. apply Forall_forall. intros c _. apply same_visit.
  Qed.
End Same.
