(** When the program prints a help text and when it complains. *)
From Coq Require Import String List NArith Bool Lia.
From Verif Require Import Base Project Cli Args SpecArgs ArgsProofs.
Import ListNotations.

Lemma classify_help : forall os a, classify os a = WantHelp <-> help_word a.
Proof.
  intros os a. unfold help_word. split.
  - intro E. destruct (hyphened a) eqn:Hy; [|apply hyphened_free in Hy; rewrite (classify_free os a Hy) in E; discriminate].
    destruct a as [|x [|y s]]; try discriminate.
    { destruct x as [|p]; [discriminate|]. cbn in Hy. repeat (destruct p as [p|p|]; try discriminate). }
    assert (x = 45%N) as ->. { cbn in Hy. destruct x as [|p]; [discriminate|]. repeat (destruct p as [p|p|]; try discriminate); reflexivity. }
    destruct (N.eq_dec y 45) as [->|D].
    + left. destruct s as [|z s]; [discriminate|].
      change (classify os (45%N :: 45%N :: z :: s)) with
        (let (name, attached) := at_equals (z :: s) in
        if str_eqb name (lit "help") then match attached with None => WantHelp | Some _ => Unknown end
        else match with_long os name with Some o => Option_ o attached | None => Unknown end) in E.
      destruct (at_equals (z :: s)) as [n r] eqn:Q. apply at_equals_eq in Q.
      destruct (str_eqb n (lit "help")) eqn:H; [|destruct (with_long os n); discriminate].
      destruct r; [discriminate|]. apply str_eqb_eq in H. subst n. rewrite app_nil_r in Q. rewrite Q. reflexivity.
    + right. exists s. assert (classify os (45%N :: y :: s) =
        if N.eqb y 104 then WantHelp
        else match with_short os y with
             | Some o => Option_ o (match s with [] => None | 61%N :: v => Some v | _ => Some s end)
             | None => Unknown
             end) as Q.
      { destruct y as [|p]; [destruct s; reflexivity|]. cbn [classify].
        repeat (destruct p as [p|p|]; try (destruct s; reflexivity)). contradiction D. reflexivity. }
      rewrite Q in E. destruct (N.eqb_spec y 104) as [->|_]; [reflexivity|]. destruct (with_short os y); discriminate.
  - intros [->|(s & ->)]; reflexivity.
Qed.

Lemma rest_no_help : forall args positional g, read_rest positional args g <> GiveHelp.
Proof.
  induction args as [|a args IH]; intros positional g; cbn; [discriminate|]. destruct positional; [|discriminate].
  unfold give. destruct (value_of [] g); [discriminate|apply IH].
Qed.

Lemma give_help : forall g k v r, give g k v r = GiveHelp -> ~ In k (map fst g) /\ r (g ++ [(k, v)]) = GiveHelp.
Proof.
  unfold give. intros g k v r E. destruct (value_of k g) eqn:F; [discriminate|]. split; [apply value_of_none, F|exact E].
Qed.

Lemma read_help_go : forall n os args g, distinct os -> length args <= n -> NoDup (map fst g) -> read_args os false args g = GiveHelp ->
  exists items wss w rest, args = concat wss ++ w :: rest /\ help_word w /\ Forall2 (item_words os) items wss /\ NoDup (map fst (g ++ items)).
Proof.
  induction n as [|n IH]; intros os args g G L N E; (destruct args as [|a args]; [discriminate|]); cbn in L; [lia|].
  cbn [read_args] in E. pose proof (classify_cases os a) as C. destruct (classify os a) as [| | | |o att] eqn:K; try discriminate.
  - contradiction (rest_no_help _ _ _ E).
  - apply classify_help in K. exists [], [], a, args. split; [reflexivity|]. split; [exact K|]. split; [constructor|]. rewrite app_nil_r. exact N.
  - destruct C as [I C].
    assert (forall v ws rest, opt_words o v ws -> length rest <= n -> a :: args = ws ++ rest ->
      give g (o_long o) v (read_args os false rest) = GiveHelp ->
      exists items wss w rest, a :: args = concat wss ++ w :: rest /\ help_word w /\ Forall2 (item_words os) items wss /\ NoDup (map fst (g ++ items))) as Step.
    { intros v ws rest W Lr Ea Gv. apply give_help in Gv. destruct Gv as [F Gv].
      apply IH in Gv; [|exact G|exact Lr|apply nodup_snoc; assumption]. destruct Gv as (items & wss & w & rest' & E1 & E2 & E3 & E4).
      exists ((o_long o, v) :: items), (ws :: wss), w, rest'. split; [rewrite Ea, E1; cbn [concat]; apply app_assoc|]. split; [exact E2|].
      split; [constructor; [|exact E3]; exists o; repeat split; [exact I|exact W]|]. rewrite <- app_assoc in E4. exact E4. }
    destruct (o_valued o) eqn:V; destruct att as [v|]; try discriminate.
    + destruct (o_accepts o v) eqn:A; [|discriminate]. apply (Step v [a] args); [|lia|reflexivity|exact E].
      unfold opt_words. rewrite V. split; [exact A|]. destruct C as [->|(c & C1 & [(C2 & C3 & ->)| ->])].
      * apply long_joined.
      * apply short_joined; assumption.
      * apply short_equals, C1.
    + destruct args as [|v args]; [discriminate|]. destruct (hyphened v) eqn:P; [discriminate|]. apply hyphened_free in P.
      destruct (o_accepts o v) eqn:A; [|discriminate]. cbn in L.
      apply (Step v [a; v] args); [|lia|reflexivity|exact E].
      unfold opt_words. rewrite V. split; [exact A|]. destruct C as [->|(c & C1 & ->)].
      * rewrite app_nil_r. apply long_apart, P.
      * apply short_apart; assumption.
    + apply (Step [] [a] args); [|lia|reflexivity|exact E].
      unfold opt_words. rewrite V. split; [reflexivity|]. destruct C as [->|(c & C1 & ->)].
      * rewrite app_nil_r. reflexivity.
      * destruct (G o I) as (_ & _ & _ & _ & X & _). rewrite (X V) in C1. discriminate.
Qed.

Lemma read_help : forall os args, distinct os -> read_args os false args [] = GiveHelp <->
  exists items wss w rest, args = concat wss ++ w :: rest /\ help_word w /\ Forall2 (item_words os) items wss /\ NoDup (map fst items).
Proof.
  intros os args G. split.
  - intro E. apply (read_help_go (length args)) in E; [exact E|exact G|lia|constructor].
  - intros (items & wss & w & rest & -> & W & F & N). rewrite (read_items os false (w :: rest) items wss G F []) by exact N.
    cbn [read_args]. apply (classify_help os) in W. rewrite W. reflexivity.
Qed.

Lemma finish_help : forall r k, finish r k = Help <-> r = GiveHelp.
Proof. intros [g| |] k; cbn; [destruct (k g)| |]; split; intro; (discriminate || reflexivity). Qed.

Lemma compile_help : forall args, read_args compile_options false args [] = GiveHelp <->
  exists ss wss w rest, args = concat wss ++ w :: rest /\ help_word w /\ Forall2 setting_words ss wss /\ NoDup (map setting_kind ss) /\
    (forall t, In (Level t) ss -> exists n, level_text t n).
Proof.
  intro args. rewrite (read_help _ _ compile_distinct). split.
  - intros (items & wss & w & rest & E & W & F & N). apply settings_items in F. destruct F as (ss & -> & F & L).
    exists ss, wss, w, rest. split; [exact E|]. split; [exact W|]. split; [exact F|]. split; [apply kinds_names, N|].
    intros t I. rewrite Forall_forall in L. exact (L _ I).
  - intros (ss & wss & w & rest & E & W & F & N & L). exists (map item_of ss), wss, w, rest. split; [exact E|]. split; [exact W|].
    split; [|apply kinds_names, N]. apply settings_items. exists ss. split; [reflexivity|]. split; [exact F|].
    apply Forall_forall. intros s I. destruct s; try exact Logic.I. exact (L _ I).
Qed.

Lemma plain_help : forall args, read_args [] false args [] = GiveHelp <-> exists w rest, args = w :: rest /\ help_word w.
Proof.
  intro args. rewrite (read_help _ _ no_distinct). split.
  - intros (items & wss & w & rest & -> & W & F & N). inversion F as [|? ? ? ? (o & [] & _) _]; subst. exists w, rest. auto.
  - intros (w & rest & -> & W). exists [], [], w, rest. split; [reflexivity|]. split; [exact W|]. split; constructor.
Qed.

Lemma new_help : forall args, read_args new_options false args [] = GiveHelp <->
  exists ws w rest, args = ws ++ w :: rest /\ (ws = [] \/ exists name, valued (lit "name") (Some 110%N) name ws) /\ help_word w.
Proof.
  intro args. rewrite (read_help _ _ new_distinct). split.
  - intros (items & wss & w & rest & -> & W & F & N). destruct F as [|it ws items wss H F].
    { exists [], w, rest. auto. }
    destruct H as (o & [<-|[]] & K & Q). destruct F as [|it' ws' items wss (o & [<-|[]] & K' & _) F].
    + exists ws, w, rest. cbn [concat]. rewrite app_nil_r. split; [reflexivity|]. split; [|exact W]. right. exists (snd it). exact (proj2 Q).
    + exfalso. cbn [map] in N. inversion N as [|? ? X _]; subst. apply X. left. rewrite K, K'. reflexivity.
  - intros (ws & w & rest & -> & [->|(name & V)] & W).
    + exists [], [], w, rest. split; [reflexivity|]. split; [exact W|]. split; constructor.
    + exists [(lit "name", name)], [ws], w, rest. cbn [concat]. rewrite app_nil_r. split; [reflexivity|]. split; [exact W|].
      split; [|constructor; [intros []|constructor]]. constructor; [|constructor].
      exists (mkOpt (lit "name") (Some 110%N) true any_value). split; [left; reflexivity|]. split; [reflexivity|]. split; [reflexivity|exact V].
Qed.

Lemma add_help : forall args, read_args [] true args [] = GiveHelp <->
  exists ws w rest, args = ws ++ w :: rest /\ (ws = [] \/ exists schema, free schema /\ ws = [schema]) /\ help_word w.
Proof.
  intro args. split.
  - destruct args as [|a args]; [discriminate|]. cbn [read_args]. pose proof (classify_cases [] a) as C.
    destruct (classify [] a) eqn:K; try discriminate.
    + intro E. contradiction (rest_no_help _ _ _ E).
    + intros _. exists [], a, args. apply classify_help in K. auto.
    + cbn [give value_of app]. destruct args as [|b args]; [discriminate|]. cbn [read_args]. pose proof (classify_cases [] b) as D.
      destruct (classify [] b) eqn:K'; try discriminate.
      * intro E. contradiction (rest_no_help _ _ _ E).
      * intros _. exists [a], b, args. apply classify_help in K'. split; [reflexivity|]. split; [right; exists a; auto|exact K'].
      * destruct D as [[] _].
    + destruct C as [[] _].
  - intros (ws & w & rest & -> & [->|(s & F & ->)] & W); apply (classify_help []) in W; cbn [app read_args].
    + rewrite W. reflexivity.
    + rewrite (classify_free [] s F). cbn [give value_of app read_args]. rewrite W. reflexivity.
Qed.

Theorem help_spec : forall args, parse_args args = Help <-> asks_help args.
Proof.
  intro args. split.
  - destruct args as [|a args]; [discriminate|]. unfold parse_args.
    destruct (str_eqb a (lit "compile")) eqn:E1; [apply str_eqb_eq in E1; subst a; intro H; apply finish_help, compile_help in H;
      destruct H as (ss & wss & w & rest & -> & W & F & N & L); apply (help_compile ss); assumption|].
    destruct (str_eqb a (lit "build")) eqn:E2; [apply str_eqb_eq in E2; subst a; intro H; apply finish_help, plain_help in H;
      destruct H as (w & rest & -> & W); apply (help_plain "build"); [cbn; tauto|exact W]|].
    destruct (str_eqb a (lit "language-server")) eqn:E3; [apply str_eqb_eq in E3; subst a; intro H; apply finish_help, plain_help in H;
      destruct H as (w & rest & -> & W); apply (help_plain "language-server"); [cbn; tauto|exact W]|].
    destruct (str_eqb a (lit "new")) eqn:E4; [apply str_eqb_eq in E4; subst a; intro H; apply finish_help, new_help in H;
      destruct H as (ws & w & rest & -> & V & W); apply help_new; assumption|].
    destruct (str_eqb a (lit "add")) eqn:E5; [apply str_eqb_eq in E5; subst a; intro H; apply finish_help, add_help in H;
      destruct H as (ws & w & rest & -> & V & W); apply help_add; assumption|].
    destruct (str_eqb a (lit "version")) eqn:E6; [apply str_eqb_eq in E6; subst a; intro H; apply finish_help, plain_help in H;
      destruct H as (w & rest & -> & W); apply (help_plain "version"); [cbn; tauto|exact W]|].
    destruct (str_eqb a (lit "help")) eqn:E7.
    + apply str_eqb_eq in E7. subst a. destruct args as [|b [|? ?]]; try discriminate; [intros _; apply help_alone|].
      destruct (named b) eqn:Nb; [|discriminate]. intros _. unfold named in Nb. apply existsb_exists in Nb. destruct Nb as (c & I & Q).
      apply str_eqb_eq in Q. subst c. cbn in I. 
      destruct I as [<-|[<-|[<-|[<-|[<-|[<-|[<-|[]]]]]]]].
      * apply (help_about "compile"). cbn; tauto.
      * apply (help_about "build"). cbn; tauto.
      * apply (help_about "language-server"). cbn; tauto.
      * apply (help_about "new"). cbn; tauto.
      * apply (help_about "add"). cbn; tauto.
      * apply (help_about "version"). cbn; tauto.
      * apply (help_about "help"). cbn; tauto.
    + destruct (classify [] a) eqn:K; try discriminate. intros _. apply help_first, (classify_help []), K.
  - intros [w rest W| |c I|ss wss w rest F N L W|ws w rest V W|ws w rest V W|c w rest I W].
    + destruct W as [->|(s & ->)]; reflexivity.
    + reflexivity.
    + cbn in I. destruct I as [<-|[<-|[<-|[<-|[<-|[<-|[<-|[]]]]]]]]; reflexivity.
    + unfold parse_args. rewrite str_eqb_refl. apply finish_help, compile_help. exists ss, wss, w, rest. auto.
    + change (finish (read_args new_options false (ws ++ w :: rest) []) (fun g => option_map New (value_of (lit "name") g)) = Help).
      apply finish_help, new_help. exists ws, w, rest. auto.
    + change (finish (read_args [] true (ws ++ w :: rest) []) (fun g => option_map Add (value_of [] g)) = Help).
      apply finish_help, add_help. exists ws, w, rest. auto.
    + cbn in I. destruct I as [<-|[<-|[<-|[]]]].
      * change (finish (read_args [] false (w :: rest) []) (fun _ => Some Build) = Help). apply finish_help, plain_help. exists w, rest. auto.
      * change (finish (read_args [] false (w :: rest) []) (fun _ => Some LanguageServer) = Help). apply finish_help, plain_help. exists w, rest. auto.
      * change (finish (read_args [] false (w :: rest) []) (fun _ => Some Version) = Help). apply finish_help, plain_help. exists w, rest. auto.
Qed.

Theorem main_help : forall m args, asks_help args -> main m args = Some (fun _ => ([], Some 0%N)).
Proof. intros m args H. apply help_spec in H. unfold main. rewrite H. reflexivity. Qed.
Theorem main_usage : forall m args, (forall c, ~ spelled args c) -> ~ asks_help args -> main m args = Some (fun _ => ([], Some 2%N)).
Proof.
  intros m args H X. unfold main. destruct (parse_args args) as [c| |] eqn:E; [|apply help_spec in E; contradiction|reflexivity].
  apply args_spec in E. contradiction (H c E).
Qed.
Theorem help_or_command : forall args c, asks_help args -> ~ spelled args c.
Proof. intros args c H S. apply help_spec in H. apply args_spec in S. congruence. Qed.
