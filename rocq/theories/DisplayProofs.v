(** What the comparisons and [Display] tell apart. *)
From Coq Require Import String List NArith Arith Bool Lia.
From Verif Require Import Base Tokens CST AST TransformError SpecTransform SpecStrip SpecShow Framing Json Serde Project Show Kinds Display
  ParserProofs2 TransformIds ShowProofs SpecTok Parser Transform Boundaries SpecGen SpecLsp FramingProofs2.
Import ListNotations.

(** * Comparisons *)
Theorem cst_kind_iff : forall c d, cst_matches_kind c d = true <-> cst_kind c = cst_kind d /\ cst_kind c <> inr LInvalid.
Proof. intros [[] cs l|[] v l] [[] ds m|[] u m]; cbn; split; try discriminate; try (intros [H _]; discriminate H); try (intros [_ H]; congruence); repeat split; discriminate. Qed.
Theorem ast_kind_iff : forall a b, ast_matches_kind a b = true <-> ast_kind a = ast_kind b.
Proof. intros [[] i cs l|[] i v l] [[] j ds m|[] j u m]; cbn; split; try discriminate; try reflexivity. Qed.

Lemma ostr_eqb_iff : forall a b, ostr_eqb a b = true <-> a = b.
Proof.
  intros [a|] [b|]; cbn; try (split; discriminate || reflexivity). rewrite str_eqb_eq. split; [intros ->; reflexivity|congruence].
Qed.

Lemma faultless_inner : forall k i cs l, faultless (AInner k i cs l) <-> Forall faultless cs.
Proof.
  intros k i cs l. unfold faultless. cbn [ast_nodes]. rewrite Forall_forall. split.
  - intros H c I b J. apply H. right. apply in_flat_map. exists c. auto.
  - intros H b [<-|I]; [split; discriminate|]. apply in_flat_map in I as (c & I & J). exact (H c I b J).
Qed.

Theorem assert_ast_eq_iff : forall a b, assert_ast_eq a b = Ok tt <-> bare a = bare b /\ faultless a.
Proof.
  induction a as [k i v l|k i cs l IH] using ast_ind'; intros b.
  - assert (S : faultless (ALeaf k i v l) <-> k <> FInvalid /\ k <> FIgnored).
    { unfold faultless. cbn [ast_nodes]. split.
      - intro H. destruct (H _ (or_introl eq_refl)) as [A B]. cbn in A, B. split; congruence.
      - intros [A B] c [<-|[]]. cbn. split; congruence. }
    rewrite S. destruct b as [k' j ds m|k' j u m].
    + split; [destruct k; discriminate|]. intros [H _]. discriminate H.
    + assert (V : forall x : res unit, x = assert_that (ostr_eqb v u) -> (x = Ok tt <-> v = u)).
      { intros x ->. unfold assert_that. rewrite <- ostr_eqb_iff. destruct (ostr_eqb v u); split; try discriminate; reflexivity. }
      cbn [bare]. destruct k, k'; cbn [assert_ast_eq]; try (split; [discriminate|]; intros [H X]; (discriminate H || (destruct X as [X Y]; congruence)));
        rewrite (V _ eq_refl); (split; [intros ->; repeat split; discriminate|intros [H _]; congruence]).
  - rewrite faultless_inner. destruct b as [k' j ds m|k' j u m].
    2: { split; [destruct k; discriminate|]. intros [H _]. discriminate H. }
    set (go := fix go (cs ds : list ast) : res unit :=
         match cs, ds with
         | c :: cs', d :: ds' => let! _ := assert_ast_eq c d in go cs' ds'
         | _, _ => Ok tt
         end).
    assert (G : (let! _ := assert_that (Nat.eqb (length cs) (length ds)) in go cs ds) = Ok tt <-> map bare cs = map bare ds /\ Forall faultless cs).
    { revert ds. induction IH as [|c cs Hc _ IHc]; intros [|d ds]; cbn [length Nat.eqb map].
      - cbn. split; [intros _; split; [reflexivity|constructor]|reflexivity].
      - cbn. split; [discriminate|]. intros [H _]. discriminate H.
      - cbn. split; [discriminate|]. intros [H _]. discriminate H.
      - specialize (IHc ds). specialize (Hc d). destruct (Nat.eqb (length cs) (length ds)) eqn:E.
        + cbn [assert_that bind go] in *. split.
          * intro H. apply bind_ok in H as ([] & H1 & H). apply Hc in H1 as [-> S]. apply IHc in H as [-> F]. split; [reflexivity|constructor; assumption].
          * intros [H F]. injection H as H1 H2. inversion F; subst. rewrite (proj2 Hc), (proj2 IHc); auto.
        + split; [discriminate|]. intros [H _]. injection H as _ H. apply (f_equal (@length _)) in H. rewrite !map_length in H.
          apply Nat.eqb_neq in E. contradiction. }
    cbn [bare]. destruct k, k'; cbn [assert_ast_eq]; try (split; [discriminate|]; intros [H _]; discriminate H);
      fold go; rewrite G; split; intros [H F]; (split; [congruence|exact F]).
Qed.
Theorem assert_ast_eq_panics : forall a b, assert_ast_eq a b = Ok tt \/ exists e, assert_ast_eq a b = Panic e.
Proof.
  induction a as [k i v l|k i cs l IH] using ast_ind'; intros b.
  - destruct k, b as [[] ? ? ?|[] ? u ?]; cbn; eauto; unfold assert_that; destruct (ostr_eqb v u); eauto.
  - assert (G : forall ds, let x := (let! _ := assert_that (Nat.eqb (length cs) (length ds)) in
       (fix go (cs ds : list ast) : res unit :=
         match cs, ds with
         | c :: cs', d :: ds' => let! _ := assert_ast_eq c d in go cs' ds'
         | _, _ => Ok tt
         end) cs ds) in x = Ok tt \/ exists e, x = Panic e).
    { intro ds. cbv zeta. unfold assert_that. destruct (Nat.eqb (length cs) (length ds)); cbn [bind]; [|eauto].
      revert ds. induction IH as [|c cs Hc _ IHc]; intros [|d ds]; eauto. destruct (Hc d) as [->|(e & ->)]; cbn [bind]; eauto. }
    destruct k, b as [[] ? ds ?|[] ? u ?]; try (right; eexists; reflexivity); apply G.
Qed.

(** * Display *)
Lemma indent_snoc : forall n, indent (S n) = indent n ++ lit "  ".
Proof. induction n as [|n IH]; [reflexivity|]. change (indent (S (S n))) with (lit "  " ++ indent (S n)). rewrite IH at 1. reflexivity. Qed.

(** Up to the first bracket or comma. *)
Lemma id_split : forall (a b x y : str) k k', (forall c, In c a -> c <> 41%N /\ c <> 44%N) -> (forall c, In c b -> c <> 41%N /\ c <> 44%N) ->
  In k [41; 44]%N -> In k' [41; 44]%N -> a ++ k :: x = b ++ k' :: y -> a = b /\ k :: x = k' :: y.
Proof.
  induction a as [|c a IH]; intros [|d b] x y k k' A B K K' H; cbn [app] in H.
  - auto.
  - injection H as -> _. destruct (B d (or_introl eq_refl)). destruct K as [<-|[<-|[]]]; congruence.
  - injection H as <- _. destruct (A c (or_introl eq_refl)). destruct K' as [<-|[<-|[]]]; congruence.
  - injection H as <- H. destruct (IH b x y k k') as [-> E]; auto; intros z I; [apply A|apply B]; right; exact I.
Qed.

Section Display.
  Variable shown : N -> bool.

  Definition plain_ids (ids : list nat -> str) : Prop := forall p c, In c (ids p) -> c <> 41%N /\ c <> 44%N.
  Lemma plain_child : forall ids i, plain_ids ids -> plain_ids (fun p => ids (i :: p)).
  Proof. intros ids i H p. apply H. Qed.

  Definition children_display (n : nat) := fix go (ids : list nat -> str) (i : nat) (cs : list cst) : str :=
    match cs with
    | [] => []
    | x :: cs' => cst_display shown (fun p => ids (i :: p)) (S n) x ++ lit "," ++ [10%N] ++ go ids (S i) cs'
    end.

  (** The line on which a node begins. *)
  Definition name_of (c : cst) : str := match c with CInner k _ _ => cinner_name k | CLeaf k _ _ => cleaf_name k end.
  Definition after_id (ids : list nat -> str) (n : nat) (c : cst) : str :=
    match c with
    | CInner CBackSlash _ _ => lit ")"
    | CInner _ cs _ => lit ") [" ++ [10%N] ++ children_display n ids 0 cs ++ indent n ++ lit "]"
    | CLeaf (LModule | LIdent | LText) v _ => lit ", value: " ++ debug_option shown v ++ lit ")"
    | CLeaf _ _ _ => lit ")"
    end.
  Lemma display_split : forall c ids n, cst_display shown ids n c = indent n ++ name_of c ++ lit "(id: " ++ ids [] ++ after_id ids n c.
  Proof.
    intros [k cs l|k v l] ids n; [|destruct k; reflexivity].
    assert (G : forall i, (fix go i cs := match cs with
                         | [] => []
                         | x :: cs' => cst_display shown (fun p => ids (i :: p)) (S n) x ++ lit "," ++ [10%N] ++ go (S i) cs'
                         end) i cs = children_display n ids i cs).
    { induction cs as [|c cs IH]; intro i; [reflexivity|]. cbn [children_display]. rewrite IH. reflexivity. }
    destruct k; cbn [cst_display name_of after_id]; rewrite ?G; reflexivity.
  Qed.
  Lemma name_good : forall c, ~ In 40%N (name_of c) /\ exists x t, name_of c = x :: t /\ x <> 93%N /\ x <> 32%N.
  Proof. intros [[] cs l|[] v l]; (split; [apply absent; reflexivity|do 2 eexists; split; [reflexivity|split; discriminate]]). Qed.
  Lemma kind_of_name : forall c d, name_of c = name_of d -> cst_kind c = cst_kind d.
  Proof. intros [[] cs l|[] v l] [[] ds m|[] u m] H; try discriminate H; reflexivity. Qed.

  Lemma display_inj : forall c d ids ids' n x y, plain_ids ids -> plain_ids ids' ->
    cst_display shown ids n c ++ x = cst_display shown ids' n d ++ y -> outline c = outline d /\ x = y.
  Proof.
    induction c as [k v l|k cs l IH] using cst_ind'; intros d ids ids' n x y P P' H; rewrite !display_split in H; rewrite <- !app_assoc in H;
      apply app_inv_head in H; destruct (name_good d) as [ND _].
    - destruct (name_good (CLeaf k v l)) as [NC _]. apply (name_inj _ _ _ _ NC ND) in H as [N H]. apply kind_of_name in N.
      destruct d as [k' ds m|k' u m]; [discriminate N|]. injection N as <-. apply (app_inv_head (lit "id: ")) in H.
      assert (Q : forall k, exists c t, after_id ids n (CLeaf k v l) = c :: t /\ In c [41; 44]%N) by (intros []; do 2 eexists; (split; [reflexivity|cbn; auto])).
      assert (Q' : forall k, exists c t, after_id ids' n (CLeaf k u m) = c :: t /\ In c [41; 44]%N) by (intros []; do 2 eexists; (split; [reflexivity|cbn; auto])).
      destruct (Q k) as (c1 & t1 & E1 & I1), (Q' k) as (c2 & t2 & E2 & I2). rewrite E1, E2 in H. cbn [app] in H.
      destruct (id_split _ _ _ _ _ _ (P []) (P' []) I1 I2 H) as [_ H2]. rewrite !app_comm_cons, <- E1, <- E2 in H2.
      destruct k; cbn [after_id outline] in *; rewrite <- ?app_assoc in H2;
        try (injection H2 as ->; split; reflexivity);
        (apply app_inv_head in H2; apply option_inj in H2 as [-> H2]; injection H2 as ->; split; reflexivity).
    - destruct (name_good (CInner k cs l)) as [NC _]. apply (name_inj _ _ _ _ NC ND) in H as [N H]. apply kind_of_name in N.
      destruct d as [k' ds m|k' u m]; [|discriminate N]. injection N as <-. apply (app_inv_head (lit "id: ")) in H.
      assert (Q : forall cs l ids, exists t, after_id ids n (CInner k cs l) = 41%N :: t) by (intros; destruct k; eexists; reflexivity).
      destruct (Q cs l ids) as (t1 & E1), (Q ds m ids') as (t2 & E2). rewrite E1, E2 in H. cbn [app] in H.
      destruct (id_split _ _ _ _ 41%N 41%N (P []) (P' []) (or_introl eq_refl) (or_introl eq_refl) H) as [_ H2].
      rewrite !app_comm_cons, <- E1, <- E2 in H2.
      assert (G : forall i ds, children_display n ids i cs ++ indent n ++ lit "]" ++ x = children_display n ids' i ds ++ indent n ++ lit "]" ++ y ->
                  map outline cs = map outline ds /\ x = y).
      { clear -IH P P'. assert (D : forall ids' i d ds z y, indent n ++ lit "]" ++ z <> children_display n ids' i (d :: ds) ++ y).
        { intros jds i d ds z y0 H. cbn [children_display] in H. rewrite display_split, indent_snoc in H. rewrite <- !app_assoc in H. apply app_inv_head in H. discriminate H. }
        induction IH as [|c cs Hc _ IHc]; intros i [|d ds] H.
        - cbn [children_display app] in H. apply app_inv_head in H. injection H as H. auto.
        - exfalso. eapply D; exact H.
        - exfalso. eapply D; symmetry; exact H.
        - cbn [children_display] in H. rewrite <- !app_assoc in H. apply Hc in H as [E H]; [|apply plain_child; assumption..].
          injection H as H. apply IHc in H as [E2 ->]. cbn [map]. split; [congruence|reflexivity]. }
      destruct k; cbn [after_id outline] in *; rewrite <- ?app_assoc in H2; try (injection H2 as ->; split; reflexivity);
        apply app_inv_head in H2; injection H2 as H2; apply G in H2 as [-> ->]; split; reflexivity.
  Qed.

  Lemma display_same : forall c d ids n, outline c = outline d -> cst_display shown ids n c = cst_display shown ids n d.
  Proof.
    induction c as [k v l|k cs l IH] using cst_ind'; intros [k' ds m|k' u m] ids n E.
    - destruct k, k'; discriminate E.
    - destruct k, k'; try discriminate E; cbn [outline] in E; try injection E as ->; reflexivity.
    - rewrite !display_split. f_equal.
      assert (G : map outline cs = map outline ds -> forall i, children_display n ids i cs = children_display n ids i ds).
      { clear E. revert ds. induction IH as [|c cs Hc _ IHc]; intros [|d ds] E i; try discriminate E; [reflexivity|].
        cbn [map] in E. injection E as E1 E2. cbn [children_display]. rewrite (Hc d _ _ E1), (IHc ds E2). reflexivity. }
      destruct k, k'; try discriminate E; cbn [outline] in E; cbn [name_of after_id]; try (injection E as E; rewrite (G E)); reflexivity.
    - destruct k, k'; discriminate E.
  Qed.

  Theorem cst_display_iff : forall c d ids, plain_ids ids -> cst_display shown ids 0 c = cst_display shown ids 0 d <-> outline c = outline d.
  Proof.
    intros c d ids P. split; [|apply display_same]. intro H.
    destruct (display_inj c d ids ids 0 [] [] P P) as [E _]; [rewrite !app_nil_r; exact H|exact E].
  Qed.
End Display.

Lemma message_inj : forall a b, get_message a = get_message b -> fst a = fst b.
Proof. intros [[] l] [[] m] H; cbn in *; congruence || (vm_compute in H; discriminate H). Qed.
Theorem error_display_text : forall k l, exists m a b c d, In (k, m) said /\
  SpecFraming.decimal a (N.of_nat (pline (lstart l))) /\ SpecFraming.decimal b (N.of_nat (pchar (lstart l))) /\
  SpecFraming.decimal c (N.of_nat (pline (lend l))) /\ SpecFraming.decimal d (N.of_nat (pchar (lend l))) /\
  error_display (k, l) = lit "Error at line " ++ a ++ lit ", column " ++ b ++ lit " to line " ++ c ++ lit ", column " ++ d ++ lit ": " ++ lit m.
Proof.
  intros k l. assert (M : exists m, In (k, m) said /\ get_message (k, l) = lit m) by (destruct k; eexists; (split; [|reflexivity]); cbn; tauto).
  destruct M as (m & I & M). do 5 eexists. split; [exact I|]. do 4 (split; [apply dec_decimal|]). unfold error_display. rewrite M. reflexivity.
Qed.
Theorem error_display_inj : forall e f, error_display e = error_display f -> e = f.
Proof.
  intros [k [[a b] [c d]]] [k' [[a' b'] [c' d']]] H. unfold error_display in H. cbn [fst snd lstart lend pline pchar] in H.
  apply app_inv_head in H.
  apply (usize_inj _ _ 44%N 44%N) in H as [-> H]; [|reflexivity..]. apply (app_inv_head (lit ", column ")) in H.
  apply (usize_inj _ _ 32%N 32%N) in H as [-> H]; [|reflexivity..]. apply (app_inv_head (lit " to line ")) in H.
  apply (usize_inj _ _ 44%N 44%N) in H as [-> H]; [|reflexivity..]. apply (app_inv_head (lit ", column ")) in H.
  apply (usize_inj _ _ 58%N 58%N) in H as [-> H]; [|reflexivity..]. apply (app_inv_head (lit ": ")) in H.
  apply message_inj in H. cbn in H. subst. reflexivity.
Qed.

(** ASTs *)
Lemma line_split : forall (a b x y : str), ~ In 10%N a -> ~ In 10%N b -> a ++ 10%N :: x = b ++ 10%N :: y -> a = b /\ x = y.
Proof.
  induction a as [|c a IH]; intros [|d b] x y A B H; cbn [app] in H.
  - injection H as ->. auto.
  - injection H as H _. subst. exfalso. apply B. left. reflexivity.
  - injection H as H _. subst. exfalso. apply A. left. reflexivity.
  - injection H as <- H. destruct (IH b x y) as [-> ->]; auto; intro I; [apply A|apply B]; right; exact I.
Qed.

Definition line_of (a : ast) : str :=
  match a with
  | AInner NDocument _ _ _ => lit "Document" | AInner NStmt _ _ _ => lit "Stmt" | AInner NExpr _ _ _ => lit "Expr"
  | AInner NAngle _ _ _ => lit "Angle" | AInner NSquare _ _ _ => lit "Square" | AInner NCurly _ _ _ => lit "Curly"
  | ALeaf FIdent _ (Some v) _ => lit "Ident: " ++ v
  | ALeaf FModule _ (Some v) _ => lit "Module: " ++ v
  | ALeaf FText _ (Some v) _ => lit "Text: " ++ v
  | ALeaf FInvalid _ _ _ => lit "Invalid"
  | ALeaf FIgnored _ _ _ => lit "Ignored"
  | ALeaf _ _ None _ => []
  end.
Definition display_all (n : nat) := fix go (cs : list ast) : res str :=
  match cs with
  | [] => Ok []
  | c :: cs' => let! x := ast_display (S n) c in let! y := go cs' in Ok (x ++ y)
  end.
Definition kids (a : ast) : list ast := match a with AInner _ _ cs _ => cs | ALeaf _ _ _ _ => [] end.
Lemma ast_display_split : forall n a s, ast_display n a = Ok s -> exists t, display_all n (kids a) = Ok t /\ s = indent n ++ line_of a ++ [10%N] ++ t.
Proof.
  intros n [k i cs l|k i v l] s H; cbn [ast_display kids] in *.
  - apply bind_ok in H as (t & Ht & H). exists t. split; [exact Ht|]. injection H as <-. destruct k; reflexivity.
  - exists []. split; [reflexivity|]. destruct k; try destruct v; try discriminate H; injection H as <-; cbn [line_of]; rewrite <- ?app_assoc; reflexivity.
Qed.
Lemma line_ok : forall a, one_line a -> ~ In 10%N (line_of a).
Proof.
  intros [k i cs l|k i v l] O.
  - destruct k; apply absent; reflexivity.
  - assert (V : forall u, v = Some u -> ~ In 10%N u) by (intros u ->; apply (O k i u l); left; reflexivity).
    destruct v as [u|].
    + specialize (V u eq_refl). destruct k; cbn [line_of]; try (apply absent; reflexivity);
        (intro I; apply in_app_iff in I as [I|I]; [revert I; apply absent; reflexivity|exact (V I)]).
    + destruct k; cbn [line_of]; try (apply absent; reflexivity); intros [].
Qed.
Definition head_of (a : ast) : ast := match a with AInner k _ _ _ => AInner k [] [] mock_location | ALeaf _ _ _ _ => shape a end.
Lemma line_inj : forall n m a b s t, ast_display n a = Ok s -> ast_display m b = Ok t -> line_of a = line_of b -> head_of a = head_of b.
Proof.
  intros n m [[] i cs l|[] i [v|] l] [[] j ds k|[] j [u|] k] s t A B H; try discriminate A; try discriminate B; cbn [line_of] in H; try discriminate H; try reflexivity;
    apply app_inv_head in H; subst; reflexivity.
Qed.
Lemma line_starts : forall n a s, ast_display n a = Ok s -> exists c r, line_of a = c :: r /\ c <> 32%N.
Proof.
  intros n [[] i cs l|[] i [v|] l] s A; try discriminate A; do 2 eexists; (split; [reflexivity|discriminate]).
Qed.

(** What follows a node is not deeper than it. *)
Definition not_deeper (n : nat) (x : str) : Prop := forall z, x <> indent n ++ z.
Lemma not_deeper_S : forall n x, not_deeper n x -> not_deeper (S n) x.
Proof. intros n x H z E. rewrite indent_snoc, <- app_assoc in E. exact (H _ E). Qed.
Lemma all_not_deeper : forall n cs s x, display_all n cs = Ok s -> not_deeper (S n) x -> not_deeper (S (S n)) (s ++ x).
Proof.
  intros n [|c cs] s x H F; cbn [display_all] in H.
  - injection H as <-. apply not_deeper_S, F.
  - apply bind_ok in H as (a & Ha & H). apply bind_ok in H as (b & Hb & H). injection H as <-.
    destruct (ast_display_split _ _ _ Ha) as (t & _ & ->). destruct (line_starts _ _ _ Ha) as (d & r & -> & N).
    intros z E. rewrite (indent_snoc (S n)) in E. rewrite <- !app_assoc in E. apply app_inv_head in E. injection E as E _. congruence.
Qed.

Lemma ast_display_inj : forall a b n s t x y, ast_display n a = Ok s -> ast_display n b = Ok t -> one_line a -> one_line b ->
  not_deeper (S n) x -> not_deeper (S n) y -> s ++ x = t ++ y -> shape a = shape b /\ x = y.
Proof.
  assert (SUB : forall k i cs l, one_line (AInner k i cs l) -> Forall one_line cs).
  { intros k i cs l O. apply Forall_forall. intros c I k' i' v l' J. apply (O k' i' v l'). cbn [ast_nodes]. right. apply in_flat_map. eauto. }
  induction a as [k i v l|k i cs l IH] using ast_ind'; intros b n s t x y A B OA OB FX FY E;
    pose proof (line_inj n n _ _ s t A B) as L;
    destruct (ast_display_split _ _ _ A) as (s' & A' & ->); destruct (ast_display_split _ _ _ B) as (t' & B' & ->);
    rewrite <- !app_assoc in E; apply app_inv_head in E; cbn [app] in E;
    apply line_split in E as [E1 E2]; try (apply line_ok; assumption); specialize (L E1).
  - destruct b as [k' j ds m|k' j u m]; [destruct k; discriminate L|]. cbn [kids display_all] in A', B'. injection A' as <-. injection B' as <-. auto.
  - destruct b as [k' j ds m|k' j u m]; [|destruct k'; discriminate L]. cbn [head_of] in L. injection L as <-. cbn [kids] in A', B'. cbn [shape].
    cut (map shape cs = map shape ds /\ x = y); [intros [-> ->]; auto|].
    apply SUB in OA. apply SUB in OB. clear A B E1 i l j m SUB. revert ds s' t' A' B' OB E2.
    induction IH as [|c cs Hc _ IHc]; intros [|d ds] s' t' A B OB E2; cbn [display_all] in A, B.
    + injection A as <-. injection B as <-. auto.
    + injection A as <-. apply bind_ok in B as (b & Hb & B). apply bind_ok in B as (b' & Hb' & B). injection B as <-.
      destruct (ast_display_split _ _ _ Hb) as (t & _ & ->). cbn [app] in E2. rewrite <- !app_assoc in E2. exfalso. exact (FX _ E2).
    + injection B as <-. apply bind_ok in A as (b & Hb & B). apply bind_ok in B as (b' & Hb' & B). injection B as <-.
      destruct (ast_display_split _ _ _ Hb) as (t & _ & ->). cbn [app] in E2. rewrite <- !app_assoc in E2. exfalso. exact (FY _ (eq_sym E2)).
    + apply bind_ok in A as (a1 & A1 & A). apply bind_ok in A as (a2 & A2 & A). injection A as <-.
      apply bind_ok in B as (b1 & B1 & B). apply bind_ok in B as (b2 & B2 & B). injection B as <-.
      inversion OA; inversion OB; subst. rewrite <- !app_assoc in E2.
      apply (Hc d (S n) _ _ _ _ A1 B1) in E2 as [E3 E2]; [|assumption|assumption|exact (all_not_deeper _ _ _ _ A2 FX)|exact (all_not_deeper _ _ _ _ B2 FY)].
      destruct (IHc H2 ds a2 b2 A2 B2 H6 E2) as [E4 ->]. cbn [map]. split; [congruence|reflexivity].
Qed.
Theorem ast_display_one_line : forall a b s, one_line a -> one_line b -> ast_display 0 a = Ok s -> ast_display 0 b = Ok s -> shape a = shape b.
Proof.
  intros a b s OA OB A B. destruct (ast_display_inj a b 0 s s [] [] A B OA OB) as [E _]; auto; intros z; discriminate.
Qed.
Theorem ast_display_same : forall a b n, shape a = shape b -> ast_display n a = ast_display n b.
Proof.
  induction a as [k i v l|k i cs l IH] using ast_ind'; intros [k' j ds m|k' j u m] n E.
  - destruct k; discriminate E.
  - destruct k, k'; try discriminate E; cbn [shape] in E; try injection E as ->; reflexivity.
  - cbn [shape] in E. injection E as <- E. cbn [ast_display].
    assert (G : display_all n cs = display_all n ds).
    { revert ds E. induction IH as [|c cs Hc _ IHc]; intros [|d ds] E; try discriminate E; [reflexivity|].
      cbn [map] in E. injection E as E1 E2. cbn [display_all]. rewrite (Hc d _ E1), (IHc ds E2). reflexivity. }
    unfold display_all in G. rewrite G. reflexivity.
  - destruct k'; discriminate E.
Qed.
Theorem ast_display_written : forall a n, (exists s, ast_display n a = Ok s) <-> has_values a.
Proof.
  induction a as [k i v l|k i cs l IH] using ast_ind'; intro n.
  - split.
    + intros (s & H) k' i' l' [E|[]]. injection E as -> -> -> ->. destruct k'; try discriminate H; cbn; auto.
    + intro W. destruct v as [v|]; [destruct k; eexists; reflexivity|].
      destruct (W k i l) as [<-|[<-|[]]]; [left; reflexivity|eexists; reflexivity..].
  - assert (G : (exists s, display_all n cs = Ok s) <-> Forall has_values cs).
    { induction IH as [|c cs Hc _ IHc]; [split; [constructor|eexists; reflexivity]|]. cbn [display_all]. split.
      - intros (s & H). apply bind_ok in H as (a & Ha & H). apply bind_ok in H as (b & Hb & H).
        constructor; [apply (Hc (S n)); eauto|apply IHc; eauto].
      - intro F. inversion F; subst. apply (Hc (S n)) in H1 as (a & ->). apply IHc in H2 as (b & ->). eexists. reflexivity. }
    transitivity (exists s, display_all n cs = Ok s).
    + cbn [ast_display]. split.
      * intros (s & H). apply bind_ok in H as (t & H & _). eauto.
      * intros (t & H). unfold display_all in H. rewrite H. eexists. reflexivity.
    + rewrite G, Forall_forall. unfold has_values. cbn [ast_nodes]. split.
      * intros H k' i' l' [E|I]; [discriminate E|]. apply in_flat_map in I as (c & I & J). exact (H c I k' i' l' J).
      * intros H c I k' i' l' J. apply (H k' i' l'). right. apply in_flat_map. eauto.
Qed.

(** Of documents *)
Theorem document_one_line : forall uuid ts c a es, own_lines ts -> parse ts = Ok c -> transform uuid c = Ok (a, es) -> one_line a.
Proof.
  intros uuid ts c a es O P T.
  assert (A : aok (fun _ => True) (fun v => ~ In 10%N v) a).
  { eapply transform_ok with (ts := ts); try eassumption; try exact I.
    - intros k s E. destruct k; cbn in E; try discriminate E; injection E as <-; apply absent; reflexivity.
    - apply Forall_forall. intros t It. split; [repeat split|]. specialize (O t It).
      destruct (tk t); exact I || (apply O; discriminate). }
  clear - A. induction a as [k i v l|k i cs l IH] using ast_ind'; intros k' i' v' l' J; cbn [ast_nodes] in J.
  - destruct J as [J|[]]. injection J as -> -> -> ->. inversion A; subst. assumption.
  - destruct J as [J|J]; [discriminate J|]. apply in_flat_map in J as (c & I & J). inversion A; subst.
    rewrite Forall_forall in IH, H1. exact (IH c I (H1 c I) k' i' v' l' J).
Qed.
