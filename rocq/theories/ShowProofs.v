(** The printed texts carry what they show (C83). *)
From Coq Require Import String List NArith ZArith Arith Bool Lia.
From Verif Require Import Base Tokens Graphemes Tokenizer CST AST Parser TransformError Transform Utf8 Framing Json Serde Project Cli Show
  SpecTok SpecFraming SpecJson SpecLsp SpecSerde FramingProofs FramingProofs2 JsonProofs JsonTotal CacheProofs
  ParserProofs2 TransformIds Boundaries HeightProofs SerdeProofs TokenizerProofs ExchangeProofs.
Import ListNotations.

(** * [{:?}] can be read in one way *)

Lemma digit_split : forall a b k k' x y, forallb is_digit a = true -> forallb is_digit b = true ->
  is_digit k = false -> is_digit k' = false -> a ++ k :: x = b ++ k' :: y -> a = b /\ k :: x = k' :: y.
Proof.
  induction a as [|c a IH]; intros [|d b] k k' x y A B K K' H; cbn [app] in H.
  - auto.
  - injection H as -> _. cbn [forallb] in B. apply andb_true_iff in B as [B _]. congruence.
  - injection H as <- _. cbn [forallb] in A. apply andb_true_iff in A as [A _]. congruence.
  - cbn [forallb] in A, B. apply andb_true_iff in A as [_ A], B as [_ B]. injection H as <- H.
    destruct (IH _ _ _ _ _ A B K K' H) as [-> E]. auto.
Qed.

Lemma usize_inj : forall n m k k' x y, is_digit k = false -> is_digit k' = false ->
  debug_usize n ++ k :: x = debug_usize m ++ k' :: y -> n = m /\ k :: x = k' :: y.
Proof.
  intros n m k k' x y K K' H. unfold debug_usize in H.
  destruct (decimal_digits _ _ (dec_decimal (N.of_nat n))) as (_ & A & VA).
  destruct (decimal_digits _ _ (dec_decimal (N.of_nat m))) as (_ & B & VB).
  destruct (digit_split _ _ _ _ _ _ A B K K' H) as [E H']. split; [|exact H'].
  rewrite E, VB in VA. lia.
Qed.

Lemma pos_inj : forall p q x y, debug_pos p ++ x = debug_pos q ++ y -> p = q /\ x = y.
Proof.
  intros [a b] [c d] x y H. unfold debug_pos in H. cbn [pline pchar] in H. rewrite <- !app_assoc in H.
  apply app_inv_head in H. change (lit ", character: ") with (44%N :: lit " character: ") in H. cbn [app] in H.
  apply usize_inj in H as [-> H]; [|reflexivity..]. injection H as H.
  apply usize_inj in H as [-> H]; [|reflexivity..]. injection H as H. auto.
Qed.

Lemma loc_inj : forall l m x y, debug_loc l ++ x = debug_loc m ++ y -> l = m /\ x = y.
Proof.
  intros [a b] [c d] x y H. unfold debug_loc in H. cbn [lstart lend] in H. rewrite <- !app_assoc in H.
  apply app_inv_head in H. apply pos_inj in H as [-> H]. apply app_inv_head in H. apply pos_inj in H as [-> H].
  apply app_inv_head in H. auto.
Qed.

Lemma name_inj : forall (a b x y : str), ~ In 40%N a -> ~ In 40%N b -> a ++ 40%N :: x = b ++ 40%N :: y -> a = b /\ x = y.
Proof.
  induction a as [|c a IH]; intros [|d b] x y A B H; cbn [app] in H.
  - injection H as H. auto.
  - injection H as E _. exfalso. apply B. left. congruence.
  - injection H as E _. exfalso. apply A. left. congruence.
  - injection H as <- H. destruct (IH b x y) as [-> E]; auto; intro I; [apply A|apply B]; right; exact I.
Qed.

Lemma absent : forall x (s : str), forallb (fun c => negb (N.eqb c x)) s = true -> ~ In x s.
Proof. intros x s H I. rewrite forallb_forall in H. apply H in I. rewrite N.eqb_refl in I. discriminate I. Qed.

(** ** Nodes *)
Inductive node :=
| NI (name id : str) (cs : list node) (l : loc)
| NL (name id : str) (v : option str) (l : loc).

Section NodeInd.
  Variable P : node -> Prop.
  Hypothesis PL : forall n i v l, P (NL n i v l).
  Hypothesis PI : forall n i cs l, Forall P cs -> P (NI n i cs l).
  Fixpoint node_ind' (n : node) : P n :=
    match n with
    | NI n i cs l => PI n i cs l ((fix go cs := match cs return Forall P cs with [] => Forall_nil _ | x :: r => Forall_cons _ (node_ind' x) (go r) end) cs)
    | NL n i v l => PL n i v l
    end.
End NodeInd.

Definition good (s : str) : Prop := ~ In 40%N s /\ exists c t, s = c :: t /\ c <> 93%N.
Inductive named : node -> Prop :=
| named_inner : forall n i cs l, good n -> Forall named cs -> named (NI n i cs l)
| named_leaf : forall n i v l, good n -> named (NL n i v l).

Section Shown.
  Variable shown : N -> bool.

  Fixpoint debug_node (n : node) : str :=
    match n with
    | NI n i cs l => debug_inner shown n i (map debug_node cs) l
    | NL n i v l => debug_leaf shown n i v l
    end.

  Lemma option_inj : forall o o' x y, debug_option shown o ++ x = debug_option shown o' ++ y -> o = o' /\ x = y.
  Proof.
    intros [s|] [s'|] x y H; unfold debug_option in H; rewrite <- ?app_assoc in H; try discriminate H.
    - apply app_inv_head in H. apply debug_str_inj in H as [-> H]. apply app_inv_head in H. auto.
    - apply app_inv_head in H. auto.
  Qed.

  Lemma node_head : forall n, named n -> exists c t, debug_node n = c :: t /\ c <> 93%N.
  Proof.
    intros n [n0 i cs l (_ & c & t & -> & N) _|n0 i v l (_ & c & t & -> & N)]; cbn [debug_node debug_inner debug_leaf app].
    - unfold debug_inner. cbn [app]. eauto.
    - unfold debug_leaf. cbn [app]. eauto.
  Qed.

  Lemma nodes_inj : forall cs, Forall (fun n => named n -> forall n' x y, named n' ->
      debug_node n ++ x = debug_node n' ++ y -> n = n' /\ x = y) cs -> Forall named cs ->
    forall cs' x y, Forall named cs' ->
    intercalate (lit ", ") (map debug_node cs) ++ 93%N :: x = intercalate (lit ", ") (map debug_node cs') ++ 93%N :: y ->
    cs = cs' /\ x = y.
  Proof.
    assert (One : forall n l, intercalate (lit ", ") (map debug_node (n :: l))
              = debug_node n ++ match l with [] => [] | _ => lit ", " ++ intercalate (lit ", ") (map debug_node l) end).
    { intros n [|m l]; [cbn; rewrite app_nil_r; reflexivity|reflexivity]. }
    induction 1 as [|n cs Hn _ IH]; intros G [|n' cs'] x y G' H.
    - cbn in H. injection H as H. auto.
    - exfalso. rewrite One in H. cbn [map intercalate app] in H. inversion G' as [|? ? G1 _]; subst.
      destruct (node_head n' G1) as (c & t & E & N). rewrite E in H. cbn [app] in H. injection H as E2 _. congruence.
    - exfalso. rewrite One in H. cbn [map intercalate app] in H. inversion G as [|? ? G1 _]; subst.
      destruct (node_head n G1) as (c & t & E & N). rewrite E in H. cbn [app] in H. injection H as E2 _. congruence.
    - rewrite !One in H. rewrite <- !app_assoc in H. inversion G as [|? ? G1 G2]; inversion G' as [|? ? G3 G4]; subst.
      apply (Hn G1 n') in H as [-> H]; [|exact G3].
      destruct cs as [|m cs]; destruct cs' as [|m' cs'].
      + cbn [app] in H. injection H as H. auto.
      + discriminate H.
      + discriminate H.
      + rewrite <- !app_assoc in H. apply app_inv_head in H. apply IH in H as [E ->]; [|assumption..]. split; [f_equal; exact E|reflexivity].
  Qed.

  Lemma node_inj : forall n, named n -> forall n' x y, named n' -> debug_node n ++ x = debug_node n' ++ y -> n = n' /\ x = y.
  Proof.
    induction n as [n i v l|n i cs l IH] using node_ind'; intros G n' x y G' H.
    - inversion G as [|? ? ? ? (N & _)]; subst. destruct n' as [n' i' cs' l'|n' i' v' l'].
      + exfalso. inversion G' as [? ? ? ? (N' & _) _|]; subst. cbn [debug_node] in H. unfold debug_inner, debug_leaf in H. rewrite <- !app_assoc in H.
        apply (name_inj _ _ _ _ N N') in H as [_ H]. discriminate H.
      + inversion G' as [|? ? ? ? (N' & _)]; subst. cbn [debug_node] in H. unfold debug_leaf in H. rewrite <- !app_assoc in H.
        apply (name_inj _ _ _ _ N N') in H as [-> H]. apply (app_inv_head (lit "LeafNode { id: ")) in H.
        apply debug_str_inj in H as [-> H]. apply app_inv_head in H. apply option_inj in H as [-> H].
        apply app_inv_head in H. apply loc_inj in H as [-> H]. apply app_inv_head in H. auto.
    - inversion G as [? ? ? ? (N & _) F|]; subst. destruct n' as [n' i' cs' l'|n' i' v' l'].
      + inversion G' as [? ? ? ? (N' & _) F'|]; subst. cbn [debug_node] in H. unfold debug_inner in H. rewrite <- !app_assoc in H.
        apply (name_inj _ _ _ _ N N') in H as [-> H]. apply (app_inv_head (lit "InnerNode { id: ")) in H.
        apply debug_str_inj in H as [-> H]. apply app_inv_head in H.
        apply (nodes_inj cs IH F cs') in H as [-> H]; [|exact F'].
        apply (app_inv_head (lit ", location: ")) in H. apply loc_inj in H as [-> H]. apply app_inv_head in H. auto.
      + exfalso. inversion G' as [|? ? ? ? (N' & _)]; subst. cbn [debug_node] in H. unfold debug_inner, debug_leaf in H. rewrite <- !app_assoc in H.
        apply (name_inj _ _ _ _ N N') in H as [_ H]. discriminate H.
  Qed.

  (** ** AST *)
  Fixpoint nast (a : ast) : node :=
    match a with
    | AInner k i cs l => NI (inner_name k) i (map nast cs) l
    | ALeaf k i v l => NL (leaf_name k) i v l
    end.
  Lemma nast_debug : forall a, debug_node (nast a) = debug_ast shown a.
  Proof.
    induction a as [k i v l|k i cs l IH] using ast_ind'; [reflexivity|]. cbn [nast debug_node debug_ast]. f_equal.
    rewrite map_map. apply map_ext_Forall. exact IH.
  Qed.
  Ltac goodname := split; [apply absent; reflexivity|do 2 eexists; split; [reflexivity|discriminate]].
  Lemma nast_named : forall a, named (nast a).
  Proof.
    induction a as [k i v l|k i cs l IH] using ast_ind'; cbn [nast]; constructor.
    - destruct k; goodname.
    - destruct k; goodname.
    - apply Forall_map. exact IH.
  Qed.
  Lemma map_inj : forall {A B} (f : A -> B) l l', Forall (fun x => forall y, f x = f y -> x = y) l -> map f l = map f l' -> l = l'.
  Proof.
    intros A B f l l' F. revert l'. induction F as [|x l E F IH]; intros [|y l'] H; try discriminate; [reflexivity|].
    cbn in H. injection H as H1 H2. f_equal; auto.
  Qed.
  Lemma nast_inj : forall a b, nast a = nast b -> a = b.
  Proof.
    induction a as [k i v l|k i cs l IH] using ast_ind'; intros [k' i' cs' l'|k' i' v' l'] H; try discriminate H; cbn [nast] in H.
    - injection H as N -> -> ->. f_equal. destruct k, k'; congruence || discriminate N.
    - injection H as N -> C ->. apply map_inj in C; [|exact IH]. subst cs'. f_equal. destruct k, k'; congruence || discriminate N.
  Qed.
  Theorem ast_inj : forall a b, debug_ast shown a = debug_ast shown b -> a = b.
  Proof.
    intros a b H. rewrite <- !nast_debug in H. apply nast_inj.
    destruct (node_inj (nast a) (nast_named a) (nast b) [] [] (nast_named b)) as [E _]; [rewrite !app_nil_r; exact H|exact E].
  Qed.

  (** ** CST *)
  Fixpoint ncst (ids : list nat -> str) (c : cst) : node :=
    match c with
    | CInner k cs l => NI (cinner_name k) (ids [])
        ((fix go n cs := match cs with [] => [] | x :: cs' => ncst (fun p => ids (n :: p)) x :: go (S n) cs' end) O cs) l
    | CLeaf k v l => NL (cleaf_name k) (ids []) v l
    end.
  Lemma ncst_debug : forall c ids, debug_node (ncst ids c) = debug_cst shown ids c.
  Proof.
    induction c as [k v l|k cs l IH] using cst_ind'; intro ids; [reflexivity|]. cbn [ncst debug_node debug_cst]. f_equal.
    generalize 0. induction IH as [|c cs Hc F IHc]; intro n; [reflexivity|]. cbn [map]. rewrite Hc. f_equal. apply IHc.
  Qed.
  Lemma ncst_named : forall c ids, named (ncst ids c).
  Proof.
    induction c as [k v l|k cs l IH] using cst_ind'; intro ids; cbn [ncst]; constructor.
    - destruct k; goodname.
    - destruct k; goodname.
    - generalize 0. induction IH as [|c cs Hc F IHc]; intro n; [constructor|]. constructor; [apply Hc|apply IHc].
  Qed.
  Lemma ncst_inj : forall c c' ids ids', ncst ids c = ncst ids' c' -> c = c'.
  Proof.
    induction c as [k v l|k cs l IH] using cst_ind'; intros [k' cs' l'|k' v' l'] ids ids' H; try discriminate H; cbn [ncst] in H.
    - injection H as N _ -> ->. f_equal. destruct k, k'; congruence || discriminate N.
    - injection H as N _ C ->. assert (E : cs = cs').
      { clear N. revert C. generalize 0. revert cs'. induction IH as [|c cs Hc F IHc]; intros [|c' cs'] n C; try discriminate C; [reflexivity|].
        injection C as C1 C2. f_equal; [eapply Hc; exact C1|eapply IHc; exact C2]. }
      subst cs'. f_equal. destruct k, k'; congruence || discriminate N.
  Qed.
  Theorem cst_inj : forall c c' ids ids', debug_cst shown ids c = debug_cst shown ids' c' -> c = c'.
  Proof.
    intros c c' ids ids' H. rewrite <- !ncst_debug in H. apply (ncst_inj _ _ ids ids').
    destruct (node_inj (ncst ids c) (ncst_named c ids) (ncst ids' c') [] [] (ncst_named c' ids')) as [E _]; [rewrite !app_nil_r; exact H|exact E].
  Qed.

  (** ** Tokens and errors *)
  Lemma token_name_good : forall k, ~ In 40%N (token_name k).
  Proof. intro k. apply absent. destruct k; reflexivity. Qed.
  Lemma error_name_good : forall k, ~ In 40%N (error_name k).
  Proof. intro k. apply absent. destruct k; reflexivity. Qed.
  Lemma error_name_inj : forall k k', error_name k = error_name k' -> k = k'.
  Proof. destruct k, k'; intro H; reflexivity || discriminate H. Qed.

  Lemma token_inj : forall t u x y, debug_token shown t ++ x = debug_token shown u ++ y -> t = u /\ x = y.
  Proof.
    intros [k l] [k' l'] x y H. unfold debug_token in H. cbn [tk tl] in H. rewrite <- !app_assoc in H.
    apply (name_inj _ _ _ _ (token_name_good k) (token_name_good k')) in H as [N H].
    assert (S : forall s s', (debug_str shown s ++ lit ", ") ++ debug_loc l ++ lit ")" ++ x = (debug_str shown s' ++ lit ", ") ++ debug_loc l' ++ lit ")" ++ y ->
                s = s' /\ l = l' /\ x = y).
    { intros s s' H'. rewrite <- !app_assoc in H'. apply debug_str_inj in H' as [-> H']. apply app_inv_head in H'.
      apply loc_inj in H' as [-> H']. apply app_inv_head in H'. auto. }
    assert (L : debug_loc l ++ lit ")" ++ x = debug_loc l' ++ lit ")" ++ y -> l = l' /\ x = y).
    { intro H'. apply loc_inj in H' as [-> H']. apply app_inv_head in H'. auto. }
    destruct k, k'; try discriminate N; cbn [token_text] in H;
      (apply S in H as (-> & -> & ->); auto) || (apply L in H as [-> ->]; auto).
  Qed.

  Lemma error_inj : forall t u x y, debug_error t ++ x = debug_error u ++ y -> t = u /\ x = y.
  Proof.
    intros [k l] [k' l'] x y H. unfold debug_error in H. cbn [fst snd] in H. rewrite <- !app_assoc in H.
    apply (name_inj _ _ _ _ (error_name_good k) (error_name_good k')) in H as [N H]. apply error_name_inj in N. subst k'.
    apply loc_inj in H as [-> H]. apply app_inv_head in H. auto.
  Qed.

  Lemma lines_inj : forall {A} (f : A -> str), (forall a b x y, f a ++ x = f b ++ y -> a = b /\ x = y) ->
    forall l l', concat (map (fun a => println (f a)) l) = concat (map (fun a => println (f a)) l') -> l = l'.
  Proof.
    intros A f F. unfold println. induction l as [|a l IH]; intros [|b l'] H; cbn [map concat] in H.
    - reflexivity.
    - symmetry in H. apply app_eq_nil in H as [H _]. apply app_eq_nil in H as [_ H]. discriminate H.
    - apply app_eq_nil in H as [H _]. apply app_eq_nil in H as [_ H]. discriminate H.
    - rewrite <- !app_assoc in H. apply F in H as [-> H]. apply app_inv_head in H. f_equal. apply IH. exact H.
  Qed.

  (** ** No line feeds *)
  Lemma lit_in : forall s : string, forallb (fun c => negb (N.eqb c 10)) (lit s) = true -> ~ In 10%N (lit s).
  Proof. intros s H. apply absent. exact H. Qed.

  Lemma hex_in : forall u, ~ In 10%N (hex_text u).
  Proof. induction u; intros I; cbn [hex_text] in I; try (destruct I as [I|I]; [discriminate I|tauto]). destruct I. Qed.

  Lemma str_no_lf : forall s, ~ In 10%N (debug_str shown s).
  Proof.
    intros s I. unfold debug_str in I. apply in_app_or in I as [[I|[]]|I]; [discriminate|].
    apply in_app_or in I as [I|[I|[]]]; [|discriminate]. apply in_concat in I as (x & Ix & I). apply in_map_iff in Ix as (c & <- & _).
    unfold debug_char in I.
    repeat match type of I with In _ (if ?b then _ else _) => destruct b eqn:?; [cbn in I; repeat (destruct I as [I|I]; [try discriminate I|]); try tauto|] end.
    - subst c. match goal with X : N.eqb 10 10 = false |- _ => discriminate X end.
    - apply in_app_or in I as [I|I]; [cbn in I; repeat (destruct I as [I|I]; [discriminate I|]); tauto|].
      apply in_app_or in I as [I|[I|[]]]; [|discriminate I]. exact (hex_in _ I).
  Qed.

  Lemma usize_no_lf : forall n, ~ In 10%N (debug_usize n).
  Proof. intro n. apply (decimal_ascii _ _ (dec_decimal (N.of_nat n))). Qed.

  Lemma not_in_app : forall (a b : str), ~ In 10%N a /\ ~ In 10%N b -> ~ In 10%N (a ++ b).
  Proof. intros a b [A B] I. apply in_app_or in I as [I|I]; auto. Qed.

  Ltac pieces := repeat match goal with |- ~ In _ (_ ++ _) => apply not_in_app; split end.

  Lemma pos_no_lf : forall p, ~ In 10%N (debug_pos p).
  Proof. intro p. unfold debug_pos. pieces; first [apply lit_in; reflexivity|apply usize_no_lf]. Qed.
  Lemma loc_no_lf : forall l, ~ In 10%N (debug_loc l).
  Proof. intro l. unfold debug_loc. pieces; first [apply lit_in; reflexivity|apply pos_no_lf]. Qed.
  Lemma token_no_lf : forall t, ~ In 10%N (debug_token shown t).
  Proof.
    intros [k l]. unfold debug_token. cbn [tk tl]. pieces; try apply loc_no_lf; try (apply lit_in; reflexivity).
    - destruct k; apply lit_in; reflexivity.
    - destruct (token_text k) as [s|]; [|intros []]. apply not_in_app. split; [apply str_no_lf|apply lit_in; reflexivity].
  Qed.
  Lemma error_no_lf : forall t, ~ In 10%N (debug_error t).
  Proof.
    intros [k l]. unfold debug_error. cbn [fst snd]. pieces; try apply loc_no_lf; try (apply lit_in; reflexivity).
    destruct k; apply lit_in; reflexivity.
  Qed.
  Lemma option_no_lf : forall o, ~ In 10%N (debug_option shown o).
  Proof. intros [s|]; unfold debug_option; [pieces; try apply str_no_lf|]; apply lit_in; reflexivity. Qed.
  Lemma intercalate_no_lf : forall l : list str, Forall (fun s => ~ In 10%N s) l -> ~ In 10%N (intercalate (lit ", ") l).
  Proof.
    induction 1 as [|s l H F IH]; [intros []|]. destruct l as [|s2 l]; [exact H|].
    change (intercalate (lit ", ") (s :: s2 :: l)) with (s ++ lit ", " ++ intercalate (lit ", ") (s2 :: l)).
    pieces; [exact H|apply lit_in; reflexivity|exact IH].
  Qed.
  Lemma node_no_lf : forall n, (forall k, In k ((fix names n := match n with NI a _ cs _ => a :: flat_map names cs | NL a _ _ _ => [a] end) n) -> ~ In 10%N k) ->
    ~ In 10%N (debug_node n).
  Proof.
    induction n as [n i v l|n i cs l IH] using node_ind'; intro H; cbn [debug_node].
    - unfold debug_leaf. pieces; try apply loc_no_lf; try apply str_no_lf; try apply option_no_lf; try (apply lit_in; reflexivity).
      apply H. left. reflexivity.
    - unfold debug_inner. pieces; try apply loc_no_lf; try apply str_no_lf; try (apply lit_in; reflexivity).
      + apply H. left. reflexivity.
      + apply intercalate_no_lf. apply Forall_map. rewrite Forall_forall in *. intros x Ix. apply IH; [exact Ix|].
        intros k Ik. apply H. right. apply in_flat_map. exists x. split; [exact Ix|exact Ik].
  Qed.
End Shown.
