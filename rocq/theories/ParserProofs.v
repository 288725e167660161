(** Soundness of the parser: tokens, grammar, locations; totality and absence of panics. *)
From Coq Require Import String List NArith Arith Bool Lia.
From Verif Require Import Base Tokens CST SpecTok SpecCST Parser.
Import ListNotations.

(** ** The alternatives of an expression, factored out *)
Definition item_parse (n : nat) (ts : list token) : parser :=
  iflet r := escaped_parse ts then Ok r
  else iflet r := module_parse ts then Ok r
  else iflet r := ident_parse ts then Ok r
  else iflet r := bracket_parse n ts then Ok r
  else iflet r := dot_parse ts then Ok r
  else iflet r := comma_parse ts then Ok r
  else iflet r := whitespace_parse ts then Ok r
  else iflet r := text_parse ts then Ok r
  else Err [].

Lemma expr_loop_S : forall n e ts,
  expr_loop (S n) e ts =
  iflet (c, ts') := item_parse n ts then let! e' := cst_add e c in expr_loop n e' ts'
  else Ok (e, ts).
Proof.
  intros n e ts. cbn [expr_loop]. unfold item_parse.
  destruct (escaped_parse ts) as [[? ?]|?|?|]; try reflexivity.
  destruct (module_parse ts) as [[? ?]|?|?|]; try reflexivity.
  destruct (ident_parse ts) as [[? ?]|?|?|]; try reflexivity.
  destruct (bracket_parse n ts) as [[? ?]|?|?|]; try reflexivity.
  destruct (dot_parse ts) as [[? ?]|?|?|]; try reflexivity.
  destruct (comma_parse ts) as [[? ?]|?|?|]; try reflexivity.
  destruct (whitespace_parse ts) as [[? ?]|?|?|]; try reflexivity.
  destruct (text_parse ts) as [[? ?]|?|?|]; reflexivity.
Qed.

Lemma b_parse_open : forall n b t ts r, b_parse n b (t :: ts) = Ok r ->
  exists c, b_open_parse b (t :: ts) = Ok (c, ts).
Proof.
  intros [|n] b [k l] ts r H; cbn [b_parse] in H; [discriminate|].
  destruct b, k; cbn in *; try discriminate; eauto.
Qed.

Definition okind (b : bkind) : tkind :=
  match b with KAngle => TkAngleOpen | KCurly => TkCurlyOpen | KSquare => TkSquareOpen end.
Definition zkind (b : bkind) : tkind :=
  match b with KAngle => TkAngleClose | KCurly => TkCurlyClose | KSquare => TkSquareClose end.
Definition oleaf (b : bkind) : clkind :=
  match b with KAngle => LAngleOpen | KCurly => LCurlyOpen | KSquare => LSquareOpen end.
Definition zleaf (b : bkind) : clkind :=
  match b with KAngle => LAngleClose | KCurly => LCurlyClose | KSquare => LSquareClose end.
Definition nkind (b : bkind) : ckind :=
  match b with KAngle => CAngle | KCurly => CCurly | KSquare => CSquare end.
Definition bk (k : tkind) : option bkind :=
  match k with TkAngleOpen => Some KAngle | TkCurlyOpen => Some KCurly | TkSquareOpen => Some KSquare
             | _ => None end.

Lemma bracket_parse_S : forall n ts,
  match ts with
  | [] => bracket_parse (S (S n)) ts = Err (lit "Expected angle, curly, or square bracket, found none")
  | t :: _ => match bk (tk t) with
              | Some b => bracket_parse (S (S n)) ts =
                  match b_parse (S n) b ts with
                  | Err _ => Err (lit "Expected angle, curly, or square bracket, found none")
                  | x => x end
              | None => bracket_parse (S (S n)) ts =
                  Err (lit "Expected angle, curly, or square bracket, found none")
              end
  end.
Proof.
  intros n [|[k l] ts]; [reflexivity|].
  destruct k; cbn [tk bk]; try reflexivity.
Qed.

(** The single-token items. *)
Definition leaf_item (k : tkind) : option (clkind * option str) :=
  match k with
  | TkModule s => Some (LModule, Some s)
  | TkIdent s => Some (LIdent, Some s)
  | TkText s => Some (LText, Some s)
  | TkDot => Some (LDot, None)
  | TkComma => Some (LComma, None)
  | TkWhiteSpace => Some (LWhitespace, None)
  | _ => None
  end.

(** [item_parse] by cases on the first token. *)
Lemma item_parse_eq : forall n ts,
  item_parse (S (S n)) ts =
  match ts with
  | [] => Err []
  | t :: ts1 =>
    match tk t with
    | TkBackSlash => escaped_parse ts
    | TkAngleOpen | TkSquareOpen | TkCurlyOpen =>
      match bk (tk t) with
      | Some b => match b_parse (S n) b ts with Err _ => Err [] | x => x end
      | None => Err []
      end
    | _ => match leaf_item (tk t) with
           | Some (k, v) => Ok (CLeaf k v (tl t), ts1)
           | None => Err []
           end
    end
  end.
Proof.
  intros n ts. unfold item_parse. pose proof (bracket_parse_S n ts) as HB.
  destruct ts as [|[k l] ts1]; [rewrite HB; reflexivity|].
  remember (S (S n)) as m eqn:Em. remember (S n) as m' eqn:Em'.
  destruct k; cbn [tk bk tl leaf_item] in *; rewrite ?HB;
    cbn [escaped_parse module_parse ident_parse]; try reflexivity.
  - destruct ts1 as [|t ts2]; cbn; [reflexivity|]. destruct (escapable (tk t)); reflexivity.
  - destruct (b_parse _ _ _) as [?|?|?|]; reflexivity.
  - destruct (b_parse _ _ _) as [?|?|?|]; reflexivity.
  - destruct (b_parse _ _ _) as [?|?|?|]; reflexivity.
Qed.

(** Fuel too small for a bracket can only matter on an opening bracket. *)
Lemma item_parse_low : forall n ts, n < 2 -> item_parse n ts = Fuel \/ item_parse n ts = item_parse 2 ts.
Proof.
  intros n ts H. destruct n as [|[|n]]; [| |lia].
  - unfold item_parse. destruct ts as [|[[] l] ts]; cbn; auto.
    destruct ts as [|t ts2]; cbn; [auto|]. destruct (escapable (tk t)); auto.
  - unfold item_parse. destruct ts as [|[[] l] ts]; cbn; auto.
    destruct ts as [|t ts2]; cbn; [auto|]. destruct (escapable (tk t)); auto.
Qed.

(** ** What a successful run yields *)
Definition spans_list (cs : list cst) (after : list token) : Prop :=
  (fix go (cs : list cst) : Prop :=
     match cs with
     | [] => True
     | x :: cs' => spans_ok x (flat_map leaf_toks cs' ++ after) /\ go cs'
     end) cs.

Lemma spans_list_app : forall a b after,
  spans_list a (flat_map leaf_toks b ++ after) -> spans_list b after -> spans_list (a ++ b) after.
Proof.
  induction a as [|x a IH]; intros b after H1 H2; [exact H2|].
  destruct H1 as [H1 H1']. split.
  - rewrite flat_map_app, <- app_assoc. exact H1.
  - apply IH; assumption.
Qed.

Record good (P : cst -> Prop) (cs : list cst) (ts rest : list token) : Prop := {
  gd_P : Forall P cs;
  gd_toks : ts = flat_map leaf_toks cs ++ rest;
  gd_spans : spans_list cs rest
}.

Lemma good_nil : forall P ts, good P [] ts ts.
Proof. intros; constructor; [constructor|reflexivity|exact I]. Qed.

Lemma good_cons : forall (P : cst -> Prop) c cs ts mid rest,
  P c -> ts = leaf_toks c ++ mid -> spans_ok c mid -> good P cs mid rest -> good P (c :: cs) ts rest.
Proof.
  intros P c cs ts mid rest HP E HS [G1 G2 G3]. constructor.
  - constructor; assumption.
  - cbn. rewrite <- app_assoc, <- G2. exact E.
  - split; [rewrite <- G2; exact HS | exact G3].
Qed.

Lemma good_app : forall P a b ts mid rest, good P a ts mid -> good P b mid rest -> good P (a ++ b) ts rest.
Proof.
  intros P a b ts mid rest [A1 A2 A3] [B1 B2 B3]. constructor.
  - apply Forall_app; split; assumption.
  - rewrite flat_map_app, <- app_assoc, <- B2. exact A2.
  - apply spans_list_app; [rewrite <- B2; exact A3 | exact B3].
Qed.

Lemma good_weaken : forall (P Q : cst -> Prop) cs ts rest,
  (forall c, P c -> Q c) -> good P cs ts rest -> good Q cs ts rest.
Proof. intros P Q cs ts rest H [A B C]. constructor; auto. eapply Forall_impl; eauto. Qed.

Definition body_elem (x : cst) : Prop := g_expr x \/ is_newline x.

Lemma escapable_in : forall k s, escapable k = Some s -> In (s, k) escapes /\ unescape s = k.
Proof.
  intros k s H. destruct k; cbn in H; try discriminate; injection H as <-;
    (split; [cbn; tauto | reflexivity]).
Qed.

Lemma escaped_good : forall ts c rest, escaped_parse ts = Ok (c, rest) ->
  g_item c /\ ts = leaf_toks c ++ rest /\ spans_ok c rest.
Proof.
  intros ts c rest H. destruct ts as [|[k l] ts1]; [discriminate|].
  destruct k; try discriminate. cbn in H.
  destruct ts1 as [|t ts2]; [discriminate|].
  destruct (escapable (tk t)) as [s|] eqn:E; injection H as <- <-.
  - apply escapable_in in E as [E1 E2]. split; [eapply G_escaped1; exact E1|].
    cbn. rewrite E2. destruct t; split; [reflexivity|]. split; [discriminate|]. split; [exact I|exact I].
  - split; [apply G_escaped0|]. split; [reflexivity|]. split; [|exact I].
    intros _ t' rest [= <- <-] HI. destruct (tk t); cbn in E; try discriminate; cbn in HI;
      repeat (destruct HI as [HI|HI]; try discriminate); exact HI.
Qed.

Lemma nth_error_last : forall (A : Type) (x d : A) l, nth_error (x :: l) (length l) = Some (last (x :: l) d).
Proof.
  intros A x d l; revert x. induction l as [|y l IH]; intro x; [reflexivity|].
  change (nth_error (x :: y :: l) (length (y :: l))) with (nth_error (y :: l) (length l)).
  rewrite IH. reflexivity.
Qed.

Lemma expr_finish_good : forall cs l ts' c rest ts,
  expr_finish (CInner CExpr cs l) ts' = Ok (c, rest) -> good g_item cs ts ts' ->
  rest = ts' /\ g_expr c /\ ts = leaf_toks c ++ rest /\ spans_ok c rest.
Proof.
  intros cs l ts' c rest ts H [A B C]. unfold expr_finish in H. cbn in H.
  destruct cs as [|c0 cs]; [discriminate|]. injection H as <- <-.
  split; [reflexivity|]. split; [constructor; [discriminate|exact A]|]. split; [exact B|].
  cbn [cst_set_location spans_ok]. split; [|exact C].
  exists c0, (last (c0 :: cs) c0). split; [reflexivity|]. split; [|reflexivity].
  replace (length (c0 :: cs) - 1) with (length cs) by (cbn; lia). apply nth_error_last.
Qed.

(** Items contain no EOF token. *)
Lemma g_item_no_eof : forall c, g_item c -> ~ In TkEOF (map tk (leaf_toks c)).
Proof.
  fix F 2. intros c H. destruct H as [l|s k l l' H|k s l H|k l H|k o cl lo body close l H1 H2 H3].
  - intros [H|[]]; discriminate.
  - assert (X : unescape s <> TkEOF).
    { cbn in H. repeat (destruct H as [H|H]; [injection H as <- <-; discriminate|]). destruct H. }
    cbn. intros [E|[E|[]]]; [discriminate|congruence].
  - cbn. intros [E|[]]. destruct H as [<-|[<-|[<-|[]]]]; discriminate.
  - cbn. intros [E|[]]. destruct H as [<-|[<-|[<-|[]]]]; discriminate.
  - assert (LT : leaf_toks (CInner k (CLeaf o None lo :: body ++ close) l) =
                 flat_map leaf_toks (CLeaf o None lo :: body ++ close)) by (destruct k; try discriminate; reflexivity).
    rewrite LT. cbn [flat_map leaf_toks app map tk]. intros [E|E].
    + destruct k; try discriminate; injection H1 as <- <-; discriminate.
    + rewrite flat_map_app, map_app in E. apply in_app_or in E as [E|E].
      * clear -F H2 E. induction H2 as [|x body Hx _ IH]; [destruct E|].
        cbn in E. rewrite map_app in E. apply in_app_or in E as [E|E]; [|exact (IH E)].
        destruct Hx as [Hx|[lx ->]]; [|destruct E as [E|[]]; discriminate].
        destruct Hx as [items l0 _ HF]. cbn in E.
        induction HF as [|y items Hy _ IHy]; [destruct E|]. cbn in E. rewrite map_app in E.
        apply in_app_or in E as [E|E]; [exact (F y Hy E)|exact (IHy E)].
      * destruct H3 as [->|[lc ->]]; [destruct E|]. cbn in E. destruct E as [E|[]].
        destruct k; try discriminate; injection H1 as <- <-; discriminate.
Qed.

Lemma g_expr_no_eof : forall c, g_expr c -> ~ In TkEOF (map tk (leaf_toks c)).
Proof.
  intros c [items l _ HF] E. cbn in E. induction HF as [|y items Hy _ IHy]; [destruct E|]. cbn in E. rewrite map_app in E.
  apply in_app_or in E as [E|E]; [exact (g_item_no_eof y Hy E)|exact (IHy E)].
Qed.

(** Where a bracket stops, if an EOF follows. *)
Definition stops (ts : list token) : Prop :=
  In TkEOF (map tk ts) ->
  match ts with
  | [] => False
  | t :: _ => In (tk t) [TkAngleClose; TkSquareClose; TkCurlyClose; TkEOF; TkEmpty]
  end.

(** The induction over fuel: all four mutually recursive functions. *)
Lemma sound_stops : forall n,
  (forall cs l ts e rest, expr_loop n (CInner CExpr cs l) ts = Ok (e, rest) ->
     exists new l', e = CInner CExpr (cs ++ new) l' /\ good g_item new ts rest) /\
  (forall b ts c rest, b_parse n b ts = Ok (c, rest) ->
     g_item c /\ ts = leaf_toks c ++ rest /\ spans_ok c rest) /\
  (forall k cs l ts c rest, b_loop n (CInner k cs l) ts = Ok (c, rest) ->
     exists new l', c = CInner k (cs ++ new) l' /\ good body_elem new ts rest /\ stops rest) /\
  (forall b t ts e, b_parse n b (t :: ts) = Err e -> tk t = okind b -> ~ In TkEOF (map tk ts)) /\
  (forall cs l ts e, expr_loop n (CInner CExpr cs l) ts <> Err e) /\
  (forall k cs l ts e, b_loop n (CInner k cs l) ts <> Err e).
Proof.
  induction n as [n IH] using lt_wf_ind. destruct n as [|n].
  { repeat split; intros; discriminate. }
  split; [|split; [|split; [|split; [|split]]]].
  - intros cs l ts e rest H. rewrite expr_loop_S in H.
    assert (HI : forall c ts', item_parse n ts = Ok (c, ts') ->
                 g_item c /\ ts = leaf_toks c ++ ts' /\ spans_ok c ts').
    { intros c ts' E.
      assert (E' : exists m, (m = 0 \/ m < n) /\ item_parse (S (S m)) ts = Ok (c, ts')).
      { destruct (le_lt_dec 2 n) as [L|L].
        - destruct n as [|[|m]]; try lia. exists m. split; [lia|exact E].
        - destruct (item_parse_low n ts L) as [E1|E1]; [congruence|]. exists 0; split; [lia|congruence]. }
      destruct E' as (m & Hm & E'). rewrite item_parse_eq in E'.
      destruct ts as [|[k lt] ts1]; [discriminate|].
      destruct k; cbn [tk bk leaf_item] in E'; try discriminate;
        try (injection E' as <- <-; split;
             [(apply G_named + apply G_mark); cbn; tauto | split; [reflexivity|exact I]]).
      - apply escaped_good; exact E'.
      - destruct (b_parse (S m) KAngle _) as [[c1 r1]|?|?|] eqn:EB; try discriminate.
        injection E' as <- <-. refine (proj1 (proj2 (IH (S m) _)) _ _ _ _ EB). destruct Hm as [->|]; [|lia].
        destruct n as [|n]; [|lia]. cbn in E. discriminate.
      - destruct (b_parse (S m) KSquare _) as [[c1 r1]|?|?|] eqn:EB; try discriminate.
        injection E' as <- <-. refine (proj1 (proj2 (IH (S m) _)) _ _ _ _ EB). destruct Hm as [->|]; [|lia].
        destruct n as [|n]; [|lia]. cbn in E. discriminate.
      - destruct (b_parse (S m) KCurly _) as [[c1 r1]|?|?|] eqn:EB; try discriminate.
        injection E' as <- <-. refine (proj1 (proj2 (IH (S m) _)) _ _ _ _ EB). destruct Hm as [->|]; [|lia].
        destruct n as [|n]; [|lia]. cbn in E. discriminate. }
    destruct (item_parse n ts) as [[c ts']|?|?|] eqn:E; try discriminate.
    + destruct (HI c ts' eq_refl) as (G1 & G2 & G3). cbn in H.
      destruct (proj1 (IH n (Nat.lt_succ_diag_r n)) _ _ _ _ _ H) as (new & l' & -> & G).
      exists (c :: new), l'. split; [rewrite <- app_assoc; reflexivity|].
      eapply good_cons; eauto.
    + injection H as <- <-. exists [], l. split; [rewrite app_nil_r; reflexivity|apply good_nil].
  - intros b ts c rest H. cbn [b_parse] in H. destruct ts as [|t ts]; [discriminate|].
    apply bind_ok in H as ([o ts1] & HO & H).
    assert (EO : t = mktok (okind b) (tl t) /\ ts1 = ts /\ o = CLeaf (oleaf b) None (tl t)).
    { destruct t as [[] l], b; cbn in HO; try discriminate; injection HO as <- <-; auto. }
    destruct EO as (Et & -> & ->).
    destruct (cst_add (b_node b) _) as [r0|?|?|] eqn:ER; try discriminate.
    assert (E0 : exists l0, r0 = CInner (nkind b) [CLeaf (oleaf b) None (tl t)] l0).
    { destruct b; injection ER as <-; eexists; reflexivity. }
    destruct E0 as [l0 ->]. cbn [bind] in H.
    destruct (b_loop n _ ts) as [[r1 ts2]|?|?|] eqn:EL; try discriminate.
    destruct (proj1 (proj2 (proj2 (IH n (Nat.lt_succ_diag_r n)))) _ _ _ _ _ _ EL) as (body & l1 & -> & [B1 B2 B3] & BS).
    cbn [bind] in H. destruct ts2 as [|t2 ts2]; [discriminate|].
    apply bind_ok in H as ([r2 ts3] & HC & H). injection H as <- <-.
    destruct (b_close_parse b (t2 :: ts2)) as [[z ts4]|?|?|] eqn:EZ; try discriminate.
    + assert (EZ' : t2 = mktok (zkind b) (tl t2) /\ ts4 = ts2 /\ z = CLeaf (zleaf b) None (tl t2)).
      { destruct t2 as [[] lz], b; cbn in EZ; try discriminate; injection EZ as <- <-; auto. }
      destruct EZ' as (Et2 & -> & ->). cbn in HC. injection HC as <- <-. cbn [cst_set_location].
      split; [|split].
      * change (([CLeaf (oleaf b) None (tl t)] ++ body) ++ [CLeaf (zleaf b) None (tl t2)])
          with (CLeaf (oleaf b) None (tl t) :: body ++ [CLeaf (zleaf b) None (tl t2)]).
        eapply G_bracket with (c := zleaf b); [destruct b; reflexivity|exact B1|eauto].
      * assert (LT : leaf_toks (CInner (nkind b) (([CLeaf (oleaf b) None (tl t)] ++ body) ++ [CLeaf (zleaf b) None (tl t2)])
                        (mkloc (lstart (tl t)) (lend (tl t2))))
                   = mktok (okind b) (tl t) :: flat_map leaf_toks body ++ [mktok (zkind b) (tl t2)]).
        { destruct b; cbn; rewrite flat_map_app; reflexivity. }
        etransitivity; [|apply (f_equal (fun x => x ++ ts2)); symmetry; exact LT].
        rewrite <- Et, <- Et2. cbn. rewrite <- app_assoc. cbn. rewrite <- B2. reflexivity.
      * cbn [spans_ok]. split.
        -- assert (N : nth_error (([CLeaf (oleaf b) None (tl t)] ++ body) ++ [CLeaf (zleaf b) None (tl t2)])
             (length (([CLeaf (oleaf b) None (tl t)] ++ body) ++ [CLeaf (zleaf b) None (tl t2)]) - 1)
             = Some (CLeaf (zleaf b) None (tl t2))).
           { rewrite app_length at 1. cbn [length]. rewrite Nat.add_sub.
             rewrite nth_error_app2 by lia. rewrite Nat.sub_diag. reflexivity. }
           unfold span_ok. destruct b; cbn [nkind];
             (eexists _, _, _, _; split; [reflexivity|]; split; [reflexivity|]; split; [exact N|]);
             split; reflexivity.
        -- change (spans_list (([CLeaf (oleaf b) None (tl t)] ++ body) ++ [CLeaf (zleaf b) None (tl t2)]) ts2).
           apply spans_list_app; [|split; exact I].
           replace (flat_map leaf_toks [CLeaf (zleaf b) None (tl t2)] ++ ts2) with (t2 :: ts2);
             [|rewrite Et2 at 1; destruct b; reflexivity].
           split; [exact I|exact B3].
    + injection HC as <- <-. cbn [cst_set_location]. split; [|split].
      * change ([CLeaf (oleaf b) None (tl t)] ++ body) with (CLeaf (oleaf b) None (tl t) :: body).
        rewrite <- (app_nil_r body).
        eapply G_bracket with (c := zleaf b); [destruct b; reflexivity|exact B1|eauto].
      * assert (LT : leaf_toks (CInner (nkind b) ([CLeaf (oleaf b) None (tl t)] ++ body)
                        (mkloc (lstart (tl t)) (lend (tl t2))))
                   = mktok (okind b) (tl t) :: flat_map leaf_toks body).
        { destruct b; reflexivity. }
        etransitivity; [|apply (f_equal (fun x => x ++ t2 :: ts2)); symmetry; exact LT].
        rewrite <- Et. cbn. rewrite <- B2. reflexivity.
      * cbn [spans_ok]. split.
        -- assert (N : exists z, nth_error ([CLeaf (oleaf b) None (tl t)] ++ body)
             (length ([CLeaf (oleaf b) None (tl t)] ++ body) - 1) = Some z /\
             (z = CLeaf (oleaf b) None (tl t) \/ body_elem z)).
           { destruct body as [|x body] using rev_ind.
             - exists (CLeaf (oleaf b) None (tl t)). auto.
             - exists x. split.
               + rewrite app_assoc. rewrite app_length. cbn [length]. rewrite Nat.add_sub.
                 rewrite nth_error_app2 by lia. rewrite Nat.sub_diag. reflexivity.
               + right. apply Forall_app in B1 as [_ B1]. inversion B1; assumption. }
           destruct N as (z & N & Hz).
           unfold span_ok. destruct b; cbn [nkind];
             (eexists _, _, _, z; split; [reflexivity|]; split; [reflexivity|]; split; [exact N|]);
             (split; [reflexivity|]);
             (destruct Hz as [->|[Hz|[lz ->]]]; [|inversion Hz|];
              (exists t2, ts2; split; [reflexivity|split; [reflexivity|split; [|exact BS]]];
               intro X; destruct t2 as [k2 l2]; cbn in X; subst k2; discriminate EZ)).
        -- split; [exact I|exact B3].
  - intros k cs l ts c rest H. cbn [b_loop] in H.
    destruct (let! (e, ts') := expr_loop n new_expr ts in expr_finish e ts') as [[c1 ts1]|?|?|] eqn:E;
      try discriminate.
    + apply bind_ok in E as ([e1 ts2] & E1 & E2).
      destruct (proj1 (IH n (Nat.lt_succ_diag_r n)) _ _ _ _ _ E1) as (new & l' & -> & G).
      destruct (expr_finish_good _ _ _ _ _ _ E2 G) as (-> & G1 & G2 & G3).
      cbn in H. destruct (proj1 (proj2 (proj2 (IH n (Nat.lt_succ_diag_r n)))) _ _ _ _ _ _ H) as (new' & l2 & -> & G' & ST').
      exists (c1 :: new'), l2. split; [rewrite <- app_assoc; reflexivity|]. split; [|exact ST'].
      eapply good_cons; [left; exact G1|exact G2|exact G3|exact G'].
    + destruct (newline_parse ts) as [[c1 ts1]|?|?|] eqn:EN; try discriminate.
      * destruct ts as [|[[] lt] ts']; try discriminate. cbn in EN. injection EN as <- <-.
        cbn in H. destruct (proj1 (proj2 (proj2 (IH n (Nat.lt_succ_diag_r n)))) _ _ _ _ _ _ H) as (new' & l2 & -> & G' & ST').
        exists (new_newline lt :: new'), l2. split; [rewrite <- app_assoc; reflexivity|]. split; [|exact ST'].
        eapply good_cons; [right; eexists; reflexivity|reflexivity|exact I|exact G'].
      * injection H as <- <-. exists [], l. split; [rewrite app_nil_r; reflexivity|]. split; [apply good_nil|].
        intro HE. destruct n as [|n]; [discriminate|]. unfold new_expr in E. rewrite expr_loop_S in E.
        assert (EI : exists e1, item_parse n ts = Err e1).
        { destruct (item_parse n ts) as [[c1 ts1]|?|?|] eqn:EI; try discriminate; [|eauto].
          cbn [cst_add cst_add_opt bind] in E.
          destruct (expr_loop n _ ts1) as [[e1 ts2]|?|?|] eqn:EL; try discriminate.
          - destruct (proj1 (IH n ltac:(lia)) _ _ _ _ _ EL) as (new & l' & -> & _). discriminate.
          - destruct (proj1 (proj2 (proj2 (proj2 (proj2 (IH n ltac:(lia)))))) _ _ _ _ EL). }
        destruct EI as (e1 & EI).
        assert (E' : exists m, (m = 0 \/ m < n) /\ item_parse (S (S m)) ts = Err e1).
        { destruct (le_lt_dec 2 n) as [L|L].
          - destruct n as [|[|m]]; try lia. exists m. split; [lia|exact EI].
          - destruct (item_parse_low n ts L) as [E1|E1]; [congruence|]. exists 0; split; [lia|congruence]. }
        destruct E' as (m & Hm & E'). rewrite item_parse_eq in E'.
        destruct ts as [|[k1 lt] ts1]; [destruct HE|].
        assert (OB : forall b, k1 = okind b -> match b_parse (S m) b (mktok k1 lt :: ts1) with Err _ => Err [] | x => x end = Err e1 -> False).
        { intros b -> Q. destruct (b_parse (S m) b _) as [?|?|?|] eqn:EB; try discriminate.
          destruct HE as [HE|HE]; [destruct b; discriminate|].
          assert (LM : S m < S (S n)) by lia.
          exact (proj1 (proj2 (proj2 (proj2 (IH (S m) LM)))) _ _ _ _ EB eq_refl HE). }
        destruct k1; cbn [tk bk leaf_item] in E'; try discriminate; cbn; try tauto.
        -- cbn in E'. destruct ts1 as [|t ts2]; [discriminate|]. destruct (escapable (tk t)); discriminate.
        -- destruct (OB KAngle eq_refl E').
        -- destruct (OB KSquare eq_refl E').
        -- destruct (OB KCurly eq_refl E').
  - intros b t ts e H Et HE. cbn [b_parse] in H.
    assert (HO : b_open_parse b (t :: ts) = Ok (CLeaf (oleaf b) None (tl t), ts)).
    { destruct t as [k l]. cbn in Et. subst k. destruct b; reflexivity. }
    rewrite HO in H. cbn [bind] in H.
    assert (ER : exists l0, cst_add (b_node b) (CLeaf (oleaf b) None (tl t)) =
             Ok (CInner (nkind b) [CLeaf (oleaf b) None (tl t)] l0)) by (destruct b; eexists; reflexivity).
    destruct ER as [l0 ER]. rewrite ER in H. cbn [bind] in H.
    destruct (b_loop n _ ts) as [[r1 ts2]|?|?|] eqn:EL; try discriminate.
    + destruct (proj1 (proj2 (proj2 (IH n (Nat.lt_succ_diag_r n)))) _ _ _ _ _ _ EL) as (body & l1 & -> & [B1 B2 B3] & BS).
      cbn [bind] in H. destruct ts2 as [|t2 ts2].
      * rewrite B2, app_nil_r in HE. clear -B1 HE. induction B1 as [|x body Hx _ IHb]; [destruct HE|].
        cbn in HE. rewrite map_app in HE. apply in_app_or in HE as [HE|HE]; [|auto].
        destruct Hx as [Hx|[lx ->]]; [exact (g_expr_no_eof x Hx HE)|]. destruct HE as [HE|[]]; discriminate.
      * destruct (b_close_parse b (t2 :: ts2)) as [[z ts4]|?|?|]; discriminate.
    + destruct (proj2 (proj2 (proj2 (proj2 (proj2 (IH n (Nat.lt_succ_diag_r n)))))) _ _ _ _ _ EL).
  - intros cs l ts e H. rewrite expr_loop_S in H. destruct (item_parse n ts) as [[c ts']|?|?|]; try discriminate.
    cbn [cst_add cst_add_opt bind] in H.
    exact (proj1 (proj2 (proj2 (proj2 (proj2 (IH n (Nat.lt_succ_diag_r n)))))) _ _ _ _ H).
  - intros k cs l ts e H. cbn [b_loop] in H.
    destruct (let! (e, ts') := expr_loop n new_expr ts in expr_finish e ts') as [[c1 ts1]|?|?|]; try discriminate.
    + exact (proj2 (proj2 (proj2 (proj2 (proj2 (IH n (Nat.lt_succ_diag_r n)))))) _ _ _ _ _ H).
    + destruct (newline_parse ts) as [[c1 ts1]|?|?|]; try discriminate.
      exact (proj2 (proj2 (proj2 (proj2 (proj2 (IH n (Nat.lt_succ_diag_r n)))))) _ _ _ _ _ H).
Qed.

Lemma sound : forall n,
  (forall cs l ts e rest, expr_loop n (CInner CExpr cs l) ts = Ok (e, rest) ->
     exists new l', e = CInner CExpr (cs ++ new) l' /\ good g_item new ts rest) /\
  (forall b ts c rest, b_parse n b ts = Ok (c, rest) ->
     g_item c /\ ts = leaf_toks c ++ rest /\ spans_ok c rest) /\
  (forall k cs l ts c rest, b_loop n (CInner k cs l) ts = Ok (c, rest) ->
     exists new l', c = CInner k (cs ++ new) l' /\ good body_elem new ts rest).
Proof.
  intro n. destruct (sound_stops n) as (A & B & C & _). split; [exact A|]. split; [exact B|].
  intros k cs l ts c rest H. destruct (C _ _ _ _ _ _ H) as (new & l' & E & G & _). eauto.
Qed.

(** ** Statements and documents *)
Lemma expr_parse_good : forall ts c rest, expr_parse ts = Ok (c, rest) ->
  g_expr c /\ ts = leaf_toks c ++ rest /\ spans_ok c rest.
Proof.
  intros ts c rest H. unfold expr_parse in H. apply bind_ok in H as ([e ts1] & E1 & E2).
  destruct (proj1 (sound _) _ _ _ _ _ E1) as (new & l' & -> & G).
  destruct (expr_finish_good _ _ _ _ _ _ E2 G) as (-> & G1 & G2 & G3). auto.
Qed.

Lemma eoc_good : forall ts c rest, expr_or_close_parse ts = Ok (c, rest) ->
  g_expr_or_close c /\ ts = leaf_toks c ++ rest /\ spans_ok c rest.
Proof.
  intros ts c rest H. unfold expr_or_close_parse in H.
  destruct (expr_parse ts) as [[c1 r1]|?|?|] eqn:E; try discriminate.
  - injection H as <- <-. apply expr_parse_good in E as (A & B & C). split; [left; exact A|auto].
  - destruct ts as [|[k l] ts]; [discriminate|].
    destruct k; cbn in H; try discriminate; injection H as <- <-;
      (split; [right; eexists _, _; split; [reflexivity|cbn; tauto] | split; [reflexivity|exact I]]).
Qed.

Definition tt_ (c : cst) : Prop := True.

Lemma newline_good : forall ts c rest, newline_parse ts = Ok (c, rest) ->
  exists l, ts = mktok TkNewLine l :: rest /\ c = new_newline l.
Proof.
  intros ts c rest H. destruct ts as [|[[] l] ts]; try discriminate.
  injection H as <- <-. eauto.
Qed.

Lemma stmt_loop_good : forall n cs l ts c rest, stmt_loop n (CInner CStmt cs l) ts = Ok (c, rest) ->
  exists new l', c = CInner CStmt (cs ++ new) l' /\ g_stmt_tail new /\ good tt_ new ts rest.
Proof.
  induction n as [|n IH]; intros cs l ts c rest H; [discriminate|]. cbn [stmt_loop] in H.
  destruct (newline_parse ts) as [[c1 ts1]|?|?|] eqn:EN; try discriminate;
    [|injection H as <- <-; exists [], l; split;
      [rewrite app_nil_r; reflexivity|split; [constructor|apply good_nil]]].
  destruct (expr_or_close_parse ts1) as [[c2 ts2]|?|?|] eqn:EE; try discriminate;
    [|injection H as <- <-; exists [], l; split;
      [rewrite app_nil_r; reflexivity|split; [constructor|apply good_nil]]].
  apply newline_good in EN as (ln & -> & ->). apply eoc_good in EE as (A & B & C).
  cbn in H. apply IH in H as (new & l' & -> & G1 & G2).
  exists (new_newline ln :: c2 :: new), l'. split; [rewrite <- !app_assoc; reflexivity|].
  split; [constructor; [eexists; reflexivity|exact A|exact G1]|].
  eapply good_cons; [exact I|reflexivity|exact I|]. eapply good_cons; [exact I|exact B|exact C|exact G2].
Qed.

Lemma stmt_parse_good : forall ts c rest, stmt_parse ts = Ok (c, rest) ->
  g_stmt c /\ ts = leaf_toks c ++ rest /\ spans_ok c rest.
Proof.
  intros ts c rest H. unfold stmt_parse in H. apply bind_ok in H as ([x ts1] & E & H).
  apply eoc_good in E as (A & B & C). cbn [cst_add cst_add_opt new_stmt bind app] in H.
  apply stmt_loop_good in H as (new & l' & -> & G1 & G2).
  split; [exists x, new, l'; auto|].
  assert (G : good tt_ (x :: new) ts rest) by (eapply good_cons; [exact I|exact B|exact C|exact G2]).
  split; [exact (gd_toks _ _ _ _ G)|]. split; [exact I|exact (gd_spans _ _ _ _ G)].
Qed.

(** The parser of a statement stops where no statement can continue. *)
Lemma stmt_loop_stop : forall n st ts c rest, stmt_loop n st ts = Ok (c, rest) ->
  forall l rest', rest = mktok TkNewLine l :: rest' -> exists e, expr_or_close_parse rest' = Err e.
Proof.
  induction n as [|n IH]; intros st ts c rest H l rest' ->; [discriminate|]. cbn [stmt_loop] in H.
  destruct (newline_parse ts) as [[c1 ts1]|?|?|] eqn:EN; try discriminate.
  - destruct (expr_or_close_parse ts1) as [[c2 ts2]|?|?|] eqn:EE; try discriminate.
    + destruct (cst_add st c1) as [s1|?|?|]; try discriminate. cbn [bind] in H.
      destruct (cst_add s1 c2) as [s2|?|?|]; try discriminate. cbn [bind] in H. eapply IH; eauto.
    + injection H as _ E. subst ts. apply newline_good in EN as (l2 & E & _). injection E as <- <-. eauto.
  - injection H as _ E. subst ts. discriminate.
Qed.

Lemma stmt_parse_stop : forall ts c l rest', stmt_parse ts = Ok (c, mktok TkNewLine l :: rest') ->
  exists e, expr_or_close_parse rest' = Err e.
Proof.
  intros ts c l rest' H. unfold stmt_parse in H. apply bind_ok in H as ([x ts1] & E & H).
  cbn [cst_add cst_add_opt new_stmt bind] in H. exact (stmt_loop_stop _ _ _ _ _ H _ _ eq_refl).
Qed.

Lemma newlines_loop_good : forall ts cs rest, newlines_loop ts = (cs, rest) ->
  Forall is_newline cs /\ good tt_ cs ts rest /\ (forall l r, rest <> mktok TkNewLine l :: r).
Proof.
  induction ts as [|[k l] ts IH]; intros cs rest H.
  - injection H as <- <-. split; [constructor|]. split; [apply good_nil|discriminate].
  - destruct k; cbn [newlines_loop] in H;
      try (injection H as <- <-; split; [constructor|]; split; [apply good_nil|discriminate]).
    destruct (newlines_loop ts) as [cs' r']. injection H as <- <-.
    destruct (IH _ _ eq_refl) as (A & B & C).
    split; [constructor; [eexists; reflexivity|exact A]|]. split; [|exact C].
    eapply good_cons; [exact I|reflexivity|exact I|exact B].
Qed.

Lemma add_all_eq : forall cs k cs0 l, exists l', add_all (CInner k cs0 l) cs = Ok (CInner k (cs0 ++ cs) l').
Proof.
  induction cs as [|x cs IH]; intros k cs0 l; cbn.
  - exists l. rewrite app_nil_r. reflexivity.
  - destruct (IH k (cs0 ++ [x]) (merge_location l (cst_location x))) as [l' E]. exists l'.
    rewrite E, <- app_assoc. reflexivity.
Qed.

(** The paragraphs the loop has read: all complete, except that the last one may be followed by a
    single newline when nothing but newlines can follow. *)
Definition para_last (new : list cst) (rest : list token) : Prop :=
  g_paragraphs new \/
  exists ps s n e, new = ps ++ [s; n] /\ g_paragraphs ps /\ g_stmt s /\ is_newline n /\
    expr_or_close_parse rest = Err e.

Lemma g_paragraphs_app : forall a b, g_paragraphs a -> g_paragraphs b -> g_paragraphs (a ++ b).
Proof.
  intros a b H Hb. induction H as [|s n1 n2 ns cs H1 H2 H3 H4 H5 IH]; [exact Hb|].
  cbn. rewrite <- app_assoc. constructor; assumption.
Qed.

Lemma document_loop_good : forall n cs l ts c rest,
  document_loop n (CInner CDocument cs l) ts = Ok (c, rest) ->
  exists new l', c = CInner CDocument (cs ++ new) l' /\ para_last new rest /\ good tt_ new ts rest.
Proof.
  induction n as [|n IH]; intros cs l ts c rest H; [discriminate|]. cbn [document_loop] in H.
  destruct (stmt_parse ts) as [[c1 ts1]|?|?|] eqn:ES; try discriminate;
    [|injection H as <- <-; exists [], l; split;
      [rewrite app_nil_r; reflexivity|split; [left; constructor|apply good_nil]]].
  destruct (newline_parse ts1) as [[c2 ts2]|?|?|] eqn:EN; try discriminate;
    [|injection H as <- <-; exists [], l; split;
      [rewrite app_nil_r; reflexivity|split; [left; constructor|apply good_nil]]].
  destruct (newlines_loop ts2) as [cs3 ts3] eqn:EL.
  destruct (add_all_eq (c1 :: c2 :: cs3) CDocument cs l) as [l2 EA]. rewrite EA in H. cbn [bind] in H.
  apply newline_good in EN as (ln & -> & ->).
  destruct (stmt_parse_good _ _ _ ES) as (S1 & S2 & S3).
  destruct (stmt_parse_stop _ _ _ _ ES) as [e HE].
  destruct (newlines_loop_good _ _ _ EL) as (N1 & N2 & N3).
  assert (GG : good tt_ (c1 :: new_newline ln :: cs3) ts ts3).
  { eapply good_cons; [exact I|exact S2|exact S3|].
    eapply good_cons; [exact I|reflexivity|exact I|exact N2]. }
  destruct cs3 as [|n2 ns].
  - (* a single newline: no statement follows *)
    assert (T : ts3 = ts2) by (symmetry; exact (gd_toks _ _ _ _ N2)). subst ts3.
    destruct n as [|n]; [discriminate|]. cbn [document_loop] in H.
    unfold stmt_parse in H. rewrite HE in H. cbn in H. injection H as <- <-.
    exists [c1; new_newline ln], l2. split; [reflexivity|]. split; [|exact GG].
    right. exists [], c1, (new_newline ln), e. split; [reflexivity|]. split; [constructor|].
    split; [exact S1|]. split; [eexists; reflexivity|exact HE].
  - apply IH in H as (new & l' & -> & G1 & G2).
    exists ((c1 :: new_newline ln :: n2 :: ns) ++ new), l'. split; [rewrite <- app_assoc; reflexivity|].
    split; [|eapply good_app; [exact GG|exact G2]].
    inversion N1 as [|? ? N1a N1b]; subst.
    destruct G1 as [G1|(ps & s & nn & e' & -> & P1 & P2 & P3 & P4)].
    + left. change (g_paragraphs (c1 :: new_newline ln :: n2 :: ns ++ new)).
      constructor; auto. eexists; reflexivity.
    + right. exists (c1 :: new_newline ln :: n2 :: ns ++ ps), s, nn, e'.
      split; [cbn; rewrite <- app_assoc; reflexivity|].
      split; [constructor; auto; eexists; reflexivity|auto].
Qed.

Theorem parse_sound : forall ts c, parse ts = Ok c ->
  g_document c /\ exists rest, ts = leaf_toks c ++ rest /\ spans_ok c rest.
Proof.
  intros ts c H. unfold parse in H. apply bind_ok in H as ([d ts1] & ED & H).
  destruct (document_loop_good _ _ _ _ _ _ ED) as (ps & l1 & -> & P & G).
  apply bind_ok in H as ([d2 ts2] & E2 & H).
  assert (X : exists lst l2, d2 = CInner CDocument (ps ++ lst) l2 /\ good tt_ lst ts1 ts2 /\
               exists ps' lst' nl, ps ++ lst = ps' ++ lst' ++ nl /\ g_paragraphs ps' /\
                 (lst' = [] \/ exists s, lst' = [s] /\ g_stmt s) /\ Forall is_newline nl).
  { destruct (stmt_parse ts1) as [[c1 r1]|?|?|] eqn:ES; try discriminate.
    - cbn in E2. injection E2 as <- <-. destruct (stmt_parse_good _ _ _ ES) as (S1 & S2 & S3).
      exists [c1], (merge_location l1 (cst_location c1)). split; [reflexivity|].
      split; [eapply good_cons; [exact I|exact S2|exact S3|apply good_nil]|].
      destruct P as [P|(ps' & s1 & nn & e & -> & P1 & P2 & P3 & P4)].
      + exists ps, [c1], []. split; [reflexivity|]. split; [exact P|]. split; [eauto|constructor].
      + exfalso. unfold stmt_parse in ES. rewrite P4 in ES. discriminate.
    - injection E2 as <- <-. exists [], l1. rewrite app_nil_r. split; [reflexivity|].
      split; [apply good_nil|].
      destruct P as [P|(ps' & s1 & nn & e & -> & P1 & P2 & P3 & P4)].
      + exists ps, [], []. rewrite !app_nil_r. split; [reflexivity|]. split; [exact P|]. split; [auto|constructor].
      + exists ps', [s1], [nn]. split; [reflexivity|]. split; [exact P1|]. split; [eauto|]. repeat constructor; exact P3. }
  destruct X as (lst & l2 & -> & GL & ps' & lst' & nl & EQ & Q1 & Q2 & Q3).
  destruct (newlines_loop ts2) as [ns ts3] eqn:EN. destruct (newlines_loop_good _ _ _ EN) as (N1 & N2 & _).
  destruct (add_all_eq ns CDocument (ps ++ lst) l2) as [l3 EA]. rewrite EA in H. cbn [bind] in H.
  apply bind_ok in H as ([ce r4] & EE & H).
  destruct ts3 as [|[[] le] ts3]; try discriminate. cbn in EE. injection EE as <- <-.
  cbn in H. injection H as <-.
  assert (GG : good tt_ (((ps ++ lst) ++ ns) ++ [new_eof le]) ts ts3).
  { eapply good_app; [eapply good_app; [eapply good_app; [exact G|exact GL]|exact N2]|].
    eapply good_cons; [exact I|reflexivity|exact I|apply good_nil]. }
  split.
  - exists ps', lst', (nl ++ ns), le. eexists. split.
    + rewrite EQ, <- !app_assoc. reflexivity.
    + split; [exact Q1|]. split; [exact Q2|]. apply Forall_app; auto.
  - exists ts3. split; [exact (gd_toks _ _ _ _ GG)|]. split; [exact I|exact (gd_spans _ _ _ _ GG)].
Qed.
