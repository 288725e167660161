(** The parser terminates, panics only on a final backslash, and accepts exactly the
    documents of the recognizer in SpecCST.v. *)
From Coq Require Import String List NArith Arith Bool Lia.
From Verif Require Import Base Tokens CST SpecTok SpecCST Parser ParserProofs.
Import ListNotations.

(** ** Trees are not empty *)
Lemma g_item_toks : forall c, g_item c -> leaf_toks c <> [].
Proof.
  intros c H. destruct H; cbn; try discriminate.
  destruct k; cbn in *; try discriminate; injection H as <- <-; discriminate.
Qed.

Lemma g_expr_toks : forall c, g_expr c -> leaf_toks c <> [].
Proof.
  intros c H. destruct H as [items l N F]. destruct items as [|x items]; [congruence|].
  inversion F as [|? ? F1 F2]; subst. cbn. apply g_item_toks in F1.
  destruct (leaf_toks x); [congruence|discriminate].
Qed.

Lemma app_lt : forall (a b c : list token), a = b ++ c -> b <> [] -> length c < length a.
Proof. intros a b c -> H. rewrite app_length. destruct b; [congruence|cbn; lia]. Qed.

(** ** Termination and panics *)
Definition final_bs (ts : list token) : Prop := exists pre l, ts = pre ++ [mktok TkBackSlash l].

Lemma final_bs_app : forall a b, final_bs b -> final_bs (a ++ b).
Proof. intros a b (pre & l & ->). exists (a ++ pre), l. rewrite app_assoc. reflexivity. Qed.

Definition safe {A} (ts : list token) (r : res A) : Prop :=
  match r with Fuel => False | Panic _ => final_bs ts | _ => True end.

Lemma safe_app : forall A a b (r : res A), safe b r -> safe (a ++ b) r.
Proof. intros A a b [x|e|e|] H; cbn in *; auto. apply final_bs_app; exact H. Qed.

Lemma safe_cons : forall A t b (r : res A), safe b r -> safe (t :: b) r.
Proof. intros A t b r H. apply (safe_app A [t]). exact H. Qed.

Lemma escaped_safe : forall ts, safe ts (escaped_parse ts).
Proof.
  intros [|[k l] ts]; [exact I|]. destruct k; cbn; try exact I.
  destruct ts as [|t ts]; [exists [], l; reflexivity|]. destruct (escapable (tk t)); exact I.
Qed.

Lemma expr_finish_safe : forall ts0 cs l ts, safe ts0 (expr_finish (CInner CExpr cs l) ts).
Proof. intros ts0 [|c cs] l ts; exact I. Qed.

Lemma total : forall n,
  (forall cs l ts, 4 * length ts + 3 <= n -> safe ts (expr_loop n (CInner CExpr cs l) ts)) /\
  (forall b ts, 4 * length ts + 1 <= n -> safe ts (b_parse n b ts)) /\
  (forall k cs l ts, 4 * length ts + 4 <= n -> safe ts (b_loop n (CInner k cs l) ts)).
Proof.
  induction n as [n IH] using lt_wf_ind. destruct n as [|n].
  { repeat split; intros; lia. }
  split; [|split].
  - intros cs l ts L. rewrite expr_loop_S.
    destruct n as [|[|n]]; try lia.
    assert (HI : safe ts (item_parse (S (S n)) ts)).
    { rewrite item_parse_eq. destruct ts as [|[k lt] ts1]; [exact I|].
      destruct k; cbn [tk bk leaf_item]; try exact I; [apply escaped_safe|..].
      - pose proof (proj1 (proj2 (IH (S n) ltac:(lia))) KAngle (mktok TkAngleOpen lt :: ts1) ltac:(lia)) as HB.
        destruct (b_parse (S n) KAngle _); exact HB.
      - pose proof (proj1 (proj2 (IH (S n) ltac:(lia))) KSquare (mktok TkSquareOpen lt :: ts1) ltac:(lia)) as HB.
        destruct (b_parse (S n) KSquare _); exact HB.
      - pose proof (proj1 (proj2 (IH (S n) ltac:(lia))) KCurly (mktok TkCurlyOpen lt :: ts1) ltac:(lia)) as HB.
        destruct (b_parse (S n) KCurly _); exact HB. }
    destruct (item_parse (S (S n)) ts) as [[c ts']|?|?|] eqn:E; try exact HI.
    cbn [cst_add cst_add_opt bind].
    assert (S1 : expr_loop (S (S (S n))) (CInner CExpr [] l) ts = expr_loop (S (S n))
                   (CInner CExpr [c] (merge_location l (cst_location c))) ts').
    { rewrite expr_loop_S, E. reflexivity. }
    assert (G : g_item c /\ ts = leaf_toks c ++ ts').
    { clear S1 HI. rewrite item_parse_eq in E. destruct ts as [|[k lt] ts1]; [discriminate|].
      destruct k; cbn [tk bk leaf_item] in E; try discriminate;
        try (injection E as <- <-; split; [(apply G_named + apply G_mark); cbn; tauto | reflexivity]).
      - apply escaped_good in E as (? & ? & ?); auto.
      - destruct (b_parse (S n) KAngle _) as [[c1 r1]|?|?|] eqn:EB; try discriminate.
        injection E as <- <-. destruct (proj1 (proj2 (sound _)) _ _ _ _ EB) as (? & ? & ?); auto.
      - destruct (b_parse (S n) KSquare _) as [[c1 r1]|?|?|] eqn:EB; try discriminate.
        injection E as <- <-. destruct (proj1 (proj2 (sound _)) _ _ _ _ EB) as (? & ? & ?); auto.
      - destruct (b_parse (S n) KCurly _) as [[c1 r1]|?|?|] eqn:EB; try discriminate.
        injection E as <- <-. destruct (proj1 (proj2 (sound _)) _ _ _ _ EB) as (? & ? & ?); auto. }
    destruct G as [G1 G2]. pose proof (app_lt _ _ _ G2 (g_item_toks _ G1)) as LT.
    rewrite G2. apply safe_app. apply IH; lia.
  - intros b ts L. cbn [b_parse]. destruct ts as [|t ts]; [exact I|].
    destruct (b_open_parse b (t :: ts)) as [[o ts1]|e|e|] eqn:HO; try exact I;
      try (destruct t as [[] l], b; discriminate HO).
    assert (EO : ts1 = ts) by (destruct t as [[] l], b; cbn in HO; try discriminate; injection HO as <- <-; auto).
    subst ts1. cbn [bind]. 
    destruct (cst_add (b_node b) o) as [r0|?|?|] eqn:ER; try (destruct b; discriminate ER).
    assert (E0 : exists cs0 l0, r0 = CInner (nkind b) cs0 l0).
    { destruct b; injection ER as <-; eexists _, _; reflexivity. }
    destruct E0 as (cs0 & l0 & ->). cbn [bind].
    assert (SL : safe ts (b_loop n (CInner (nkind b) cs0 l0) ts)).
    { apply IH; [lia|]. cbn [length] in L. lia. }
    destruct (b_loop n _ ts) as [[r1 ts2]|?|?|] eqn:EL; try exact I; try exact SL.
    + destruct (proj2 (proj2 (sound n)) _ _ _ _ _ _ EL) as (body & l1 & -> & _).
      cbn [bind]. destruct ts2 as [|t2 ts2]; [exact I|].
      destruct (b_close_parse b (t2 :: ts2)) as [[z ts4]|?|?|] eqn:EZ;
        try exact I; destruct t2 as [[] lz], b; discriminate EZ.
    + cbn [bind]. apply safe_cons. exact SL.
  - intros k cs l ts L. cbn [b_loop].
    assert (SE : safe ts (let! (e, ts') := expr_loop n new_expr ts in expr_finish e ts')).
    { pose proof (proj1 (IH n ltac:(lia)) [] mock_location ts ltac:(lia)) as SE.
      unfold new_expr. destruct (expr_loop n _ ts) as [[e ts']|?|?|] eqn:EE; try exact SE.
      destruct (proj1 (sound n) _ _ _ _ _ EE) as (new & l' & -> & _). apply expr_finish_safe. }
    destruct (let! (e, ts') := expr_loop n new_expr ts in expr_finish e ts') as [[c1 ts1]|?|?|] eqn:E;
      try exact SE.
    + apply bind_ok in E as ([e1 ts2] & E1 & E2).
      destruct (proj1 (sound n) _ _ _ _ _ E1) as (new & l' & -> & G).
      destruct (expr_finish_good _ _ _ _ _ _ E2 G) as (-> & G1 & G2 & G3).
      pose proof (app_lt _ _ _ G2 (g_expr_toks _ G1)) as LT.
      cbn [cst_add cst_add_opt bind]. rewrite G2. apply safe_app. apply IH; lia.
    + destruct (newline_parse ts) as [[c1 ts1]|?|?|] eqn:EN; try exact I;
        try (destruct ts as [|[[] lt] ts']; discriminate EN).
      apply newline_good in EN as (ln & -> & ->). cbn [cst_add cst_add_opt bind].
      apply safe_cons. apply IH; cbn [length] in L; lia.
Qed.

Lemma expr_parse_safe : forall ts, safe ts (expr_parse ts).
Proof.
  intro ts. unfold expr_parse, fuel_for.
  pose proof (proj1 (total (4 * length ts + 4)) [] mock_location ts ltac:(lia)) as SE.
  unfold new_expr. destruct (expr_loop _ _ ts) as [[e ts']|?|?|] eqn:EE; try exact SE.
  destruct (proj1 (sound _) _ _ _ _ _ EE) as (new & l' & -> & _). apply expr_finish_safe.
Qed.

Lemma eoc_safe : forall ts, safe ts (expr_or_close_parse ts).
Proof.
  intro ts. unfold expr_or_close_parse. pose proof (expr_parse_safe ts) as S.
  destruct (expr_parse ts) as [[c1 r1]|?|?|]; try exact S.
  destruct ts as [|[[] l] ts]; exact I.
Qed.

Lemma eoc_toks : forall c, g_expr_or_close c -> leaf_toks c <> [].
Proof. intros c [H|(k & l & -> & _)]; [apply g_expr_toks; exact H|discriminate]. Qed.

Lemma stmt_loop_safe : forall n cs l ts, length ts < n -> safe ts (stmt_loop n (CInner CStmt cs l) ts).
Proof.
  induction n as [|n IH]; intros cs l ts L; [lia|]. cbn [stmt_loop].
  destruct (newline_parse ts) as [[c1 ts1]|?|?|] eqn:EN; try exact I;
    try (destruct ts as [|[[] lt] ts']; discriminate EN).
  apply newline_good in EN as (ln & -> & ->). cbn [length] in L.
  pose proof (eoc_safe ts1) as SE.
  destruct (expr_or_close_parse ts1) as [[c2 ts2]|?|?|] eqn:EE; try exact I; try exact SE.
  - apply eoc_good in EE as (A & B & _). pose proof (app_lt _ _ _ B (eoc_toks _ A)).
    cbn [cst_add cst_add_opt bind]. apply safe_cons. rewrite B. apply safe_app. apply IH. lia.
  - apply safe_cons; exact SE.
Qed.

Lemma stmt_parse_safe : forall ts, safe ts (stmt_parse ts).
Proof.
  intro ts. unfold stmt_parse. pose proof (eoc_safe ts) as S.
  destruct (expr_or_close_parse ts) as [[c r]|?|?|] eqn:E; try exact S.
  apply eoc_good in E as (A & B & _). cbn [bind cst_add cst_add_opt new_stmt].
  rewrite B. apply safe_app. apply stmt_loop_safe. lia.
Qed.

Lemma g_stmt_toks : forall c, g_stmt c -> leaf_toks c <> [].
Proof.
  intros c (x & cs & l & -> & A & _). apply eoc_toks in A. cbn.
  destruct (leaf_toks x); [congruence|discriminate].
Qed.

Lemma document_loop_safe : forall n cs l ts, length ts < n ->
  safe ts (document_loop n (CInner CDocument cs l) ts).
Proof.
  induction n as [|n IH]; intros cs l ts L; [lia|]. cbn [document_loop].
  pose proof (stmt_parse_safe ts) as SS.
  destruct (stmt_parse ts) as [[c1 ts1]|?|?|] eqn:ES; try exact SS.
  destruct (newline_parse ts1) as [[c2 ts2]|?|?|] eqn:EN; try exact I;
    try (destruct ts1 as [|[[] lt] ts']; discriminate EN).
  destruct (newlines_loop ts2) as [cs3 ts3] eqn:EL.
  destruct (add_all_eq (c1 :: c2 :: cs3) CDocument cs l) as [l2 EA]. rewrite EA. cbn [bind].
  apply newline_good in EN as (ln & -> & ->).
  destruct (stmt_parse_good _ _ _ ES) as (S1 & S2 & _).
  destruct (newlines_loop_good _ _ _ EL) as (_ & [_ N2 _] & _).
  rewrite S2. apply safe_app. apply safe_cons. rewrite N2. apply safe_app. apply IH.
  apply (f_equal (@length token)) in S2, N2. rewrite app_length in S2, N2. cbn [length] in S2. lia.
Qed.

Theorem parse_safe : forall ts, safe ts (parse ts).
Proof.
  intro ts. unfold parse.
  pose proof (document_loop_safe (S (length ts)) [] mock_location ts ltac:(lia)) as SD.
  unfold new_document.
  destruct (document_loop _ _ ts) as [[d ts1]|?|?|] eqn:ED; try exact SD.
  destruct (document_loop_good _ _ _ _ _ _ ED) as (ps & l1 & -> & _ & [_ G _]).
  cbn [bind]. pose proof (stmt_parse_safe ts1) as SS.
  assert (SX : forall d' ts2, safe ts (let (cs, ts3) := newlines_loop ts2 in
             let! d := add_all (CInner CDocument d' l1) cs in
             let! (c, _) := eof_parse ts3 in cst_add d c)).
  { intros d' ts2. destruct (newlines_loop ts2) as [ns ts3].
    destruct (add_all_eq ns CDocument d' l1) as [l3 EA]. rewrite EA. cbn [bind].
    destruct ts3 as [|[[] le] ts3]; exact I. }
  destruct (stmt_parse ts1) as [[c1 r1]|?|?|] eqn:ES; try contradiction.
  - cbn [cst_add cst_add_opt bind]. destruct (newlines_loop r1) as [ns ts3].
    destruct (add_all_eq ns CDocument ((([] ++ ps) ++ [c1])) (merge_location l1 (cst_location c1))) as [l3 EA].
    rewrite EA. cbn [bind]. destruct ts3 as [|[[] le] ts3]; exact I.
  - cbn [bind]. apply SX.
  - cbn. rewrite G. apply final_bs_app. exact SS.
Qed.
