(** How deep the calls of the parser are nested. *)
From Coq Require Import String List NArith Arith Bool Lia.
From Verif Require Import Base Tokens CST SpecTok SpecCST Parser ParserProofs ParserProofs2 SpecNesting.
Import ListNotations.

(** The parser with room for [d] calls of [expr::parse] inside each other, and [Fuel] if there is no room for one more.
    expr.rs 13-41, bracket.rs 7-16, angle.rs, curly.rs and square.rs 11-54, as in Parser.v *)
Fixpoint
  expr_loop_d (n d : nat) (expr : cst) (ts : list token) {struct n} : parser :=
  match n with
  | O => Fuel
  | S n =>
    iflet (c, ts') := escaped_parse ts then let! e := cst_add expr c in expr_loop_d n d e ts'
    else iflet (c, ts') := module_parse ts then let! e := cst_add expr c in expr_loop_d n d e ts'
    else iflet (c, ts') := ident_parse ts then let! e := cst_add expr c in expr_loop_d n d e ts'
    else iflet (c, ts') := bracket_parse_d n d ts then let! e := cst_add expr c in expr_loop_d n d e ts'
    else iflet (c, ts') := dot_parse ts then let! e := cst_add expr c in expr_loop_d n d e ts'
    else iflet (c, ts') := comma_parse ts then let! e := cst_add expr c in expr_loop_d n d e ts'
    else iflet (c, ts') := whitespace_parse ts then let! e := cst_add expr c in expr_loop_d n d e ts'
    else iflet (c, ts') := text_parse ts then let! e := cst_add expr c in expr_loop_d n d e ts'
    else Ok (expr, ts)
  end
with
  bracket_parse_d (n d : nat) (ts : list token) {struct n} : parser :=
  match n with
  | O => Fuel
  | S n =>
    iflet r := b_parse_d n d KAngle ts then Ok r
    else iflet r := b_parse_d n d KCurly ts then Ok r
    else iflet r := b_parse_d n d KSquare ts then Ok r
    else Err (lit "Expected angle, curly, or square bracket, found none")
  end
with
  b_parse_d (n d : nat) (b : bkind) (ts : list token) {struct n} : parser :=
  match n with
  | O => Fuel
  | S n =>
    match ts with
    | [] => Err (lit "Expected bracket open token, found none")
    | t :: _ =>
      let! (c, ts1) := b_open_parse b ts in
      let! r := cst_add (b_node b) c in
      let! (r, ts2) := b_loop_d n d r ts1 in
      match ts2 with
      | [] => Err (lit "Expected even at worst EOF, found none")
      | t2 :: _ =>
        let! (r, ts3) :=
          (iflet (c, ts3) := b_close_parse b ts2 then let! r := cst_add r c in Ok (r, ts3)
           else Ok (r, ts2)) in
        Ok (cst_set_location r (mkloc (lstart (tl t)) (lend (tl t2))), ts3)
      end
    end
  end
with
  b_loop_d (n d : nat) (r : cst) (ts : list token) {struct n} : parser :=
  match n with
  | O => Fuel
  | S n =>
    match d with
    | O => Fuel
    | S d' =>
      iflet (c, ts') := (let! (e, ts') := expr_loop_d n d' new_expr ts in expr_finish e ts')
        then let! r := cst_add r c in b_loop_d n d r ts'
      else iflet (c, ts') := newline_parse ts then let! r := cst_add r c in b_loop_d n d r ts'
      else Ok (r, ts)
    end
  end.

(** expr.rs 9-54 *)
Definition expr_parse_d (d : nat) (ts : list token) : parser :=
  match d with
  | O => Fuel
  | S d' => let! (e, ts') := expr_loop_d (fuel_for ts) d' new_expr ts in expr_finish e ts'
  end.

(** expr_or_close.rs 7-14 *)
Definition expr_or_close_parse_d (d : nat) (ts : list token) : parser :=
  iflet r := expr_parse_d d ts then Ok r
  else iflet r := bracket_close_parse ts then Ok r
  else Err (lit "Expected expr or bracket close, found none").

(** stmt.rs 11-21 *)
Fixpoint stmt_loop_d (n d : nat) (stmt : cst) (ts : list token) : parser :=
  match n with
  | O => Fuel
  | S n =>
    iflet (c1, ts1) := newline_parse ts
    then (iflet (c2, ts2) := expr_or_close_parse_d d ts1
          then let! s := cst_add stmt c1 in let! s := cst_add s c2 in stmt_loop_d n d s ts2
          else Ok (stmt, ts))
    else Ok (stmt, ts)
  end.

(** stmt.rs 6-24 *)
Definition stmt_parse_d (d : nat) (ts : list token) : parser :=
  let! (c, ts1) := expr_or_close_parse_d d ts in
  let! s := cst_add new_stmt c in
  stmt_loop_d (S (length ts1)) d s ts1.

(** parse.rs 14-41 *)
Fixpoint document_loop_d (n d : nat) (doc : cst) (ts : list token) : parser :=
  match n with
  | O => Fuel
  | S n =>
    iflet (c1, ts1) := stmt_parse_d d ts
    then (iflet (c2, ts2) := newline_parse ts1
          then let (cs3, ts3) := newlines_loop ts2 in
               let! x := add_all doc (c1 :: c2 :: cs3) in document_loop_d n d x ts3
          else Ok (doc, ts))
    else Ok (doc, ts)
  end.

(** parse.rs 10-57 *)
Definition parse_d (d : nat) (ts : list token) : res cst :=
  let! (x, ts1) := document_loop_d (S (length ts)) d new_document ts in
  let! (x, ts2) :=
    (iflet (c1, ts2) := stmt_parse_d d ts1 then let! x := cst_add x c1 in Ok (x, ts2) else Ok (x, ts1)) in
  let (cs, ts3) := newlines_loop ts2 in
  let! x := add_all x cs in
  let! (c, _) := eof_parse ts3 in
  cst_add x c.

(** ** Inside expressions *)
Definition has_eof (ts : list token) : Prop := In TkEOF (map tk ts).

Lemma levels_inner : forall k cs l, levels (CInner k cs l) = (if is_bracket k then 1 else 0) + list_max (map levels cs).
Proof. reflexivity. Qed.
Lemma levels_app : forall a b, list_max (map levels (a ++ b)) = Nat.max (list_max (map levels a)) (list_max (map levels b)).
Proof. intros a b. rewrite map_app. apply list_max_app. Qed.
Lemma levels_one : forall c, list_max (map levels [c]) = levels c.
Proof. intro c. cbn. lia. Qed.

Lemma eof_rest : forall c ts rest, no_eof c -> ts = leaf_toks c ++ rest -> has_eof ts -> has_eof rest.
Proof.
  unfold has_eof. intros c ts rest N -> H. rewrite map_app in H. apply in_app_or in H as [H|H]; [|exact H].
  exfalso. apply in_map_iff in H as (t & E & I). unfold no_eof in N. rewrite Forall_forall in N. exact (N t I E).
Qed.

Definition limited (d : nat) (c : cst) (r : parser) : parser := if levels c <=? d then r else Fuel.

Definition item_parse_d (n d : nat) (ts : list token) : parser :=
  iflet r := escaped_parse ts then Ok r
  else iflet r := module_parse ts then Ok r
  else iflet r := ident_parse ts then Ok r
  else iflet r := bracket_parse_d n d ts then Ok r
  else iflet r := dot_parse ts then Ok r
  else iflet r := comma_parse ts then Ok r
  else iflet r := whitespace_parse ts then Ok r
  else iflet r := text_parse ts then Ok r
  else Err [].

Lemma expr_loop_d_S : forall n d e ts,
  expr_loop_d (S n) d e ts =
  iflet (c, ts') := item_parse_d n d ts then let! e' := cst_add e c in expr_loop_d n d e' ts'
  else Ok (e, ts).
Proof.
  intros n d e ts. cbn [expr_loop_d]. unfold item_parse_d.
  destruct (escaped_parse ts) as [[? ?]|?|?|]; try reflexivity.
  destruct (module_parse ts) as [[? ?]|?|?|]; try reflexivity.
  destruct (ident_parse ts) as [[? ?]|?|?|]; try reflexivity.
  destruct (bracket_parse_d n d ts) as [[? ?]|?|?|]; try reflexivity.
  destruct (dot_parse ts) as [[? ?]|?|?|]; try reflexivity.
  destruct (comma_parse ts) as [[? ?]|?|?|]; try reflexivity.
  destruct (whitespace_parse ts) as [[? ?]|?|?|]; try reflexivity.
  destruct (text_parse ts) as [[? ?]|?|?|]; reflexivity.
Qed.

(** Leaves and escaped characters *)
Lemma escaped_flat : forall ts c rest, escaped_parse ts = Ok (c, rest) -> levels c = 0.
Proof.
  intros ts c rest H. destruct ts as [|[[] l] [|t ts]]; cbn in H; try discriminate.
  destruct (escapable (tk t)); try discriminate; injection H as <- _; reflexivity.
Qed.

Lemma bracket_good : forall n ts c rest, bracket_parse n ts = Ok (c, rest) -> ts = leaf_toks c ++ rest /\ no_eof c.
Proof.
  intros [|n] ts c rest H; [discriminate|]. cbn [bracket_parse] in H.
  assert (forall b, b_parse n b ts = Ok (c, rest) -> ts = leaf_toks c ++ rest /\ no_eof c) as K.
  { intros b E. destruct (proj1 (proj2 (sound n)) _ _ _ _ E) as (A & B & _). split; [exact B|exact (proj1 (g_no_eof _) A)]. }
  destruct (b_parse n KAngle ts) as [?|?|?|] eqn:E1; try discriminate; [apply (K KAngle); congruence|].
  destruct (b_parse n KCurly ts) as [?|?|?|] eqn:E2; try discriminate; [apply (K KCurly); congruence|].
  destruct (b_parse n KSquare ts) as [?|?|?|] eqn:E3; try discriminate. apply (K KSquare); congruence.
Qed.

Lemma item_eof : forall n ts c rest, item_parse n ts = Ok (c, rest) -> has_eof ts -> has_eof rest.
Proof.
  intros n ts c rest H E. unfold item_parse in H.
  assert (forall k l ts', ts = mktok k l :: ts' -> k <> TkEOF -> has_eof ts') as One.
  { intros k l ts' -> N. destruct E as [E|E]; [contradiction|exact E]. }
  destruct (escaped_parse ts) as [[c1 r1]|?|?|] eqn:E1; try discriminate.
  { injection H as <- <-. apply escaped_good in E1 as (A & B & _). eapply eof_rest; [exact (proj1 (g_no_eof _) A)|exact B|exact E]. }
  destruct (module_parse ts) as [[c1 r1]|?|?|] eqn:E2; try discriminate.
  { injection H as <- <-. destruct ts as [|[[] l] ts]; try discriminate. injection E2 as _ <-. eapply One; [reflexivity|discriminate]. }
  destruct (ident_parse ts) as [[c1 r1]|?|?|] eqn:E3; try discriminate.
  { injection H as <- <-. destruct ts as [|[[] l] ts]; try discriminate. injection E3 as _ <-. eapply One; [reflexivity|discriminate]. }
  destruct (bracket_parse n ts) as [[c1 r1]|?|?|] eqn:E4; try discriminate.
  { injection H as <- <-. apply bracket_good in E4 as (A & B). eapply eof_rest; [exact B|exact A|exact E]. }
  destruct (dot_parse ts) as [[c1 r1]|?|?|] eqn:E5; try discriminate.
  { injection H as <- <-. destruct ts as [|[[] l] ts]; try discriminate. injection E5 as _ <-. eapply One; [reflexivity|discriminate]. }
  destruct (comma_parse ts) as [[c1 r1]|?|?|] eqn:E6; try discriminate.
  { injection H as <- <-. destruct ts as [|[[] l] ts]; try discriminate. injection E6 as _ <-. eapply One; [reflexivity|discriminate]. }
  destruct (whitespace_parse ts) as [[c1 r1]|?|?|] eqn:E7; try discriminate.
  { injection H as <- <-. destruct ts as [|[[] l] ts]; try discriminate. injection E7 as _ <-. eapply One; [reflexivity|discriminate]. }
  destruct (text_parse ts) as [[c1 r1]|?|?|] eqn:E8; try discriminate.
  injection H as <- <-. destruct ts as [|[[] l] ts]; try discriminate. injection E8 as _ <-. eapply One; [reflexivity|discriminate].
Qed.

Definition bracket_limited (n : nat) : Prop := forall d ts, has_eof ts ->
  match bracket_parse n ts with
  | Ok (c, rest) => bracket_parse_d n d ts = limited d c (Ok (c, rest))
  | Err _ => exists e, bracket_parse_d n d ts = Err e
  | _ => True
  end.

Lemma item_limited : forall n, bracket_limited n -> forall d ts, has_eof ts ->
  match item_parse n ts with
  | Ok (c, rest) => item_parse_d n d ts = limited d c (Ok (c, rest))
  | Err _ => exists e, item_parse_d n d ts = Err e
  | _ => True
  end.
Proof.
  intros n B d ts E. specialize (B d ts E). unfold item_parse, item_parse_d.
  destruct (escaped_parse ts) as [[c r]|?|?|] eqn:E1; try exact I.
  { unfold limited. rewrite (escaped_flat _ _ _ E1). reflexivity. }
  destruct (module_parse ts) as [[c r]|?|?|] eqn:E2; try exact I.
  { destruct ts as [|[[] l] ts]; try discriminate. injection E2 as <- <-. reflexivity. }
  destruct (ident_parse ts) as [[c r]|?|?|] eqn:E3; try exact I.
  { destruct ts as [|[[] l] ts]; try discriminate. injection E3 as <- <-. reflexivity. }
  destruct (bracket_parse n ts) as [[c r]|?|?|]; try exact I.
  { rewrite B. unfold limited. destruct (levels c <=? d); reflexivity. }
  destruct B as [e' ->].
  destruct (dot_parse ts) as [[c r]|?|?|] eqn:E5; try exact I.
  { destruct ts as [|[[] l] ts]; try discriminate. injection E5 as <- <-. reflexivity. }
  destruct (comma_parse ts) as [[c r]|?|?|] eqn:E6; try exact I.
  { destruct ts as [|[[] l] ts]; try discriminate. injection E6 as <- <-. reflexivity. }
  destruct (whitespace_parse ts) as [[c r]|?|?|] eqn:E7; try exact I.
  { destruct ts as [|[[] l] ts]; try discriminate. injection E7 as <- <-. reflexivity. }
  destruct (text_parse ts) as [[c r]|?|?|] eqn:E8; try exact I.
  { destruct ts as [|[[] l] ts]; try discriminate. injection E8 as <- <-. reflexivity. }
  eexists. reflexivity.
Qed.

Lemma limited_yes : forall d c r, levels c <= d -> limited d c r = r.
Proof. intros d c r H. unfold limited. destruct (Nat.leb_spec (levels c) d); [reflexivity|lia]. Qed.
Lemma limited_no : forall d c r, d < levels c -> limited d c r = Fuel.
Proof. intros d c r H. unfold limited. destruct (Nat.leb_spec (levels c) d); [lia|reflexivity]. Qed.

Lemma core : forall n,
  bracket_limited n /\
  (forall b d ts, has_eof ts -> match b_parse n b ts with
     | Ok (c, rest) => b_parse_d n d b ts = limited d c (Ok (c, rest))
     | Err _ => exists e, b_parse_d n d b ts = Err e
     | _ => True end) /\
  (forall d cs l ts e rest, has_eof ts -> list_max (map levels cs) <= d -> expr_loop n (CInner CExpr cs l) ts = Ok (e, rest) ->
     expr_loop_d n d (CInner CExpr cs l) ts = limited d e (Ok (e, rest))) /\
  (forall d k cs l ts c rest, is_bracket k = true -> has_eof ts -> list_max (map levels cs) <= pred d ->
     b_loop n (CInner k cs l) ts = Ok (c, rest) -> b_loop_d n d (CInner k cs l) ts = limited d c (Ok (c, rest))).
Proof.
  induction n as [|n (IHk & IHb & IHe & IHl)].
  { split; [intros d ts _; exact I|]. split; [intros; exact I|]. split; intros; discriminate. }
  split; [|split; [|split]].
  - intros d ts E. cbn [bracket_parse bracket_parse_d].
    pose proof (IHb KAngle d ts E) as HA. pose proof (IHb KCurly d ts E) as HC. pose proof (IHb KSquare d ts E) as HS.
    destruct (b_parse n KAngle ts) as [[c r]|?|?|]; try exact I.
    { rewrite HA. unfold limited. destruct (levels c <=? d); reflexivity. }
    destruct HA as [? ->]. destruct (b_parse n KCurly ts) as [[c r]|?|?|]; try exact I.
    { rewrite HC. unfold limited. destruct (levels c <=? d); reflexivity. }
    destruct HC as [? ->]. destruct (b_parse n KSquare ts) as [[c r]|?|?|]; try exact I.
    { rewrite HS. unfold limited. destruct (levels c <=? d); reflexivity. }
    destruct HS as [? ->]. eexists. reflexivity.
  - intros b d ts E. destruct ts as [|t ts]; [destruct E|].
    destruct (b_open_parse b (t :: ts)) as [[c0 ts0]|e0|e0|] eqn:O.
    + assert (tk t = okind b /\ exists k v l, c0 = CLeaf k v l /\ ts0 = ts) as (Kt & k0 & v0 & l0 & -> & ->).
      { destruct t as [k l]. destruct b, k; cbn in O; try discriminate; injection O as <- <-; (split; [reflexivity|repeat eexists]). }
      assert (has_eof ts) as E'. { destruct E as [E|E]; [rewrite Kt in E; destruct b; discriminate|exact E]. }
      destruct (sound_stops (S n)) as (_ & _ & _ & SE & _).
      destruct (b_parse (S n) b (t :: ts)) as [[c rest]|e|e|] eqn:P; try exact I.
      2: { contradiction (SE _ _ _ _ P Kt E'). }
      cbn [b_parse] in P. cbn [b_parse_d]. rewrite O in P |- *. cbn [bind] in P |- *.
      assert (exists l1, cst_add (b_node b) (CLeaf k0 v0 l0) = Ok (CInner (nkind b) [CLeaf k0 v0 l0] l1)) as [l1 A] by (destruct b; eexists; reflexivity).
      rewrite A in P |- *. cbn [bind] in P |- *.
      destruct (b_loop n (CInner (nkind b) [CLeaf k0 v0 l0] l1) ts) as [[r ts2]|?|?|] eqn:L; try discriminate. cbn [bind] in P.
      assert (is_bracket (nkind b) = true) as Bk by (destruct b; reflexivity).
      rewrite (IHl d (nkind b) [CLeaf k0 v0 l0] l1 ts r ts2 Bk E' (Nat.le_0_l _) L).
      assert (levels c = levels r) as Lv.
      { destruct (proj2 (proj2 (sound n)) _ _ _ _ _ _ L) as (new & l' & -> & _).
        destruct ts2 as [|t2 ts2]; [discriminate|].
        destruct (b_close_parse b (t2 :: ts2)) as [[cz tz]|?|?|] eqn:Z; try discriminate; cbn [bind] in P.
        - assert (exists kz vz lz, cz = CLeaf kz vz lz) as (kz & vz & lz & ->).
          { destruct t2 as [k2 l2]. destruct b, k2; cbn in Z; try discriminate; injection Z as <- _; repeat eexists. }
          cbn [cst_add cst_add_opt bind cst_set_location] in P. injection P as <- _. cbn [cst_set_location].
          rewrite !levels_inner. change (CLeaf k0 v0 l0 :: new ++ [CLeaf kz vz lz]) with (([CLeaf k0 v0 l0] ++ new) ++ [CLeaf kz vz lz]).
          rewrite (levels_app _ [CLeaf kz vz lz]), levels_one. cbn [levels]. lia.
        - injection P as <- _. reflexivity. }
      unfold limited. rewrite Lv. destruct (levels r <=? d); [|reflexivity]. cbn [bind]. exact P.
    + cbn [b_parse b_parse_d]. rewrite O. cbn [bind]. eexists. reflexivity.
    + cbn [b_parse]. rewrite O. exact I.
    + cbn [b_parse]. rewrite O. exact I.
  - intros d cs l ts e rest E M H. pose proof (proj1 (sound (S n)) _ _ _ _ _ H) as (new & l' & Ee & _).
    rewrite expr_loop_S in H. rewrite expr_loop_d_S. pose proof (item_limited n IHk d ts E) as It.
    destruct (item_parse n ts) as [[c ts']|?|?|] eqn:Ei; try discriminate.
    + rewrite It. cbn [cst_add cst_add_opt bind] in H |- *.
      pose proof (proj1 (sound n) _ _ _ _ _ H) as (new' & l'' & Ee' & _).
      destruct (le_lt_dec (levels c) d) as [F|F].
      * rewrite limited_yes by exact F. cbn [cst_add cst_add_opt bind]. apply IHe; [exact (item_eof _ _ _ _ Ei E)| |exact H].
        rewrite levels_app, levels_one. lia.
      * rewrite (limited_no d c) by exact F. symmetry. apply limited_no. rewrite Ee', levels_inner, !levels_app, levels_one. lia.
    + destruct It as [e' ->]. injection H as <- <-. symmetry. apply limited_yes. rewrite levels_inner. cbn [is_bracket]. lia.
  - intros d k cs l ts c rest Bk E M H. pose proof (proj2 (proj2 (sound (S n))) _ _ _ _ _ _ H) as (new & l' & Ec & _).
    assert (0 < levels c) as Pos by (rewrite Ec, levels_inner, Bk; lia).
    cbn [b_loop] in H. cbn [b_loop_d]. destruct d as [|d]; [symmetry; apply limited_no, Pos|]. cbn [pred] in M.
    destruct (expr_loop n new_expr ts) as [[e ts1]|?|?|] eqn:X; try discriminate.
    2: { contradiction (proj1 (proj2 (proj2 (proj2 (proj2 (sound_stops n))))) _ _ _ _ X). }
    pose proof (proj1 (sound n) _ _ _ _ _ X) as (en & el & Ee & G).
    pose proof (IHe d [] mock_location ts e ts1 E (Nat.le_0_l _) X) as Y. change (CInner CExpr [] mock_location) with new_expr in Y.
    rewrite Y. clear Y. cbn [bind] in H.
    assert (has_eof ts1) as E1.
    { destruct G as [G1 G2 _]. unfold has_eof in E |- *. rewrite G2, map_app in E. apply in_app_or in E as [E|E]; [|exact E]. exfalso.
      apply in_map_iff in E as (t & Q & I1). apply in_flat_map in I1 as (x & I2 & I3). rewrite Forall_forall in G1.
      pose proof (proj1 (g_no_eof x) (G1 x I2)) as N. unfold no_eof in N. rewrite Forall_forall in N. exact (N t I3 Q). }
    destruct (expr_finish e ts1) as [[c1 ts2]|e1|?|] eqn:F; try discriminate.
    + assert (levels c1 = levels e /\ ts2 = ts1) as [Lv ->].
      { subst e. unfold expr_finish in F. cbn [cst_children bind app] in F. destruct en as [|y en]; [discriminate|]. injection F as <- <-.
        split; reflexivity. }
      cbn [cst_add cst_add_opt bind] in H.
      pose proof (proj2 (proj2 (sound n)) _ _ _ _ _ _ H) as (new' & l'' & Ec' & _).
      destruct (le_lt_dec (levels e) d) as [Fi|Fi].
      * rewrite (limited_yes d e) by exact Fi. cbn [bind]. rewrite F. cbn [cst_add cst_add_opt bind].
        apply IHl; [exact Bk|exact E1| |exact H]. rewrite levels_app, levels_one. cbn [pred]. lia.
      * rewrite (limited_no d e) by exact Fi. cbn [bind]. symmetry. apply limited_no. rewrite Ec', levels_inner, Bk, !levels_app, levels_one. lia.
    + assert (levels e = 0) as Lz.
      { subst e. unfold expr_finish in F. cbn [cst_children bind app] in F. destruct en as [|y en]; [reflexivity|discriminate]. }
      rewrite (limited_yes d e) by lia. cbn [bind]. rewrite F.
      destruct (newline_parse ts) as [[c2 ts2]|?|?|] eqn:Nl; try discriminate.
      * apply newline_good in Nl as (ln & -> & ->). cbn [cst_add cst_add_opt bind] in H |- *.
        apply IHl; [exact Bk| | |exact H].
        -- destruct E as [E|E]; [discriminate|exact E].
        -- rewrite levels_app, levels_one. cbn [levels new_newline pred]. lia.
      * injection H as <- <-. symmetry. apply limited_yes. rewrite levels_inner, Bk. lia.
Qed.

(** ** Expressions, statements and documents *)
Lemma expr_limited : forall d ts, has_eof ts -> match expr_parse ts with
  | Ok (c, rest) => expr_parse_d (S d) ts = limited d c (Ok (c, rest))
  | Err e => expr_parse_d (S d) ts = Err e
  | _ => True end.
Proof.
  intros d ts E. unfold expr_parse, expr_parse_d.
  destruct (expr_loop (fuel_for ts) new_expr ts) as [[e ts1]|?|?|] eqn:X; try exact I.
  2: { contradiction (proj1 (proj2 (proj2 (proj2 (proj2 (sound_stops _))))) _ _ _ _ X). }
  pose proof (proj1 (proj2 (proj2 (core _))) d [] mock_location ts e ts1 E (Nat.le_0_l _) X) as Y.
  change (CInner CExpr [] mock_location) with new_expr in Y. rewrite Y. cbn [bind].
  pose proof (proj1 (sound _) _ _ _ _ _ X) as (en & el & -> & _). unfold expr_finish. cbn [cst_children bind app].
  destruct en as [|y en]; [reflexivity|]. cbn [cst_set_location]. unfold limited. rewrite !levels_inner.
  destruct (_ <=? d); reflexivity.
Qed.

Lemma eoc_limited : forall d ts, has_eof ts -> match expr_or_close_parse ts with
  | Ok (c, rest) => expr_or_close_parse_d (S d) ts = limited d c (Ok (c, rest))
  | Err e => expr_or_close_parse_d (S d) ts = Err e
  | _ => True end.
Proof.
  intros d ts E. pose proof (expr_limited d ts E) as X. unfold expr_or_close_parse, expr_or_close_parse_d.
  destruct (expr_parse ts) as [[c r]|?|?|]; try exact I.
  - rewrite X. unfold limited. destruct (levels c <=? d); reflexivity.
  - rewrite X. destruct (bracket_close_parse ts) as [[c r]|?|?|] eqn:Z; try exact I; [|reflexivity].
    assert (levels c = 0) as L.
    { destruct ts as [|[k l] ts]; [discriminate|]. destruct k; cbn in Z; try discriminate; injection Z as <- _; reflexivity. }
    rewrite limited_yes by lia. reflexivity.
Qed.

Lemma eoc_eof : forall ts c rest, expr_or_close_parse ts = Ok (c, rest) -> has_eof ts -> has_eof rest.
Proof. intros ts c rest H E. apply eoc_good in H as (A & B & _). eapply eof_rest; [apply eoc_no_eof, A|exact B|exact E]. Qed.

Lemma stmt_loop_limited : forall n d cs l ts c rest, has_eof ts -> list_max (map levels cs) <= d ->
  stmt_loop n (CInner CStmt cs l) ts = Ok (c, rest) -> stmt_loop_d n (S d) (CInner CStmt cs l) ts = limited d c (Ok (c, rest)).
Proof.
  induction n as [|n IH]; intros d cs l ts c rest E M H; [discriminate|]. cbn [stmt_loop] in H. cbn [stmt_loop_d].
  assert (limited d (CInner CStmt cs l) (Ok (CInner CStmt cs l, ts)) = Ok (CInner CStmt cs l, ts)) as Here
    by (apply limited_yes; rewrite levels_inner; exact M).
  destruct (newline_parse ts) as [[c1 ts1]|?|?|] eqn:N; try discriminate; [|injection H as <- <-; symmetry; exact Here].
  apply newline_good in N as (ln & -> & ->). assert (has_eof ts1) as E1 by (destruct E as [E|E]; [discriminate|exact E]).
  pose proof (eoc_limited d ts1 E1) as X. pose proof (eoc_eof ts1) as Ee.
  destruct (expr_or_close_parse ts1) as [[c2 ts2]|?|?|]; try discriminate; [|rewrite X; injection H as <- <-; symmetry; exact Here].
  cbn [cst_add cst_add_opt bind] in H. rewrite X.
  destruct (le_lt_dec (levels c2) d) as [F|F].
  - rewrite (limited_yes d c2) by exact F. cbn [cst_add cst_add_opt bind].
    apply IH; [exact (Ee _ _ eq_refl E1)| |exact H]. rewrite !levels_app, !levels_one. cbn [levels new_newline]. lia.
  - rewrite (limited_no d c2) by exact F. apply stmt_loop_good in H as (new & l' & -> & _). symmetry. apply limited_no.
    rewrite levels_inner, !levels_app, !levels_one. lia.
Qed.

Lemma stmt_limited : forall d ts, has_eof ts -> match stmt_parse ts with
  | Ok (c, rest) => stmt_parse_d (S d) ts = limited d c (Ok (c, rest))
  | Err e => stmt_parse_d (S d) ts = Err e
  | _ => True end.
Proof.
  intros d ts E. pose proof (eoc_limited d ts E) as X. pose proof (eoc_eof ts) as Ee. unfold stmt_parse, stmt_parse_d.
  destruct (expr_or_close_parse ts) as [[c1 ts1]|?|?|]; try exact I; [|rewrite X; reflexivity]. rewrite X.
  cbn [bind new_stmt cst_add cst_add_opt app].
  destruct (stmt_loop (S (length ts1)) (CInner CStmt [c1] (merge_location mock_location (cst_location c1))) ts1) as [[c r]|e|?|] eqn:H; try exact I.
  - destruct (le_lt_dec (levels c1) d) as [F|F].
    + rewrite (limited_yes d c1) by exact F. cbn [bind new_stmt cst_add cst_add_opt app].
      apply stmt_loop_limited; [exact (Ee _ _ eq_refl E)|rewrite levels_one; exact F|exact H].
    + rewrite (limited_no d c1) by exact F. apply stmt_loop_good in H as (new & l' & -> & _). symmetry. apply limited_no.
      rewrite levels_inner, levels_app, levels_one. lia.
  - exfalso. revert H. generalize (S (length ts1)), [c1], (merge_location mock_location (cst_location c1)). clear.
    intro n. revert ts1. induction n as [|n IH]; intros ts1 cs l H; [discriminate|]. cbn [stmt_loop] in H.
    destruct (newline_parse ts1) as [[? ts2]|?|?|]; try discriminate.
    destruct (expr_or_close_parse ts2) as [[? ts3]|?|?|]; try discriminate. cbn [cst_add cst_add_opt bind] in H. exact (IH _ _ _ H).
Qed.

Lemma stmt_eof : forall ts c rest, stmt_parse ts = Ok (c, rest) -> has_eof ts -> has_eof rest.
Proof. intros ts c rest H E. apply stmt_parse_good in H as (A & B & _). eapply eof_rest; [apply stmt_no_eof, A|exact B|exact E]. Qed.
Lemma newlines_eof : forall ts cs rest, newlines_loop ts = (cs, rest) -> has_eof ts -> has_eof rest.
Proof.
  induction ts as [|[k l] ts IH]; intros cs rest H E; [injection H as _ <-; exact E|].
  destruct k; cbn [newlines_loop] in H; try (injection H as _ <-; exact E).
  destruct (newlines_loop ts) as [cs' r']. injection H as _ <-. apply (IH _ _ eq_refl). destruct E as [E|E]; [discriminate|exact E].
Qed.
Lemma newlines_flat : forall cs, Forall is_newline cs -> list_max (map levels cs) = 0.
Proof. induction 1 as [|c cs (l & ->) _ IH]; [reflexivity|]. cbn. exact IH. Qed.

(** A document only grows. *)
Lemma document_grows : forall n cs l ts c rest, document_loop n (CInner CDocument cs l) ts = Ok (c, rest) ->
  exists new l', c = CInner CDocument (cs ++ new) l'.
Proof.
  induction n as [|n IH]; intros cs l ts c rest H; [discriminate|]. cbn [document_loop] in H.
  assert (forall x, Ok (CInner CDocument cs l, x) = Ok (c, rest) -> exists new l', c = CInner CDocument (cs ++ new) l') as Here.
  { intros x Q. injection Q as <- _. exists [], l. rewrite app_nil_r. reflexivity. }
  destruct (stmt_parse ts) as [[c1 ts1]|?|?|]; try discriminate; [|exact (Here _ H)].
  destruct (newline_parse ts1) as [[c2 ts2]|?|?|]; try discriminate; [|exact (Here _ H)].
  destruct (newlines_loop ts2) as [cs3 ts3]. destruct (add_all_eq (c1 :: c2 :: cs3) CDocument cs l) as [l1 A]. rewrite A in H. cbn [bind] in H.
  apply IH in H as (new & l' & ->). rewrite <- app_assoc. eauto.
Qed.

Lemma document_limited : forall n d cs l ts c rest x ts2, has_eof ts -> list_max (map levels cs) <= d ->
  document_loop n (CInner CDocument cs l) ts = Ok (c, rest) ->
  stmt_parse rest = Ok (x, ts2) \/ (exists e, stmt_parse rest = Err e) /\ levels x = 0 ->
  has_eof rest /\
  (Nat.max (levels c) (levels x) <= d -> document_loop_d n (S d) (CInner CDocument cs l) ts = Ok (c, rest)) /\
  (d < Nat.max (levels c) (levels x) -> document_loop_d n (S d) (CInner CDocument cs l) ts = Fuel \/
     document_loop_d n (S d) (CInner CDocument cs l) ts = Ok (c, rest) /\ d < levels x).
Proof.
  induction n as [|n IH]; intros d cs l ts c rest x ts2 E M H S; [discriminate|]. cbn [document_loop] in H. cbn [document_loop_d].
  pose proof (stmt_limited d ts E) as X. pose proof (stmt_eof ts) as Es.
  destruct (stmt_parse ts) as [[c1 ts1]|e|?|] eqn:P; try discriminate.
  - pose proof (Es _ _ eq_refl E) as E1. rewrite X.
    destruct (newline_parse ts1) as [[c2 ts3]|?|?|] eqn:N; try discriminate.
    + apply newline_good in N as (ln & -> & ->). assert (has_eof ts3) as E3 by (destruct E1 as [E1|E1]; [discriminate|exact E1]).
      destruct (newlines_loop ts3) as [cs4 ts4] eqn:W. pose proof (newlines_eof _ _ _ W E3) as E4. pose proof W as W0.
      apply newlines_loop_good in W as (W & _). apply newlines_flat in W.
      destruct (add_all_eq (c1 :: new_newline ln :: cs4) CDocument cs l) as [l1 A]. rewrite A in H. cbn [bind] in H.
      assert (list_max (map levels (cs ++ c1 :: new_newline ln :: cs4)) = Nat.max (list_max (map levels cs)) (levels c1)) as Q.
      { change (c1 :: new_newline ln :: cs4) with ([c1] ++ [new_newline ln] ++ cs4). rewrite !levels_app, !levels_one, W. cbn [levels new_newline]. lia. }
      destruct (le_lt_dec (levels c1) d) as [F|F].
      * rewrite (limited_yes d c1) by exact F. cbn [newline_parse]. rewrite W0, A. cbn [bind]. apply (IH d _ _ _ _ _ x ts2 E4); [rewrite Q; lia|exact H|exact S].
      * rewrite (limited_no d c1) by exact F. pose proof (document_grows _ _ _ _ _ _ H) as (new & l' & Ec).
        assert (d < levels c) as Big by (rewrite Ec, levels_inner, levels_app, Q; lia).
        split; [|split; [lia|intros _; left; reflexivity]].
        refine (proj1 (IH (Nat.max d (levels c1)) _ _ _ _ _ x ts2 E4 _ H S)). rewrite Q. lia.
    + injection H as <- <-. split; [exact E|].
      assert (x = c1) as ->. { destruct S as [S|[[e S] _]]; rewrite P in S; [injection S as <- _; reflexivity|discriminate]. }
      split.
      * intro Hd. rewrite (limited_yes d c1) by lia. rewrite N. reflexivity.
      * intro Hd. rewrite levels_inner in Hd. cbn [is_bracket] in Hd. rewrite (limited_no d c1) by lia. left. reflexivity.
  - injection H as <- <-. rewrite X. split; [exact E|]. split; [reflexivity|]. intro Hd.
    destruct S as [S|[_ S]]; [rewrite P in S; discriminate|]. rewrite levels_inner in Hd. cbn [is_bracket] in Hd. lia.
Qed.

(** Room for [d] calls is enough exactly if the tree has fewer levels than that. *)
Theorem parser_depth : forall ts c d, parse ts = Ok c -> parse_d d ts = if d <=? levels c then Fuel else Ok c.
Proof.
  intros ts c d H. destruct d as [|d].
  { cbn [Nat.leb]. unfold parse_d. cbn [document_loop_d stmt_parse_d expr_or_close_parse_d expr_parse_d bind]. reflexivity. }
  assert (has_eof ts) as E.
  { apply parse_lossless in H as (body & e & rest & -> & _). unfold has_eof. rewrite map_app. apply in_or_app. right. left. reflexivity. }
  unfold parse in H. unfold parse_d.
  destruct (document_loop (S (length ts)) new_document ts) as [[dc ts1]|?|?|] eqn:D; try discriminate. cbn [bind] in H.
  pose proof (document_grows _ _ _ _ _ _ D) as (dn & dl & Ed). cbn [app] in Ed.
  assert (forall x ts2 dc', levels dc' = Nat.max (levels dc) (levels x) ->
    (stmt_parse ts1 = Ok (x, ts2) \/ (exists e, stmt_parse ts1 = Err e) /\ levels x = 0) ->
    (let (cs, ts3) := newlines_loop ts2 in let! y := add_all dc' cs in let! (z, _) := eof_parse ts3 in cst_add y z) = Ok c ->
    (exists cs l, dc' = CInner CDocument cs l) -> levels c = Nat.max (levels dc) (levels x)) as Final.
  { intros x ts2 dc' Ld _ Q (cs' & l' & ->). destruct (newlines_loop ts2) as [cs ts3] eqn:W. apply newlines_loop_good in W as (W & _). apply newlines_flat in W.
    destruct (add_all_eq cs CDocument cs' l') as [l1 A]. rewrite A in Q. cbn [bind] in Q.
    destruct ts3 as [|[[] l3] ts3]; try discriminate. cbn [eof_parse bind cst_add cst_add_opt new_eof] in Q. injection Q as <-.
    rewrite <- Ld, !levels_inner, !levels_app, W, levels_one. change (levels (new_eof l3)) with 0. lia. }
  destruct (stmt_parse ts1) as [[x ts2]|e|?|] eqn:P; try discriminate.
  - rewrite Ed in H. cbn [bind cst_add cst_add_opt] in H.
    assert (levels c = Nat.max (levels dc) (levels x)) as Lc.
    { eapply (Final x ts2 _); [|left; reflexivity|exact H|eauto]. rewrite Ed, !levels_inner, levels_app, levels_one. cbn [is_bracket]. lia. }
    destruct (document_limited _ d [] mock_location ts dc ts1 x ts2 E (Nat.le_0_l _) D (or_introl P)) as (E1 & Yes & No).
    change (CInner CDocument [] mock_location) with new_document in Yes, No.
    pose proof (stmt_limited d ts1 E1) as X. rewrite P in X.
    destruct (Nat.leb_spec (S d) (levels c)) as [Q|Q].
    + destruct No as [->|[-> B]]; [lia|reflexivity|]. cbn [bind]. rewrite X, (limited_no d x) by exact B. reflexivity.
    + rewrite Yes by lia. cbn [bind]. rewrite X, (limited_yes d x) by lia. rewrite Ed. cbn [bind cst_add cst_add_opt]. exact H.
  - cbn [bind] in H. set (x := new_newline (cst_location dc)).
    assert (levels c = Nat.max (levels dc) (levels x)) as Lc.
    { eapply (Final x ts1 dc); [cbn [levels x new_newline]; lia|right; split; [eauto|reflexivity]|exact H|eauto]. }
    destruct (document_limited _ d [] mock_location ts dc ts1 x ts1 E (Nat.le_0_l _) D) as (E1 & Yes & No); [right; split; [eauto|reflexivity]|].
    change (CInner CDocument [] mock_location) with new_document in Yes, No.
    pose proof (stmt_limited d ts1 E1) as X. rewrite P in X.
    destruct (Nat.leb_spec (S d) (levels c)) as [Q|Q].
    + destruct No as [->|[_ B]]; [lia|reflexivity|]. cbn [levels x new_newline] in B. lia.
    + rewrite Yes by lia. cbn [bind]. rewrite X. cbn [bind]. exact H.
Qed.

(** ** The depth and the opening brackets *)
Lemma opens_app : forall a b, opens (a ++ b) = opens a + opens b.
Proof. intros a b. unfold opens. rewrite filter_app, app_length. reflexivity. Qed.

Definition covered (c : cst) : Prop := levels c <= opens (leaf_toks c).
Lemma covered_list : forall cs, Forall covered cs -> list_max (map levels cs) <= opens (flat_map leaf_toks cs).
Proof.
  induction 1 as [|c cs H _ IH]; [apply Nat.le_0_l|]. cbn [map flat_map]. rewrite opens_app. unfold covered in H.
  change (list_max (levels c :: map levels cs)) with (Nat.max (levels c) (list_max (map levels cs))). lia.
Qed.
Lemma covered_leaf : forall k v l, covered (CLeaf k v l).
Proof. intros. apply Nat.le_0_l. Qed.

Lemma g_covered : forall c, (g_item c -> covered c) /\ (g_expr c -> covered c).
Proof.
  induction c as [k v l|k cs l IH] using cst_ind'; [split; intros _; apply covered_leaf|].
  split; intro H.
  - inversion H as [l0|s k0 l0 l' H1| | |k0 o c lo body close l0 H1 H2 H3]; subst; try apply Nat.le_0_l.
    assert (Forall covered (body ++ close)) as N.
    { apply Forall_app. split.
      - rewrite Forall_forall in H2, IH |- *. intros x Hx. destruct (H2 x Hx) as [G|[lx ->]]; [|apply covered_leaf].
        apply IH; [right; apply in_or_app; left; exact Hx|exact G].
      - destruct H3 as [->|[lc ->]]; [constructor|]. constructor; [apply covered_leaf|constructor]. }
    apply covered_list in N. unfold covered.
    destruct k; try discriminate; injection H1 as <- <-; cbn [leaf_toks]; rewrite levels_inner; cbn [flat_map map leaf_toks app levels is_bracket];
      change (list_max (0 :: map levels (body ++ close))) with (list_max (map levels (body ++ close)));
      match goal with |- _ <= opens (?t :: ?r) => change (opens (t :: r)) with (S (opens r)) end; lia.
  - inversion H as [items l0 H1 H2]; subst. unfold covered. cbn [leaf_toks]. rewrite levels_inner. apply covered_list.
    rewrite Forall_forall in H2, IH |- *. intros x Hx. exact (proj1 (IH x Hx) (H2 x Hx)).
Qed.

Lemma stmt_covered : forall c, g_stmt c -> covered c.
Proof.
  assert (forall c, g_expr_or_close c -> covered c) as X.
  { intros c [H|(k & l & -> & _)]; [exact (proj2 (g_covered c) H)|apply covered_leaf]. }
  intros c (x & cs & l & -> & H1 & H2). unfold covered. cbn [leaf_toks]. rewrite levels_inner. apply covered_list.
  constructor; [exact (X x H1)|]. induction H2 as [|n y cs (ln & ->) H3 _ IH]; [constructor|].
  constructor; [apply covered_leaf|]. constructor; [exact (X y H3)|exact IH].
Qed.

Theorem levels_opens : forall ts c, parse ts = Ok c -> levels c <= opens ts.
Proof.
  intros ts c H. destruct (parse_sound _ _ H) as (G & rest & E & _). rewrite E, opens_app.
  enough (covered c) as K by (unfold covered in K; lia).
  assert (forall ns, Forall is_newline ns -> Forall covered ns) as Nl.
  { intros ns Hn. eapply Forall_impl; [|exact Hn]. intros x (lx & ->). apply covered_leaf. }
  destruct G as (ps & la & ns & le & l & -> & H1 & H2 & H3). unfold covered. cbn [leaf_toks]. rewrite levels_inner. apply covered_list.
  rewrite !Forall_app. split; [|split; [|split; [exact (Nl _ H3)|constructor; [apply covered_leaf|constructor]]]].
  - clear H E. induction H1 as [|s n1 n2 ns' cs A (l1 & ->) (l2 & ->) D _ IH]; [constructor|].
    constructor; [apply stmt_covered, A|]. constructor; [apply covered_leaf|]. constructor; [apply covered_leaf|].
    apply Forall_app. split; [exact (Nl _ D)|exact IH].
  - destruct H2 as [->|(s & -> & H2)]; [constructor|]. constructor; [apply stmt_covered, H2|constructor].
Qed.

(** With more room than there are opening brackets nothing ever goes wrong. *)
Theorem depth_enough : forall ts c d, parse ts = Ok c -> opens ts < d -> parse_d d ts = parse ts.
Proof.
  intros ts c d H L. rewrite (parser_depth ts c d H), H. pose proof (levels_opens ts c H).
  destruct (Nat.leb_spec d (levels c)); [lia|reflexivity].
Qed.
