(** The errors of one node, by kind. *)
From Coq Require Import String List NArith Arith Bool Lia.
From Verif Require Import Base Tokens CST AST SpecCST TransformError SpecTransform Transform
  ParserProofs ParserProofs2 TransformProofs TransformErrors.
Import ListNotations.

Definition kinds_in (ks : list ekind) (es : list terror) : Prop := Forall (fun e => In (fst e) ks) es.

Lemma of_kind_spec : forall ks e, of_kind ks e = true <-> In (fst e) ks.
Proof.
  intros ks e. unfold of_kind. rewrite existsb_exists. split.
  - intros (k & H & E). destruct (ekind_dec k (fst e)); [subst; exact H|discriminate].
  - intro H. exists (fst e). split; [exact H|]. destruct (ekind_dec (fst e) (fst e)); congruence.
Qed.

Lemma filter_all : forall ks es, kinds_in ks es -> filter (of_kind ks) es = es.
Proof.
  intros ks es H. induction H as [|e es H1 _ IH]; [reflexivity|]. cbn.
  rewrite (proj2 (of_kind_spec ks e) H1), IH. reflexivity.
Qed.

Lemma filter_none : forall ks ks' es, kinds_in ks' es -> (forall k, In k ks -> ~ In k ks') ->
  filter (of_kind ks) es = [].
Proof.
  intros ks ks' es H D. induction H as [|e es H1 _ IH]; [reflexivity|]. cbn. rewrite IH.
  destruct (of_kind ks e) eqn:E; [|reflexivity]. apply of_kind_spec in E. destruct (D _ E H1).
Qed.

Definition NC := [EAngleNotClosed; ECurlyNotClosed; ESquareNotClosed].

Lemma unclosed_kinds : forall c, kinds_in NC (unclosed c).
Proof.
  intros [k cs l|k v l]; [|constructor]. cbn [unclosed]. destruct (not_closed k) eqn:E; [|constructor].
  destruct (flat cs); [constructor|]. destruct (closes k _); [constructor|]. constructor; [|constructor].
  destruct k; try discriminate; injection E as <-; cbn; auto.
Qed.

Lemma check1_kinds : forall cs, kinds_in [EModuleNotFound] (check_if_module_or_angle_bracket cs).
Proof.
  intro cs. unfold check_if_module_or_angle_bracket.
  destruct (nth_error cs 1) as [[[]|[]]|]; repeat constructor.
Qed.
Lemma check2_kinds : forall cs, kinds_in [EDotNotFound] (check_if_dot cs).
Proof. intro cs. unfold check_if_dot. destruct (nth_error cs 2) as [[[]|[]]|]; repeat constructor. Qed.
Lemma check3_kinds : forall cs, kinds_in [EIdentifierNotFound] (check_if_ident_or_angle_bracket cs).
Proof. intro cs. unfold check_if_ident_or_angle_bracket. destruct (nth_error cs 3) as [[[]|[]]|]; repeat constructor. Qed.
Lemma check4_kinds : forall cs, kinds_in [EUnexpectedDot] (check_unexpected_dot cs).
Proof.
  intro cs. unfold check_unexpected_dot. induction (skipn 3 cs) as [|c l IH]; [constructor|].
  cbn. apply Forall_app. split; [|exact IH]. destruct c as [|[]]; repeat constructor.
Qed.
Lemma args_kinds : forall rest prev es l pc,
  kinds_in [EUnexpectedDot; EUnexpectedComma] (snd (args_pure prev rest es l pc)).
Proof.
  induction rest as [|c rest IH]; intros prev es l pc; [constructor|].
  destruct c as [k xs lc|k v lc]; [apply IH|]. destruct k; cbn [args_pure]; try apply IH.
  - destruct es; [destruct pc|]; try constructor; [right; left; reflexivity|constructor].
  - destruct es; [destruct pc|]; try constructor; [right; left; reflexivity|constructor].
  - destruct es; [destruct pc|]; try constructor; [right; left; reflexivity|constructor].
  - specialize (IH (CLeaf LDot v lc) es l pc). destruct (args_pure _ rest es l pc) as [o e].
    constructor; [left; reflexivity|exact IH].
  - destruct es.
    + specialize (IH (CLeaf LComma v lc) [] l pc). destruct (args_pure _ rest [] l pc) as [o e].
      constructor; [right; left; reflexivity|exact IH].
    + specialize (IH (CLeaf LComma v lc) [] mock_location true).
      destruct (args_pure _ rest [] mock_location true) as [o e]. exact IH.
Qed.
Lemma cva_kinds : forall cs, kinds_in [EUnexpectedDot; EUnexpectedComma] (snd (cva cs)).
Proof.
  intros [|c0 [|c1 [|c2 [|c3 rest]]]]; try constructor. cbn [cva].
  pose proof (args_kinds rest c3 [] mock_location false) as H.
  destruct (args_pure c3 rest [] mock_location false). exact H.
Qed.
Lemma escape_kinds : forall c, kinds_in [EInvalidBackslash] (bad_escape c).
Proof. intros [[] [|? ?] ?|]; repeat constructor. Qed.

Ltac other := eapply filter_none; [|cbn; intuition congruence].

Lemma own_split : forall ks c,
  filter (of_kind ks) (own c) =
  match c with
  | CInner k cs _ =>
    match not_closed k with
    | Some _ =>
      filter (of_kind ks) (unclosed c) ++
      filter (of_kind ks) (check_if_module_or_angle_bracket (map face (flat cs))) ++
      filter (of_kind ks) (check_if_dot (map face (flat cs))) ++
      filter (of_kind ks) (check_if_ident_or_angle_bracket (map face (flat cs))) ++
      filter (of_kind ks) (check_unexpected_dot (map face (flat cs))) ++
      filter (of_kind ks) (snd (cva (strip (map face (flat cs)))))
    | None => filter (of_kind ks) (bad_escape c)
    end
  | CLeaf _ _ _ => []
  end.
Proof.
  intros ks [k cs l|k v l]; [|reflexivity]. unfold own. destruct (not_closed k); [|reflexivity].
  unfold head_errors. rewrite !filter_app, <- !app_assoc. reflexivity.
Qed.

Ltac six := repeat match goal with
  | |- context [filter (of_kind ?ks) (unclosed ?c)] =>
    first [rewrite (filter_all ks (unclosed c)) by apply unclosed_kinds
          |rewrite (filter_none ks NC (unclosed c)) by (try apply unclosed_kinds; cbn; intuition congruence)]
  | |- context [filter (of_kind ?ks) (check_if_module_or_angle_bracket ?c)] =>
    first [rewrite (filter_all ks _ (check1_kinds c))
          |rewrite (filter_none ks _ _ (check1_kinds c)) by (cbn; intuition congruence)]
  | |- context [filter (of_kind ?ks) (check_if_dot ?c)] =>
    first [rewrite (filter_all ks _ (check2_kinds c))
          |rewrite (filter_none ks _ _ (check2_kinds c)) by (cbn; intuition congruence)]
  | |- context [filter (of_kind ?ks) (check_if_ident_or_angle_bracket ?c)] =>
    first [rewrite (filter_all ks _ (check3_kinds c))
          |rewrite (filter_none ks _ _ (check3_kinds c)) by (cbn; intuition congruence)]
  | |- context [filter (of_kind ?ks) (check_unexpected_dot ?c)] =>
    first [rewrite (filter_all ks _ (check4_kinds c))
          |rewrite (filter_none ks _ _ (check4_kinds c)) by (cbn; intuition congruence)]
  | |- context [filter (of_kind ?ks) (snd (cva ?c))] =>
    rewrite (filter_none ks _ _ (cva_kinds c)) by (cbn; intuition congruence)
  | |- context [filter (of_kind ?ks) (bad_escape ?c)] =>
    first [rewrite (filter_all ks _ (escape_kinds c))
          |rewrite (filter_none ks _ _ (escape_kinds c)) by (cbn; intuition congruence)]
  end; cbn [app]; rewrite ?app_nil_r.

Lemma own_unclosed : forall c, filter (of_kind NC) (own c) = unclosed c.
Proof.
  intros c. rewrite own_split. destruct c as [k cs l|k v l]; [|reflexivity].
  destruct (not_closed k) eqn:E; six; [reflexivity|]. cbn. rewrite E. reflexivity.
Qed.

Lemma own_escape : forall c, filter (of_kind [EInvalidBackslash]) (own c) = bad_escape c.
Proof.
  intros c. rewrite own_split. destruct c as [k cs l|k v l]; [|reflexivity].
  destruct (not_closed k) eqn:E; six; [destruct k; try discriminate; reflexivity|reflexivity].
Qed.

Lemma own_never : forall c, filter (of_kind [EAngleNotOpened; ECurlyNotOpened; ESquareNotOpened;
  EMismatchedBracket; ECommaNotFound]) (own c) = [].
Proof.
  intros c. rewrite own_split. destruct c as [k cs l|k v l]; [|reflexivity].
  destruct (not_closed k) eqn:E; six; reflexivity.
Qed.

(** Items of a parsed command. *)
Lemma parsed_items : forall k cs l, parsed_node (CInner k cs l) -> not_closed k <> None ->
  Forall parsed_item (flat cs).
Proof.
  intros k cs l H N. destruct (H k cs l eq_refl N) as (o & lo & items & close & cl & -> & _ & HC & HF).
  constructor; [intros ? ? ? ?; discriminate|]. apply Forall_app. split.
  - eapply Forall_impl; [|exact HF]. intros x (x' & e & S). eapply SItem_parsed; exact S.
  - destruct HC as [->|[lc ->]]; repeat constructor. intros ? ? ? ?; discriminate.
Qed.

Lemma face_cases : forall x, parsed_item x ->
  (noback x = true /\ face x = match x with CInner k _ l => CInner k [] l | _ => x end) \/
  (noback x = false /\ (exists l, x = CInner CBackSlash [] l) /\ exists l, face x = CLeaf LInvalid None l) \/
  (noback x = false /\ exists s l, face x = CLeaf LText (Some s) l).
Proof.
  intros [k cs l|k v l] H; [|left; split; reflexivity].
  destruct k; try (left; split; reflexivity). right. destruct cs as [|y ys].
  - left. split; [reflexivity|]. split; eexists; reflexivity.
  - right. destruct (H y ys l eq_refl) as (s & lx & ->). split; [reflexivity|]. do 2 eexists. reflexivity.
Qed.

Lemma own_module : forall c, parsed_node c ->
  filter (of_kind [EModuleNotFound]) (own c) = misplaced EModuleNotFound 1 good_module c.
Proof.
  intros c H. rewrite own_split. destruct c as [k cs l|k v l]; [|reflexivity].
  destruct (not_closed k) eqn:E; six; [|cbn; rewrite E; reflexivity].
  cbn [misplaced]. rewrite E. unfold check_if_module_or_angle_bracket. rewrite nth_error_map.
  destruct (nth_error (flat cs) 1) as [x|] eqn:EN; [|reflexivity]. cbn [option_map].
  assert (HP : parsed_item x).
  { assert (N : not_closed k <> None) by congruence. pose proof (parsed_items _ _ _ H N) as F.
    rewrite Forall_forall in F. eapply F, nth_error_In, EN. }
  rewrite <- (face_loc x). destruct (face_cases x HP) as [[A ->]|[(_ & [l1 ->] & [l2 F])|(A & s & l2 & F)]].
  - destruct x as [[]|[]]; try discriminate; reflexivity.
  - rewrite F. reflexivity.
  - rewrite F. destruct x as [[]|[]]; try discriminate. reflexivity.
Qed.

Lemma own_dot : forall c, parsed_node c ->
  filter (of_kind [EDotNotFound]) (own c) = misplaced EDotNotFound 2 good_dot c.
Proof.
  intros c H. rewrite own_split. destruct c as [k cs l|k v l]; [|reflexivity].
  destruct (not_closed k) eqn:E; six; [|cbn; rewrite E; reflexivity].
  cbn [misplaced]. rewrite E. unfold check_if_dot. rewrite nth_error_map.
  destruct (nth_error (flat cs) 2) as [x|] eqn:EN; [|reflexivity]. cbn [option_map].
  assert (HP : parsed_item x).
  { assert (N : not_closed k <> None) by congruence. pose proof (parsed_items _ _ _ H N) as F.
    rewrite Forall_forall in F. eapply F, nth_error_In, EN. }
  rewrite <- (face_loc x). destruct (face_cases x HP) as [[A ->]|[(_ & [l1 ->] & [l2 F])|(A & s & l2 & F)]].
  - destruct x as [[]|[]]; try discriminate; reflexivity.
  - rewrite F. reflexivity.
  - rewrite F. destruct x as [[]|[]]; try discriminate. reflexivity.
Qed.

Lemma own_ident : forall c, parsed_node c ->
  filter (of_kind [EIdentifierNotFound]) (own c) = misplaced EIdentifierNotFound 3 good_ident c.
Proof.
  intros c H. rewrite own_split. destruct c as [k cs l|k v l]; [|reflexivity].
  destruct (not_closed k) eqn:E; six; [|cbn; rewrite E; reflexivity].
  cbn [misplaced]. rewrite E. unfold check_if_ident_or_angle_bracket. rewrite nth_error_map.
  destruct (nth_error (flat cs) 3) as [x|] eqn:EN; [|reflexivity]. cbn [option_map].
  assert (HP : parsed_item x).
  { assert (N : not_closed k <> None) by congruence. pose proof (parsed_items _ _ _ H N) as F.
    rewrite Forall_forall in F. eapply F, nth_error_In, EN. }
  rewrite <- (face_loc x). destruct (face_cases x HP) as [[A ->]|[(_ & [l1 ->] & [l2 F])|(A & s & l2 & F)]].
  - destruct x as [[]|[]]; try discriminate; reflexivity.
  - rewrite F. reflexivity.
  - rewrite F. destruct x as [[]|[]]; try discriminate. reflexivity.
Qed.

(** ** Dots and commas *)
Lemma face_good_dot : forall x, parsed_item x -> good_dot (face x) = good_dot x.
Proof.
  intros x HP. destruct (face_cases x HP) as [[A ->]|[(_ & [l1 ->] & [l2 F])|(A & s & l2 & F)]].
  - destruct x; reflexivity.
  - rewrite F. reflexivity.
  - rewrite F. destruct x as [[]|]; try discriminate; reflexivity.
Qed.
Lemma face_is_comma : forall x, parsed_item x -> is_comma (face x) = is_comma x.
Proof.
  intros x HP. destruct (face_cases x HP) as [[A ->]|[(_ & [l1 ->] & [l2 F])|(A & s & l2 & F)]].
  - destruct x; reflexivity.
  - rewrite F. reflexivity.
  - rewrite F. destruct x as [[]|]; try discriminate; reflexivity.
Qed.
Lemma face_visible : forall x, parsed_item x -> visible (face x) = visible x.
Proof.
  intros x HP. destruct (face_cases x HP) as [[A ->]|[(_ & [l1 ->] & [l2 F])|(A & s & l2 & F)]].
  - destruct x; reflexivity.
  - rewrite F. reflexivity.
  - rewrite F. destruct x as [[]|]; try discriminate; reflexivity.
Qed.

Lemma filter_map_face : forall (p q : cst -> bool) xs, Forall (fun x => p (face x) = q x) xs ->
  filter p (map face xs) = map face (filter q xs).
Proof.
  intros p q xs H. induction H as [|x xs H1 _ IH]; [reflexivity|]. cbn. rewrite H1, IH.
  destruct (q x); reflexivity.
Qed.

Lemma check4_spec : forall cs, check_unexpected_dot cs = dots_from 3 cs.
Proof.
  intro cs. unfold check_unexpected_dot, dots_from. induction (skipn 3 cs) as [|c l IH]; [reflexivity|].
  cbn. rewrite IH. destruct c as [|[]]; reflexivity.
Qed.

Lemma dots_face : forall n xs, Forall parsed_item xs -> dots_from n (map face xs) = dots_from n xs.
Proof.
  intros n xs H. unfold dots_from. rewrite skipn_map. apply (skipn_Forall _ _ n) in H.
  induction H as [|x l H1 _ IH]; [reflexivity|]. cbn. rewrite face_good_dot by exact H1.
  destruct (good_dot x) eqn:E; cbn; rewrite IH; [|reflexivity].
  destruct x as [[]|[]]; try discriminate; reflexivity.
Qed.

(** Arguments followed by an optional closing bracket. *)
Definition is_closer (c : cst) : bool :=
  match c with CLeaf (LAngleClose | LCurlyClose | LSquareClose) _ _ => true | _ => false end.

Lemma args_dots : forall rest prev es l pc close,
  Forall (fun c => is_closer c = false) rest ->
  (close = [] \/ exists c, close = [c] /\ is_closer c = true) ->
  filter (of_kind [EUnexpectedDot]) (snd (args_pure prev (rest ++ close) es l pc)) = dots_from 0 rest.
Proof.
  induction rest as [|c rest IH]; intros prev es l pc close HF HC.
  - destruct HC as [->|(c & -> & HC)]; [reflexivity|]. destruct c as [|k v lc]; [discriminate|].
    cbn [app]. destruct k; try discriminate; cbn; destruct es; try destruct pc; reflexivity.
  - apply Forall_cons_iff in HF as [Hc HF]. cbn [app].
    destruct c as [k xs lc|k v lc]; [exact (IH _ _ _ _ close HF HC)|].
    destruct k; try discriminate; cbn [args_pure]; try exact (IH _ _ _ _ close HF HC).
    + specialize (IH (CLeaf LDot v lc) es l pc close HF HC).
      destruct (args_pure _ (rest ++ close) es l pc) as [o e]. cbn in *. rewrite IH. reflexivity.
    + destruct es.
      * specialize (IH (CLeaf LComma v lc) [] l pc close HF HC).
        destruct (args_pure _ (rest ++ close) [] l pc) as [o e]. cbn in *. rewrite IH. reflexivity.
      * specialize (IH (CLeaf LComma v lc) [] mock_location true close HF HC).
        destruct (args_pure _ (rest ++ close) [] mock_location true) as [o e]. exact IH.
Qed.

Definition nonempty {A} (l : list A) : bool := match l with [] => false | _ => true end.

(** The trailing comma, given the state of the loop. *)
Fixpoint trail (prev : cst) (solid pc : bool) (rest : list cst) : list terror :=
  match rest with
  | [] => if solid then [] else if pc then [(EUnexpectedComma, cst_location prev)] else []
  | c :: r =>
    if good_dot c then trail c solid pc r
    else if is_comma c then trail c false (solid || pc) r
    else trail c true false r
  end.

Lemma args_commas : forall rest prev es l pc close,
  Forall (fun c => is_closer c = false) rest ->
  (close = [] \/ exists c, close = [c] /\ is_closer c = true) ->
  filter (of_kind [EUnexpectedComma]) (snd (args_pure prev (rest ++ close) es l pc)) =
  empty_args (negb (nonempty es)) rest ++
  (match close with [] => [] | _ => trail prev (nonempty es) pc rest end).
Proof.
  induction rest as [|c rest IH]; intros prev es l pc close HF HC.
  - destruct HC as [->|(c & -> & HC)]; [reflexivity|]. destruct c as [|k v lc]; [discriminate|].
    cbn [app]. destruct k; try discriminate; cbn; destruct es; try destruct pc; reflexivity.
  - apply Forall_cons_iff in HF as [Hc HF]. cbn [app].
    assert (NE : forall (c : cst), nonempty (es ++ [c]) = true) by (intro; destruct es; reflexivity).
    destruct c as [k xs lc|k v lc].
    + cbn [args_pure]. rewrite (IH _ _ _ _ close HF HC), NE. reflexivity.
    + destruct k; try discriminate; cbn [args_pure]; try (rewrite (IH _ _ _ _ close HF HC), NE; reflexivity).
      * specialize (IH (CLeaf LDot v lc) es l pc close HF HC).
        destruct (args_pure _ (rest ++ close) es l pc) as [o e]. cbn in *. rewrite IH. reflexivity.
      * destruct es as [|x es].
        -- specialize (IH (CLeaf LComma v lc) [] l pc close HF HC).
           destruct (args_pure _ (rest ++ close) [] l pc) as [o e]. cbn in *. rewrite IH. reflexivity.
        -- specialize (IH (CLeaf LComma v lc) [] mock_location true close HF HC).
           destruct (args_pure _ (rest ++ close) [] mock_location true) as [o e]. cbn in *. rewrite IH. reflexivity.
Qed.

Lemma empty_args_face : forall xs b, Forall parsed_item xs -> empty_args b (map face xs) = empty_args b xs.
Proof.
  intros xs b H. revert b. induction H as [|x xs H1 _ IH]; intro b; [reflexivity|]. cbn [map empty_args].
  rewrite face_good_dot, face_is_comma by exact H1. destruct (good_dot x); [apply IH|].
  destruct (is_comma x) eqn:E; [|apply IH]. rewrite IH. destruct b; [|reflexivity].
  destruct x as [[]|[]]; try discriminate; reflexivity.
Qed.

(** [trail] in terms of the last solid item. *)
Lemma trail_spec : forall rest prev solid pc d,
  is_comma d = false ->
  trail prev solid pc rest =
  let sol := filter (fun c => negb (good_dot c)) rest in
  if (match sol with [] => negb solid && pc
      | _ => is_comma (last sol d) && (solid || pc || negb (forallb is_comma sol)) end)
  then [(EUnexpectedComma, cst_location (last rest prev))] else [].
Proof.
  induction rest as [|c rest IH]; intros prev solid pc d Hd.
  - cbn. destruct solid, pc; reflexivity.
  - cbn [trail filter].
    assert (EL : last (c :: rest) prev = last rest c).
    { destruct rest as [|y r]; [reflexivity|]. rewrite last_cons_last by discriminate. apply last_default. discriminate. }
    rewrite EL. destruct (good_dot c) eqn:Ed; cbn [negb].
    + rewrite (IH c solid pc d Hd). reflexivity.
    + destruct (is_comma c) eqn:Ec.
      * rewrite (IH c false (solid || pc) d Hd). cbn zeta.
        destruct (filter (fun c => negb (good_dot c)) rest) as [|y sol] eqn:ES.
        -- cbn. rewrite Ec. cbn. destruct solid, pc; reflexivity.
        -- rewrite (last_cons_last _ c (y :: sol) d) by discriminate.
           replace (forallb is_comma (c :: y :: sol)) with (forallb is_comma (y :: sol)) by (cbn; rewrite Ec; reflexivity).
           reflexivity.
      * rewrite (IH c true false d Hd). cbn zeta.
        destruct (filter (fun c => negb (good_dot c)) rest) as [|y sol] eqn:ES.
        -- cbn. rewrite Ec. reflexivity.
        -- rewrite (last_cons_last _ c (y :: sol) d) by discriminate.
           replace (forallb is_comma (c :: y :: sol)) with false by (cbn; rewrite Ec; reflexivity).
           cbn [negb orb]. rewrite !orb_true_r. reflexivity.
Qed.

(** The items of a parsed command that the argument loop sees. *)
Lemma parsed_command : forall k cs l, parsed_node (CInner k cs l) -> not_closed k <> None ->
  exists o items close, flat cs = o :: items ++ close /\
    Forall parsed_item items /\ Forall (fun x => is_closer x = false /\ closes k x = false) items /\
    (exists ko lo, o = CLeaf ko None lo /\ is_closer o = false /\ is_comma o = false /\ visible o = true /\ closes k o = false) /\
    (close = [] \/ exists c, close = [c] /\ is_closer c = true /\ closes k c = true /\ face c = c /\ visible c = true).
Proof.
  intros k cs l H N. destruct (H k cs l eq_refl N) as (o & lo & items & close & cl & E & HB & HC & HF).
  exists (CLeaf o None lo), items, close. split; [exact E|]. split; [|split; [|split]].
  - eapply Forall_impl; [|exact HF]. intros x (x' & e & S). eapply SItem_parsed; exact S.
  - eapply Forall_impl; [|exact HF]. intros x (x' & e & S). split; [|eapply SItem_not_close; exact S].
    inversion S as [k0 v0 l0 EI| | |]; subst; try reflexivity. destruct k0; try discriminate; reflexivity.
  - exists o, lo. destruct k; cbn in HB; try discriminate HB; injection HB as <- <-; repeat split.
  - destruct HC as [->|[lc ->]]; [left; reflexivity|right]. eexists. split; [reflexivity|].
    destruct k; cbn in HB; try discriminate HB; injection HB as <- <-; repeat split.
Qed.

Lemma filter_true : forall (A : Type) (p : A -> bool) l, Forall (fun x => p x = true) l -> filter p l = l.
Proof.
  intros A p l H. induction H as [|x l H1 _ IH]; [reflexivity|]. cbn. rewrite H1, IH. reflexivity.
Qed.
Lemma filter_false : forall (A : Type) (p : A -> bool) l, Forall (fun x => p x = false) l -> filter p l = [].
Proof.
  intros A p l H. induction H as [|x l H1 _ IH]; [reflexivity|]. cbn. rewrite H1. exact IH.
Qed.
Lemma Forall_filter : forall (A : Type) (P : A -> Prop) p l, Forall P l -> Forall P (filter p l).
Proof.
  intros A P p l H. rewrite Forall_forall in *. intros x Hx. apply filter_In in Hx as [Hx _]. auto.
Qed.

(** The argument loop on a parsed command: either it does not run on any argument, or it
    runs on the visible items after the head, followed by the closing bracket. *)
Lemma command_args : forall k cs l, parsed_node (CInner k cs l) -> not_closed k <> None ->
  (snd (cva (strip (map face (flat cs)))) = [] /\ skipn 4 (filter visible (flat cs)) = [] /\ arg_items k cs = []) \/
  exists o v3 args close,
    snd (cva (strip (map face (flat cs)))) = snd (args_pure (face v3) (map face args ++ close) [] mock_location false) /\
    skipn 4 (filter visible (flat cs)) = args ++ close /\ arg_items k cs = args /\
    Forall parsed_item args /\ Forall (fun x => is_closer x = false) args /\ parsed_item v3 /\
    (exists items, flat cs = o :: items ++ close) /\ is_comma o = false /\ closes k o = false /\
    closes k (last (flat cs) o) = nonempty close /\
    (close = [] \/ exists c, close = [c] /\ is_closer c = true /\ face c = c).
Proof.
  intros k cs l H N. pose proof (parsed_items _ _ _ H N) as HA.
  destruct (parsed_command k cs l H N) as (o & items & close & E & HP & HF & (ko & lo & EO & O1 & O2 & O3 & O4) & HC).
  assert (ES : strip (map face (flat cs)) = map face (filter visible (flat cs))).
  { rewrite strip_filter. apply filter_map_face. eapply Forall_impl; [|exact HA]. intros x Hx. apply face_visible, Hx. }
  rewrite ES. unfold arg_items. set (V := filter visible items).
  assert (HV1 : Forall parsed_item V) by (apply Forall_filter; exact HP).
  assert (HV2 : Forall (fun x => is_closer x = false /\ closes k x = false) V) by (apply Forall_filter; exact HF).
  assert (EV : filter visible (flat cs) = o :: V ++ close).
  { rewrite E. cbn. rewrite O3, filter_app. unfold V. f_equal. f_equal.
    destruct HC as [->|(c & -> & _ & _ & _ & C5)]; [reflexivity|]. cbn. rewrite C5. reflexivity. }
  rewrite EV.
  assert (HC4 : length close <= 1) by (destruct HC as [->|(c & -> & _)]; cbn; lia).
  assert (HFC : forall n, n >= length V -> filter (fun c => negb (closes k c)) (skipn n (V ++ close)) = []).
  { intros n Hn. rewrite skipn_app, skipn_all2 by lia. cbn [app]. destruct HC as [->|(c & -> & _ & C3 & _)].
    - rewrite skipn_nil. reflexivity.
    - destruct (n - length V); cbn; [rewrite C3|rewrite skipn_nil]; reflexivity. }
  destruct (le_lt_dec 3 (length V)) as [L|L].
  - right. destruct V as [|v1 [|v2 [|v3 args]]]; cbn in L; try lia.
    exists o, v3, args, close. cbn [map app cva skipn]. rewrite !map_app.
    assert (EC : map face close = close) by (destruct HC as [->|(c & -> & _ & _ & C4 & _)]; [reflexivity|cbn; rewrite C4; reflexivity]).
    rewrite EC. destruct (args_pure (face v3) (map face args ++ close) [] mock_location false) as [oo ee].
    do 3 apply Forall_inv_tail in HV2. 
    split; [reflexivity|]. split; [reflexivity|]. split.
    { rewrite filter_app, filter_true; [|eapply Forall_impl; [|exact HV2]; intros x [_ Hx]; rewrite Hx; reflexivity].
      destruct HC as [->|(c & -> & _ & C3 & _)]; cbn; rewrite ?C3; cbn; apply app_nil_r. }
    split; [do 3 apply Forall_inv_tail in HV1; exact HV1|].
    split; [eapply Forall_impl; [|exact HV2]; intros x [Hx _]; exact Hx|].
    split; [do 2 apply Forall_inv_tail in HV1; apply Forall_inv in HV1; exact HV1|].
    split; [eauto|]. split; [exact O2|]. split; [exact O4|]. split.
    + rewrite E. destruct HC as [->|(c & -> & _ & C3 & _)].
      * rewrite app_nil_r. destruct items as [|x xs]; [exact O4|]. rewrite last_cons_last by discriminate.
        assert (HI : In (last (x :: xs) o) (x :: xs)) by (apply last_In; discriminate).
        rewrite Forall_forall in HF. apply HF in HI as [_ HI]. exact HI.
      * rewrite app_comm_cons, last_last. exact C3.
    + destruct HC as [->|(c & -> & C2 & _ & C4 & _)]; eauto 6.
  - left. assert (LV : length (o :: V ++ close) <= 4) by (cbn; rewrite app_length; lia).
    split; [|split].
    + remember (o :: V ++ close) as W eqn:EW. destruct W as [|w0 [|w1 [|w2 [|w3 [|w4 W]]]]]; try reflexivity.
      cbn in LV. lia.
    + apply skipn_all2. exact LV.
    + rewrite skipn_all2 by exact LV. reflexivity.
Qed.

Lemma own_dots : forall c, parsed_node c ->
  filter (of_kind [EUnexpectedDot]) (own c) = doubled_dots c.
Proof.
  intros c H. rewrite own_split. destruct c as [k cs l|k v l]; [|reflexivity].
  cbn [doubled_dots]. destruct (not_closed k) eqn:E; six; [|reflexivity].
  assert (N : not_closed k <> None) by congruence. pose proof (parsed_items _ _ _ H N) as HA.
  rewrite check4_spec, dots_face by exact HA. f_equal. unfold dots_from at 1.
  destruct (command_args k cs l H N) as [(A & B & _)|(o & v3 & args & close & A & B & C & HP & HF & _ & _ & _ & _ & _ & HC)].
  - rewrite A, B. reflexivity.
  - rewrite A, B. rewrite args_dots.
    + rewrite dots_face by exact HP. unfold dots_from. cbn [skipn]. rewrite filter_app, map_app.
      destruct HC as [->|(c & -> & C1 & _)]; [cbn; rewrite app_nil_r; reflexivity|].
      destruct c as [|[]]; try discriminate; cbn; rewrite app_nil_r; reflexivity.
    + rewrite Forall_map. rewrite Forall_forall in *. intros x Hx. specialize (HF x Hx). specialize (HP x Hx).
      destruct (face_cases x HP) as [[D ->]|[(_ & [l1 ->] & [l2 F])|(D & s & l2 & F)]]; [|rewrite F; reflexivity..].
      destruct x; [reflexivity|exact HF].
    + destruct HC as [->|(c & -> & C1 & _)]; eauto.
Qed.

Lemma own_commas : forall c, parsed_node c ->
  filter (of_kind [EUnexpectedComma]) (own c) = bad_commas c.
Proof.
  intros c H. rewrite own_split. destruct c as [k cs l|k v l]; [|reflexivity].
  cbn [bad_commas]. destruct (not_closed k) eqn:E; six; [|reflexivity].
  assert (N : not_closed k <> None) by congruence. unfold trailing_comma.
  destruct (command_args k cs l H N) as [(A & _ & B)|(o & v3 & args & close & A & _ & C & HP & HF & HV & (items & EI) & O1 & O2 & HL & HC)].
  - rewrite A, B. cbn. destruct (parsed_command k cs l H N) as (o & items & close & EI & _ & _ & (ko & lo & _ & _ & O2 & _) & _).
    rewrite EI. cbn. rewrite O2, andb_false_r. reflexivity.
  - rewrite A, C. rewrite args_commas.
    + cbn [nonempty negb]. rewrite empty_args_face by exact HP. f_equal.
      destruct (flat cs) as [|o' fl] eqn:EF; [discriminate|]. injection EI as <- EI. rewrite HL.
      destruct HC as [->|(c & -> & C1 & _)]; [reflexivity|]. cbn [nonempty].
      rewrite (trail_spec _ _ _ _ o' O1). cbn zeta. cbn [negb andb orb].
      rewrite (filter_map_face (fun c => negb (good_dot c)) (fun c => negb (good_dot c)));
        [|eapply Forall_impl; [|exact HP]; intros x Hx; rewrite face_good_dot by exact Hx; reflexivity].
      set (sol := filter (fun c => negb (good_dot c)) args).
      assert (HS : Forall parsed_item sol) by (apply Forall_filter; exact HP).
      destruct sol as [|y sol'] eqn:ES; [cbn; rewrite O1; reflexivity|].
      assert (EL : is_comma (last (map face (y :: sol')) o') = is_comma (last (y :: sol') o')).
      { rewrite (last_default _ (map face (y :: sol')) o' (face o')) by discriminate. rewrite last_map.
        apply face_is_comma. rewrite Forall_forall in HS. apply HS, last_In. discriminate. }
      change (match map face (y :: sol') with [] => false | _ :: _ => is_comma (last (map face (y :: sol')) o') && negb (forallb is_comma (map face (y :: sol'))) end)
        with (is_comma (last (map face (y :: sol')) o') && negb (forallb is_comma (map face (y :: sol')))).
      rewrite EL. assert (EB : forallb is_comma (map face (y :: sol')) = forallb is_comma (y :: sol')).
      { clear - HS. induction HS as [|x xs Hx _ IH]; [reflexivity|]. cbn. rewrite face_is_comma by exact Hx. f_equal. exact IH. }
      rewrite EB. destruct (is_comma (last (y :: sol') o') && negb (forallb is_comma (y :: sol'))); [|reflexivity].
      assert (NA : args <> []) by (intros ->; discriminate).
      rewrite last_map, face_loc. rewrite (last_default _ args v3 o') by exact NA. reflexivity.
    + rewrite Forall_map. rewrite Forall_forall in *. intros x Hx. specialize (HF x Hx). specialize (HP x Hx).
      destruct (face_cases x HP) as [[D ->]|[(_ & [l1 ->] & [l2 F])|(D & s & l2 & F)]]; [|rewrite F; reflexivity..].
      destruct x; [reflexivity|exact HF].
    + destruct HC as [->|(c & -> & C1 & _)]; eauto.
Qed.

(** Under a proper head the two dot checks see the same dots. *)
Lemma visible_dots : forall xs, filter good_dot (filter visible xs) = filter good_dot xs.
Proof.
  induction xs as [|x xs IH]; [reflexivity|]. cbn. destruct x as [|[]]; cbn; rewrite IH; reflexivity.
Qed.

Lemma good_head_dots : forall c, parsed_node c -> good_head c -> doubled_dots c = stray_dots c ++ stray_dots c.
Proof.
  intros [k cs l|k v l] HP H; [|reflexivity]. cbn. destruct (not_closed k) eqn:E; [|reflexivity].
  assert (N : not_closed k <> None) by congruence.
  destruct (H k cs l eq_refl N) as (o & m & d & f & rest & EF & A & B & C).
  destruct (parsed_command k cs l HP N) as (o' & items & close & E' & _ & _ & (ko & lo & _ & _ & _ & O & _) & _).
  rewrite EF in E'. injection E' as -> _. rewrite EF.
  unfold dots_from. cbn [skipn].
  assert (D : good_dot f = false) by (destruct f as [[]|[]]; try discriminate; reflexivity).
  assert (V : forall x, good_module x = true \/ good_dot x = true \/ good_ident x = true -> visible x = true).
  { intros [[]|[]] [|[|]]; try discriminate; reflexivity. }
  cbn [filter]. rewrite D, O, (V m), (V d), (V f) by auto. cbn [skipn]. rewrite visible_dots. reflexivity.
Qed.

(** ** For the whole document *)
Theorem transform_kind : forall uuid c a es, g_document c -> transform uuid c = Ok (a, es) ->
  forall ks (f : cst -> list terror), (forall n, parsed_node n -> filter (of_kind ks) (own n) = f n) ->
  filter (of_kind ks) es = flat_map f (cst_nodes c).
Proof.
  intros uuid c a es G H ks f HF. rewrite (transform_own _ _ _ _ G H), filter_flat_map.
  pose proof (doc_nodes c G) as HN. induction HN as [|n ns Hn _ IH]; [reflexivity|].
  cbn. rewrite IH, (HF n Hn). reflexivity.
Qed.
