(** Every position in the trees and in the errors is one of the positions of the tokens, and every text
    in the trees one of the texts of the tokens. *)
From Coq Require Import String List NArith Arith Bool Lia.
From Verif Require Import Base Tokens CST AST Parser TransformError Transform ParserProofs ParserProofs2
  SpecCST SpecTransform TransformProofs.
Import ListNotations.

Section Positions.
  Variable P : pos -> Prop.
  Hypothesis P_origin : P (mkpos 0 0).
  Variable V : str -> Prop.
  Hypothesis V_escaped : forall k s, escapable k = Some s -> V s.

  Definition lok (l : loc) : Prop := P (lstart l) /\ P (lend l).
  Definition vok (v : option str) : Prop := match v with Some s => V s | None => True end.
  Definition tok_ok (t : token) : Prop :=
    lok (tl t) /\ match tk t with TkText s | TkModule s | TkIdent s => V s | _ => True end.
  Inductive cok : cst -> Prop :=
  | cok_leaf : forall k v l, lok l -> vok v -> cok (CLeaf k v l)
  | cok_inner : forall k cs l, Forall cok cs -> lok l -> cok (CInner k cs l).

  Lemma cok_loc : forall c, cok c -> lok (cst_location c).
  Proof. intros c [|]; assumption. Qed.

  Lemma mock_ok : lok mock_location.
  Proof. split; exact P_origin. Qed.

  Lemma merge_ok : forall a b, lok a -> lok b -> lok (merge_location a b).
  Proof.
    intros a b [A1 A2] [B1 B2]. unfold merge_location. split; cbn [lstart lend];
      repeat match goal with |- context [Nat.compare ?x ?y] => destruct (Nat.compare x y) end; assumption.
  Qed.

  Lemma add_ok : forall c x c', cst_add c x = Ok c' -> cok c -> cok x -> cok c'.
  Proof.
    intros [k cs l|k v l] x c' H C X; cbn in H; [|discriminate]. injection H as <-.
    inversion C; subst. constructor.
    - apply Forall_app. split; [assumption|constructor; [assumption|constructor]].
    - apply merge_ok; [assumption|apply cok_loc; assumption].
  Qed.

  Lemma children_ok : forall c cs, cst_children c = Ok cs -> cok c -> Forall cok cs.
  Proof. intros [k cs' l|k v l] cs H C; cbn in H; [|discriminate]. injection H as <-. inversion C; assumption. Qed.

  Lemma set_location_ok : forall c l, cok c -> lok l -> cok (cst_set_location c l).
  Proof. intros c l [|] L; constructor; assumption. Qed.

  Definition parses (m : parser) : Prop :=
    match m with Ok (c, ts) => cok c /\ Forall tok_ok ts | _ => True end.

  Ltac leaf := intros ts H; destruct H as [|[[] ?] ts T H]; cbn; auto; destruct T; split; auto; constructor; cbn; auto.
  Lemma eof_ok : forall ts, Forall tok_ok ts -> parses (eof_parse ts). Proof. leaf. Qed.
  Lemma newline_ok : forall ts, Forall tok_ok ts -> parses (newline_parse ts). Proof. leaf. Qed.
  Lemma text_ok : forall ts, Forall tok_ok ts -> parses (text_parse ts). Proof. leaf. Qed.
  Lemma module_ok : forall ts, Forall tok_ok ts -> parses (module_parse ts). Proof. leaf. Qed.
  Lemma ident_ok : forall ts, Forall tok_ok ts -> parses (ident_parse ts). Proof. leaf. Qed.
  Lemma dot_ok : forall ts, Forall tok_ok ts -> parses (dot_parse ts). Proof. leaf. Qed.
  Lemma comma_ok : forall ts, Forall tok_ok ts -> parses (comma_parse ts). Proof. leaf. Qed.
  Lemma whitespace_ok : forall ts, Forall tok_ok ts -> parses (whitespace_parse ts). Proof. leaf. Qed.
  Lemma bracket_close_ok : forall ts, Forall tok_ok ts -> parses (bracket_close_parse ts). Proof. leaf. Qed.
  Lemma b_open_ok : forall b ts, Forall tok_ok ts -> parses (b_open_parse b ts).
  Proof. intros []; leaf. Qed.
  Lemma b_close_ok : forall b ts, Forall tok_ok ts -> parses (b_close_parse b ts).
  Proof. intros []; leaf. Qed.

  Lemma escaped_ok : forall ts, Forall tok_ok ts -> parses (escaped_parse ts).
  Proof.
    intros ts H. destruct H as [|[k l] ts T H]; [exact I|]. destruct k; try exact I. cbn.
    destruct H as [|t ts' T' H]; [exact I|]. destruct (escapable (tk t)) eqn:X.
    - split; [|assumption]. constructor; [|apply T].
      constructor; [constructor; [apply T'|exact (V_escaped _ _ X)]|constructor].
    - split; [|constructor; assumption]. constructor; [constructor|apply T].
  Qed.

  Lemma expr_finish_ok : forall e ts, cok e -> Forall tok_ok ts -> parses (expr_finish e ts).
  Proof.
    intros e ts E H. unfold expr_finish. destruct (cst_children e) as [cs|?|?|] eqn:C; cbn [bind]; try exact I.
    pose proof (children_ok e cs C E) as F. destruct cs as [|c cs]; [exact I|].
    split; [|assumption]. apply set_location_ok; [exact E|].
    split; cbn [lstart lend].
    - apply cok_loc. inversion F; assumption.
    - apply cok_loc. rewrite Forall_forall in F. apply F. apply last_In. discriminate.
  Qed.

  (** One alternative of a loop. *)
  Lemma alt_ok : forall (m other : parser) (k : cst -> list token -> parser),
    parses m -> parses other -> (forall c ts, cok c -> Forall tok_ok ts -> parses (k c ts)) ->
    parses (iflet (c, ts) := m then k c ts else other).
  Proof. intros [[c ts]|?|?|] other k M O K; try exact I; [|exact O]. destruct M. apply K; assumption. Qed.

  Lemma bind_ok' : forall (m : parser) (k : cst -> list token -> parser),
    parses m -> (forall c ts, cok c -> Forall tok_ok ts -> parses (k c ts)) ->
    parses (let! (c, ts) := m in k c ts).
  Proof. intros [[c ts]|?|?|] k M K; try exact I. destruct M. apply K; assumption. Qed.

  Lemma add_then_ok : forall c x (k : cst -> parser),
    cok c -> cok x -> (forall c', cok c' -> parses (k c')) -> parses (let! c' := cst_add c x in k c').
  Proof.
    intros c x k C X K. destruct (cst_add c x) as [c'|?|?|] eqn:E; try exact I.
    apply K. apply (add_ok c x c' E); assumption.
  Qed.

  Lemma parse_loops_ok : forall n,
    (forall e ts, cok e -> Forall tok_ok ts -> parses (expr_loop n e ts))
    /\ (forall ts, Forall tok_ok ts -> parses (bracket_parse n ts))
    /\ (forall b ts, Forall tok_ok ts -> parses (b_parse n b ts))
    /\ (forall r ts, cok r -> Forall tok_ok ts -> parses (b_loop n r ts)).
  Proof.
    induction n as [|n (IHe & IHb & IHp & IHl)]; [repeat split; intros; exact I|].
    assert (Step : forall e, cok e -> forall c ts, cok c -> Forall tok_ok ts ->
      parses (let! e' := cst_add e c in expr_loop n e' ts)).
    { intros e E c ts C T. apply add_then_ok; [assumption..|]. intros c' C'. apply IHe; assumption. }
    split; [|split; [|split]].
    - intros e ts E T. cbn [expr_loop].
      apply alt_ok; [apply escaped_ok; exact T| |exact (Step e E)].
      apply alt_ok; [apply module_ok; exact T| |exact (Step e E)].
      apply alt_ok; [apply ident_ok; exact T| |exact (Step e E)].
      apply alt_ok; [apply IHb; exact T| |exact (Step e E)].
      apply alt_ok; [apply dot_ok; exact T| |exact (Step e E)].
      apply alt_ok; [apply comma_ok; exact T| |exact (Step e E)].
      apply alt_ok; [apply whitespace_ok; exact T| |exact (Step e E)].
      apply alt_ok; [apply text_ok; exact T| |exact (Step e E)].
      split; assumption.
    - intros ts T. cbn [bracket_parse].
      pose proof (IHp KAngle ts T) as A. pose proof (IHp KCurly ts T) as C. pose proof (IHp KSquare ts T) as Q.
      destruct (b_parse n KAngle ts) as [[? ?]|?|?|]; try exact A.
      destruct (b_parse n KCurly ts) as [[? ?]|?|?|]; try exact C.
      destruct (b_parse n KSquare ts) as [[? ?]|?|?|]; exact Q.
    - intros b ts T. cbn [b_parse]. destruct ts as [|t ts0]; [exact I|].
      assert (Tt : tok_ok t) by (inversion T; assumption).
      apply bind_ok'; [apply b_open_ok; exact T|]. intros c ts1 Cc T1.
      apply add_then_ok; [destruct b; constructor; try constructor; apply mock_ok|exact Cc|].
      intros r Cr. apply bind_ok'; [apply IHl; assumption|]. intros r2 ts2 Cr2 T2.
      destruct ts2 as [|t2 ts2']; [exact I|].
      assert (Tt2 : tok_ok t2) by (inversion T2; assumption).
      assert (Last : parses (iflet (c, ts3) := b_close_parse b (t2 :: ts2') then
                       let! r := cst_add r2 c in Ok (r, ts3) else Ok (r2, t2 :: ts2'))).
      { apply alt_ok; [apply b_close_ok; exact T2|split; assumption|].
        intros c' ts' C' T'. apply add_then_ok; [assumption..|]. intros c'' C''. split; assumption. }
      apply bind_ok'; [exact Last|]. intros r3 ts3 C3 T3. split; [|exact T3].
      apply set_location_ok; [exact C3|]. split; [apply Tt|apply Tt2].
    - intros r ts R T. cbn [b_loop].
      apply alt_ok.
      + apply bind_ok'; [apply IHe; [constructor; [constructor|apply mock_ok]|exact T]|].
        intros e ts' E T'. apply expr_finish_ok; assumption.
      + apply alt_ok; [apply newline_ok; exact T|split; assumption|].
        intros c ts' C T'. apply add_then_ok; [assumption..|]. intros c' C'. apply IHl; assumption.
      + intros c ts' C T'. apply add_then_ok; [assumption..|]. intros c' C'. apply IHl; assumption.
  Qed.

  Lemma expr_parse_ok : forall ts, Forall tok_ok ts -> parses (expr_parse ts).
  Proof.
    intros ts T. unfold expr_parse. apply bind_ok'.
    - apply parse_loops_ok; [constructor; [constructor|apply mock_ok]|exact T].
    - intros e ts' E T'. apply expr_finish_ok; assumption.
  Qed.

  Lemma expr_or_close_ok : forall ts, Forall tok_ok ts -> parses (expr_or_close_parse ts).
  Proof.
    intros ts T. unfold expr_or_close_parse. pose proof (expr_parse_ok ts T) as E.
    pose proof (bracket_close_ok ts T) as B.
    destruct (expr_parse ts) as [[? ?]|?|?|]; try exact E.
    destruct (bracket_close_parse ts) as [[? ?]|?|?|]; exact B.
  Qed.

  Lemma stmt_loop_ok : forall n s ts, cok s -> Forall tok_ok ts -> parses (stmt_loop n s ts).
  Proof.
    induction n as [|n IH]; intros s ts Cs T; [exact I|]. cbn [stmt_loop].
    apply alt_ok; [apply newline_ok; exact T|split; assumption|]. intros c ts1 C T1.
    apply alt_ok; [apply expr_or_close_ok; exact T1|split; assumption|]. intros c2 ts2 C2 T2.
    apply add_then_ok; [assumption..|]. intros s1 S1. apply add_then_ok; [assumption..|].
    intros s2 S2. apply IH; assumption.
  Qed.

  Lemma stmt_parse_ok : forall ts, Forall tok_ok ts -> parses (stmt_parse ts).
  Proof.
    intros ts T. unfold stmt_parse. apply bind_ok'; [apply expr_or_close_ok; exact T|].
    intros c ts1 C T1. apply add_then_ok; [constructor; [constructor|apply mock_ok]|exact C|].
    intros s S'. apply stmt_loop_ok; assumption.
  Qed.

  Lemma newlines_ok : forall ts, Forall tok_ok ts ->
    Forall cok (fst (newlines_loop ts)) /\ Forall tok_ok (snd (newlines_loop ts)).
  Proof.
    induction 1 as [|[k l] ts T H IH]; [split; constructor|].
    destruct k; try (split; [constructor|constructor; assumption]).
    cbn [newlines_loop]. destruct (newlines_loop ts) as [cs r]. cbn [fst snd] in *. destruct IH.
    split; [|assumption]. constructor; [constructor; [apply T|exact I]|assumption].
  Qed.

  Lemma add_all_ok : forall cs c c', add_all c cs = Ok c' -> cok c -> Forall cok cs -> cok c'.
  Proof.
    induction cs as [|x cs IH]; intros c c' H C F; cbn in H; [injection H as <-; exact C|].
    apply bind_ok in H as (c1 & H1 & H). inversion F; subst. eapply IH; [exact H| |assumption].
    eapply add_ok; eassumption.
  Qed.

  Lemma document_loop_ok : forall n d ts, cok d -> Forall tok_ok ts -> parses (document_loop n d ts).
  Proof.
    induction n as [|n IH]; intros d ts D T; [exact I|]. cbn [document_loop].
    apply alt_ok; [apply stmt_parse_ok; exact T|split; assumption|]. intros c1 ts1 C1 T1.
    apply alt_ok; [apply newline_ok; exact T1|split; assumption|]. intros c2 ts2 C2 T2.
    pose proof (newlines_ok ts2 T2) as [N1 N2]. destruct (newlines_loop ts2) as [cs3 ts3]. cbn [fst snd] in *.
    destruct (add_all d (c1 :: c2 :: cs3)) as [d'|?|?|] eqn:E; try exact I. cbn [bind].
    apply IH; [|exact N2]. eapply add_all_ok; [exact E|exact D|]. repeat (constructor; [assumption|]). assumption.
  Qed.

  Theorem parse_ok : forall ts c, parse ts = Ok c -> Forall tok_ok ts -> cok c.
  Proof.
    intros ts c H T. unfold parse in H.
    pose proof (document_loop_ok (S (length ts)) new_document ts) as D.
    apply bind_ok in H as ([d ts1] & Hd & H). rewrite Hd in D.
    destruct D as [D T1]; [constructor; [constructor|apply mock_ok]|exact T|].
    apply bind_ok in H as ([d2 ts2] & Hs & H).
    assert (D2 : cok d2 /\ Forall tok_ok ts2).
    { change (parses (Ok (d2, ts2))). rewrite <- Hs.
      apply alt_ok; [apply stmt_parse_ok; exact T1|split; assumption|].
      intros c1 ts' C1 T'. apply add_then_ok; [assumption..|]. intros c2 C2. split; assumption. }
    destruct D2 as [D2 T2]. pose proof (newlines_ok ts2 T2) as [N1 N2].
    destruct (newlines_loop ts2) as [cs ts3]. cbn [fst snd] in *.
    apply bind_ok in H as (d3 & H3 & H). apply bind_ok in H as ([e ts4] & H4 & H).
    pose proof (eof_ok ts3 N2) as E. rewrite H4 in E. destruct E as [E _].
    eapply add_ok; [exact H| |exact E]. eapply add_all_ok; eassumption.
  Qed.

  (** ** The transformer *)
  Definition errs_ok (es : list terror) : Prop := Forall (fun e => lok (snd e)) es.

  Lemma remove_ok : forall cs, Forall cok cs -> Forall cok (remove_elements_not_included_ast cs).
  Proof. induction 1 as [|c cs C F IH]; cbn; [constructor|]. destruct (not_in_ast c); [assumption|constructor; assumption]. Qed.

  Lemma strip_ok : forall cs, Forall cok cs -> Forall cok (remove_whitespaces_and_newlines cs).
  Proof.
    induction 1 as [|c cs C F IH]; cbn [remove_whitespaces_and_newlines]; [constructor|].
    destruct c as [k' cs' l|[] v l]; try (constructor; assumption); assumption.
  Qed.

  Lemma nth_ok : forall cs n c, Forall cok cs -> nth_error cs n = Some c -> cok c.
  Proof. intros cs n c F H. rewrite Forall_forall in F. apply F. eapply nth_error_In. exact H. Qed.

  Ltac nth_check n :=
    match goal with F : Forall cok ?cs |- errs_ok (_ ?cs) =>
      let E := fresh in
      destruct (nth_error cs n) as [c|] eqn:E;
      [pose proof (cok_loc c (nth_ok cs n c F E)) as L;
       destruct c as [[] ? ?|[] ? ?]; try constructor; try exact L; constructor
      |constructor]
    end.

  Lemma check1_ok : forall cs, Forall cok cs -> errs_ok (check_if_module_or_angle_bracket cs).
  Proof. intros cs F. unfold check_if_module_or_angle_bracket.
    destruct (nth_error cs 1) as [c|] eqn:E; [|constructor]. pose proof (cok_loc c (nth_ok cs 1 c F E)) as L.
    destruct c as [[] ? ?|[] ? ?]; try (constructor; [exact L|constructor]); constructor. Qed.
  Lemma check2_ok : forall cs, Forall cok cs -> errs_ok (check_if_dot cs).
  Proof. intros cs F. unfold check_if_dot.
    destruct (nth_error cs 2) as [c|] eqn:E; [|constructor]. pose proof (cok_loc c (nth_ok cs 2 c F E)) as L.
    destruct c as [[] ? ?|[] ? ?]; try (constructor; [exact L|constructor]); constructor. Qed.
  Lemma check3_ok : forall cs, Forall cok cs -> errs_ok (check_if_ident_or_angle_bracket cs).
  Proof. intros cs F. unfold check_if_ident_or_angle_bracket.
    destruct (nth_error cs 3) as [c|] eqn:E; [|constructor]. pose proof (cok_loc c (nth_ok cs 3 c F E)) as L.
    destruct c as [[] ? ?|[] ? ?]; try (constructor; [exact L|constructor]); constructor. Qed.

  Lemma skipn_forall : forall (A : Type) (Q : A -> Prop) n l, Forall Q l -> Forall Q (skipn n l).
  Proof. intros A Q n. induction n as [|n IH]; intros l F; [exact F|]. destruct F; [constructor|apply IH; assumption]. Qed.

  Lemma dots_ok : forall cs, Forall cok cs -> errs_ok (check_unexpected_dot cs).
  Proof.
    intros cs F. unfold check_unexpected_dot. apply (skipn_forall _ _ 3) in F. unfold errs_ok.
    induction F as [|c cs' C F IH]; cbn [flat_map]; [constructor|]. apply Forall_app. split; [|exact IH].
    destruct c as [? ? ?|[] ? ?]; try constructor; try (apply (cok_loc _ C)); constructor.
  Qed.

  Lemma brackets_ok : forall k cs es, check_if_the_first_and_last_node_are_brackets k cs = Ok es ->
    Forall cok cs -> errs_ok es.
  Proof.
    intros k cs es H F. destruct cs as [|first cs]; [discriminate|].
    assert (Lf : lok (cst_location first)) by (apply cok_loc; inversion F; assumption).
    assert (Ll : lok (cst_location (last (first :: cs) first))).
    { apply cok_loc. rewrite Forall_forall in F. apply F. apply last_In. discriminate. }
    unfold check_if_the_first_and_last_node_are_brackets in H.
    destruct (last (first :: cs) first) as [k2 cs2 l2|k2 v2 l2]; cbn [cst_location] in *;
      destruct first as [k1 cs1 l1|k1 v1 l1]; cbn [cst_location] in *;
      destruct k; try discriminate; destruct k1; try discriminate; try destruct k2;
      injection H as <-; try constructor; try (apply merge_ok; assumption); constructor.
  Qed.

  Lemma no_children_ok : forall c b, no_children c = Ok b -> True.
  Proof. trivial. Qed.

  Lemma args_loop_ok : forall rest prev ncs expr pc errs r es,
    args_loop prev rest ncs expr pc errs = Ok (r, es) ->
    cok prev -> Forall cok rest -> Forall cok ncs -> cok expr -> errs_ok errs ->
    Forall cok r /\ errs_ok es.
  Proof.
    assert (One : forall e l, lok l -> errs_ok [(e, l)]) by (intros e l L; constructor; [exact L|constructor]).
    assert (Snoc : forall ncs x, Forall cok ncs -> cok x -> Forall cok (ncs ++ [x]))
      by (intros ncs x N X; apply Forall_app; split; [exact N|constructor; [exact X|constructor]]).
    assert (ESnoc : forall es e l, errs_ok es -> lok l -> errs_ok (es ++ [(e, l)]))
      by (intros es e l N L; apply Forall_app; split; [exact N|apply One; exact L]).
    induction rest as [|c rest IH]; intros prev ncs expr pc errs r es H Cp Cr Cn Ce Er.
    - cbn [args_loop] in H. apply bind_ok in H as (b & _ & H). injection H as <- <-.
      split; [|assumption]. destruct b; [assumption|apply Snoc; assumption].
    - inversion Cr as [|? ? Cc Cr']; subst. pose proof (cok_loc c Cc) as Lc.
      assert (Add : (let! expr' := cst_add expr c in args_loop c rest ncs expr' false errs) = Ok (r, es) ->
        Forall cok r /\ errs_ok es).
      { intro H'. apply bind_ok in H' as (e' & A & H'). eapply IH; try eassumption. eapply add_ok; eassumption. }
      assert (Close : (let! e := no_children expr in
         let (ncs, errors) :=
           if e then if pc then (ncs, errs ++ [(EUnexpectedComma, cst_location prev)]) else (ncs, errs)
           else (ncs ++ [expr], errs) in Ok (ncs ++ [c], errors)) = Ok (r, es) -> Forall cok r /\ errs_ok es).
      { intro H'. apply bind_ok in H' as (b & _ & H').
        destruct b; [destruct pc|]; injection H' as <- <-;
          (split; [repeat apply Snoc; assumption|try apply ESnoc; try assumption; apply cok_loc; assumption]). }
      cbn [args_loop] in H. destruct c as [k cs l|[] v l]; cbn [cst_location] in *;
        try (apply Add; exact H); try (apply Close; exact H).
      + eapply IH; try eassumption. apply ESnoc; assumption.
      + apply bind_ok in H as (b & _ & H). destruct b.
        * eapply IH; try eassumption. apply ESnoc; assumption.
        * eapply IH; try eassumption; [apply Snoc; assumption|constructor; [constructor|apply mock_ok]].
  Qed.

  Lemma valid_arguments_ok : forall cs r es, check_valid_arguments cs = Ok (r, es) ->
    Forall cok cs -> Forall cok r /\ errs_ok es.
  Proof.
    intros cs r es H F. unfold check_valid_arguments in H.
    destruct cs as [|c0 [|c1 [|c2 [|c3 rest]]]]; try (injection H as <- <-; split; [exact F|constructor]).
    repeat match goal with X : Forall cok (_ :: _) |- _ => inversion X; clear X; subst end.
    eapply args_loop_ok; try eassumption; try (repeat constructor; assumption).
  Qed.

  Lemma splice_ok : forall cs, Forall cok cs -> Forall cok (flat_map splice cs).
  Proof.
    induction 1 as [|c cs C F IH]; cbn [flat_map]; [constructor|]. apply Forall_app. split; [|exact IH].
    destruct C as [k v l L Lv|k cs' l F' L].
    - constructor; [constructor; [exact L|exact Lv]|constructor].
    - destruct k; try exact F'; constructor; try constructor; assumption.
  Qed.

  Lemma bracket_finish_ok : forall k done errs l c es, bracket_finish k done errs l = Ok (c, es) ->
    Forall cok done -> errs_ok errs -> lok l -> cok c /\ errs_ok es.
  Proof.
    intros k done errs l c es H F E L. unfold bracket_finish in H.
    pose proof (splice_ok done F) as Fs. apply bind_ok in H as (e0 & H0 & H).
    apply bind_ok in H as ([csts new] & H1 & H). injection H as <- <-.
    apply valid_arguments_ok in H1 as [F1 E1]; [|apply strip_ok; exact Fs].
    split; [constructor; [apply remove_ok; exact F1|exact L]|].
    unfold errs_ok. repeat (apply Forall_app; split); try assumption.
    - eapply brackets_ok; eassumption.
    - apply check1_ok; exact Fs.
    - apply check2_ok; exact Fs.
    - apply check3_ok; exact Fs.
    - apply dots_ok; exact Fs.
  Qed.

  Lemma simplify_ok : forall c c' es, simplify c = Ok (c', es) -> cok c -> cok c' /\ errs_ok es.
  Proof.
    induction c as [k v l|k cs l IH] using cst_ind'; intros c' es H C.
    - cbn in H. injection H as <- <-. split; [exact C|constructor].
    - inversion C as [|? ? ? F L]; subst.
      assert (S : forall ys es', simps cs = Ok (ys, es') -> Forall cok ys /\ errs_ok es').
      { clear H C L c' es. revert F. induction IH as [|x cs Hx _ IHcs]; intros F ys es' H; cbn in H.
        - injection H as <- <-. split; constructor.
        - inversion F as [|? ? Fx Fcs]; subst. apply bind_ok in H as ([c e] & R1 & H). apply bind_ok in H as ([r es2] & R2 & H).
          injection H as <- <-. apply Hx in R1 as [C1 E1]; [|assumption]. apply IHcs in R2 as [C2 E2]; [|assumption].
          split; [constructor; assumption|apply Forall_app; split; assumption]. }
      destruct (match k with CBackSlash => true | _ => false end) eqn:K.
      + destruct k; try discriminate. cbn in H. destruct cs as [|x cs]; injection H as <- <-.
        * split; [constructor; [exact L|exact I]|constructor; [exact L|constructor]].
        * split; [inversion F; assumption|constructor].
      + rewrite simplify_inner in H by (intro E; subst k; discriminate).
        apply bind_ok in H as ([ys es'] & Hs & H). destruct (S _ _ Hs) as [Fy Ey].
        destruct k; try discriminate; cbn [finish] in H;
          try (eapply bracket_finish_ok; eassumption);
          injection H as <- <-; (split; [constructor; [try apply remove_ok; assumption|exact L]|exact Ey]).
  Qed.

  Theorem transform_errors_ok : forall uuid ts c a es, Forall tok_ok ts ->
    parse ts = Ok c -> transform uuid c = Ok (a, es) -> errs_ok es.
  Proof.
    intros uuid ts c a es T H E. unfold transform in E.
    apply bind_ok in E as ([s errs] & Hs & E). apply bind_ok in E as ([a' n] & _ & E). injection E as _ <-.
    eapply simplify_ok; [exact Hs|]. eapply parse_ok; eassumption.
  Qed.

  (** ** The AST *)
  Inductive aok : ast -> Prop :=
  | aok_leaf : forall k i v l, lok l -> vok v -> aok (ALeaf k i v l)
  | aok_inner : forall k i cs l, Forall aok cs -> lok l -> aok (AInner k i cs l).

  Lemma aux_ok : forall uuid c n a n', aux uuid c n = Ok (a, n') -> cok c -> aok a.
  Proof.
    intros uuid c. induction c as [k v l|k cs l IH] using cst_ind'; intros n a n' H C.
    - cbn in H. destruct (aux_leaf k v) as [[k' v']|] eqn:E; [|discriminate]. injection H as <- _.
      inversion C; subst. constructor; [assumption|]. destruct k; cbn in E; try discriminate; injection E as _ <-; assumption || exact I.
    - rewrite aux_inner_eq in H. destruct (aux_inner k) as [k'|]; [|discriminate].
      apply bind_ok in H as ([r n1] & A & H). injection H as <- _. inversion C as [|? ? ? F L]; subst.
      constructor; [|exact L]. clear C L n'. revert n r n1 A F.
      induction IH as [|c cs Hc _ IHc]; intros n r n1 A F.
      + injection A as <- _. constructor.
      + cbn [auxs] in A. fold (auxs uuid) in A. apply bind_ok in A as ([a n2] & A1 & A).
        apply bind_ok in A as ([r' n3] & A2 & A). injection A as <- _. inversion F; subst.
        constructor; [eapply Hc; eassumption|eapply IHc; eassumption].
  Qed.

  Theorem transform_ok : forall uuid ts c a es, Forall tok_ok ts ->
    parse ts = Ok c -> transform uuid c = Ok (a, es) -> aok a.
  Proof.
    intros uuid ts c a es T H E. unfold transform in E.
    apply bind_ok in E as ([s errs] & Hs & E). apply bind_ok in E as ([a' n] & A & E). injection E as <- _.
    eapply aux_ok; [exact A|]. eapply simplify_ok; [exact Hs|]. eapply parse_ok; eassumption.
  Qed.
End Positions.
