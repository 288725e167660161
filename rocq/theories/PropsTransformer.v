(** Property theorems C17-C25, C61-C63, C79, C81, C82 (transformer) and one of C80. *)
From Coq Require Import String List NArith Arith Permutation.
From Verif Require Import Base Tokens Graphemes UAX29 Tokenizer CST SpecTok SpecCST Parser ParserProofs ParserWitness
  AST TransformError Transform SpecTransform TransformProofs TransformErrors TransformKinds TransformMeans
  TransformGrammar TransformIds TransformPanic TransformShape TransformWitness SpecReads TransformReads ReadsProofs ReadsProofs2
  SpecStrip Relocate StripProofs SpecClose CloseProofs.
Import ListNotations.

Definition num_id (n : nat) : str := [N.of_nat n].

(** ** C17 *)
Theorem C17_transform_panics_refuted : forall seg uuid, seg_laws seg ->
  (exists e, to_ast seg uuid (lit "\[ a") = Panic e) /\
  (exists e, to_ast seg uuid (lit "{m.f [m.g a } b") = Panic e).
Proof. exact uuid_panics. Qed.
Print Assumptions C17_transform_panics_refuted.

Theorem C17_transform_panics_exactly : forall uuid ts c, parse ts = Ok c ->
  (outside [] (map tk ts) = true /\ exists e, transform uuid c = Panic e) \/
  (outside [] (map tk ts) = false /\ exists a es, transform uuid c = Ok (a, es)).
Proof. exact panics_outside. Qed.
Print Assumptions C17_transform_panics_exactly.

Theorem C17_no_panic_when_nested_partial : forall seg, seg_laws seg -> forall uuid s ts c,
  tokenize_str seg s = Ok ts -> parse ts = Ok c -> tame [] (map tk ts) = true ->
  exists a es, transform uuid c = Ok (a, es).
Proof. exact tame_no_panic. Qed.
Print Assumptions C17_no_panic_when_nested_partial.

Example C17_example : match tokenize_str gseg (lit "a, [m.f b \] c, {m.g <m.h x y") with
  | Ok ts => tame [] (map tk ts) = true /\ match parse ts with Ok _ => True | _ => False end
  | _ => False
  end.
Proof. vm_compute. repeat split. Qed.

(** ** C18 *)
Theorem C18_no_error_iff_well_formed : forall uuid ts c, parse ts = Ok c ->
  (exists a, transform uuid c = Ok (a, [])) <-> (exists a, means c a).
Proof.
  intros uuid ts c H. apply parse_sound in H as [G _]. split; intros [a A].
  - exists a. exact (transform_means uuid c a G A).
  - exact (means_transform uuid c a G A).
Qed.
Print Assumptions C18_no_error_iff_well_formed.

Theorem C18_result_is_the_meaning : forall uuid ts c a, parse ts = Ok c ->
  transform uuid c = Ok (a, []) -> means c a.
Proof. exact (fun uuid ts c a H => transform_means uuid c a (proj1 (parse_sound ts c H))). Qed.
Print Assumptions C18_result_is_the_meaning.

Example C18_example : match to_ast gseg num_id (lit "x [m.f a \, b, {m.g}] y" ++ [10; 10]%N ++ lit "z") with
  | Ok (a, es) => es = []
  | _ => False
  end.
Proof. vm_compute. repeat split. Qed.

(** ** C19 *)
Theorem C19_ast_grammar_partial : forall uuid ts c a, parse ts = Ok c ->
  transform uuid c = Ok (a, []) -> ag_document any_word a.
Proof.
  exact (fun uuid ts c a H E => document_shape c a (proj1 (parse_sound ts c H))
           (transform_means uuid c a (proj1 (parse_sound ts c H)) E)).
Qed.
Print Assumptions C19_ast_grammar_partial.

Theorem C19_ident_argument_refuted : forall seg uuid, seg_laws seg ->
  exists a, to_ast seg uuid (lit "[m.f \[x z]") = Ok (a, []) /\ In (WIdent (lit "x")) (ast_words a) /\
    ~ ag_document text_only a.
Proof. exact ident_argument. Qed.
Print Assumptions C19_ident_argument_refuted.

Example C19_example : match to_ast gseg num_id (lit "x [m.<n.g> a, {m.g} c]") with
  | Ok (a, es) => es = [] /\ length (ast_words a) = 11
  | _ => False
  end.
Proof. vm_compute. repeat split. Qed.

(** ** C20 *)
Theorem C20_no_text_lost : forall uuid ts c a es, parse ts = Ok c ->
  transform uuid c = Ok (a, es) -> ast_words a = cst_words c.
Proof. exact (fun uuid ts c a es H => transform_words uuid c a es (proj1 (parse_sound ts c H))). Qed.
Print Assumptions C20_no_text_lost.

Example C20_example : match to_ast gseg num_id (lit "x \[[ .,,y {m") with
  | Ok (a, es) => length es = 5 /\ length (ast_words a) = 6
  | _ => False
  end.
Proof. vm_compute. repeat split. Qed.

(** ** C21 *)
Theorem C21_never_reported_refuted : forall uuid ts c a es, parse ts = Ok c -> transform uuid c = Ok (a, es) ->
  filter (of_kind [EAngleNotOpened; ECurlyNotOpened; ESquareNotOpened; EMismatchedBracket; ECommaNotFound]) es = [].
Proof.
  intros uuid ts c a es H E.
  rewrite (transform_kind uuid c a es (proj1 (parse_sound ts c H)) E _ (fun _ => []) (fun n _ => own_never n)).
  induction (cst_nodes c) as [|n ns IH]; [reflexivity|exact IH].
Qed.
Print Assumptions C21_never_reported_refuted.

Theorem C21_lone_close_dropped_refuted : forall seg uuid, seg_laws seg ->
  exists a, to_ast seg uuid (lit "a" ++ [10%N] ++ lit ">" ++ [10%N] ++ lit "b") = Ok (a, []) /\
    ast_words a = [WText (lit "a"); WText (lit "b")].
Proof. exact lone_close. Qed.
Print Assumptions C21_lone_close_dropped_refuted.

Example C21_example : forall seg uuid, seg_laws seg ->
  exists a e, to_ast seg uuid (lit "{m.f [m.g a }") = Ok (a, [e]) /\ fst e = ESquareNotClosed.
Proof. exact mismatched. Qed.

(** ** C22 *)
Theorem C22_unclosed_reported : forall uuid ts c a es, parse ts = Ok c -> transform uuid c = Ok (a, es) ->
  filter (of_kind [EAngleNotClosed; ECurlyNotClosed; ESquareNotClosed]) es = flat_map unclosed (cst_nodes c).
Proof.
  exact (fun uuid ts c a es H E => transform_kind uuid c a es (proj1 (parse_sound ts c H)) E _ _ (fun n _ => own_unclosed n)).
Qed.
Print Assumptions C22_unclosed_reported.

Example C22_example : match front gseg (lit "x {m.f [m.g <m.h y> }<m.k z") with
  | Ok c => map fst (flat_map unclosed (cst_nodes c)) = [ESquareNotClosed; EAngleNotClosed] /\
            match transform num_id c with Ok _ => True | _ => False end
  | _ => False
  end.
Proof. vm_compute. repeat split. Qed.

(** ** C23 *)
Theorem C23_dot_reported_twice_refuted : forall seg uuid, seg_laws seg ->
  exists a e, to_ast seg uuid (lit "[m.f a.b]") = Ok (a, [e; e]) /\ fst e = EUnexpectedDot.
Proof. exact dot_twice. Qed.
Print Assumptions C23_dot_reported_twice_refuted.

Theorem C23_dots_exactly : forall uuid ts c a es, parse ts = Ok c -> transform uuid c = Ok (a, es) ->
  filter (of_kind [EUnexpectedDot]) es = flat_map doubled_dots (cst_nodes c) /\
  Forall (fun n => good_head n -> doubled_dots n = stray_dots n ++ stray_dots n) (cst_nodes c).
Proof.
  intros uuid ts c a es H E. pose proof (proj1 (parse_sound ts c H)) as G. split.
  - exact (transform_kind uuid c a es G E _ _ own_dots).
  - eapply Forall_impl; [|exact (doc_nodes c G)]. exact good_head_dots.
Qed.
Print Assumptions C23_dots_exactly.

Example C23_example : match to_ast gseg num_id (lit "[m.f a.b.c, {m.g .}]") with
  | Ok (a, es) => length (filter (of_kind [EUnexpectedDot]) es) = 6
  | _ => False
  end.
Proof. vm_compute. repeat split. Qed.

(** ** C24 *)
Theorem C24_spaces_dropped_refuted : forall seg uuid, seg_laws seg ->
  exists a b c, to_ast seg uuid (lit "[m.f a b]") = Ok (a, []) /\ to_ast seg uuid (lit "[m.f a   b]") = Ok (b, []) /\
    to_ast seg uuid (lit "[m.f a" ++ [10%N] ++ lit "b]") = Ok (c, []) /\ bare a = bare b /\ bare a = bare c.
Proof. exact spaces_dropped. Qed.
Print Assumptions C24_spaces_dropped_refuted.

(** ** C81 *)
Theorem C81_spaces_never_matter : forall uuid ts1 ts2 c1 c2 a1 es1,
  map tk (strip [] false ts1) = map tk (strip [] false ts2) ->
  parse ts1 = Ok c1 -> parse ts2 = Ok c2 -> transform uuid c1 = Ok (a1, es1) ->
  exists a2 es2, transform uuid c2 = Ok (a2, es2) /\ bare a2 = bare a1.
Proof. exact spaces_never_matter. Qed.
Print Assumptions C81_spaces_never_matter.

Example C81_example :
  match tokenize_str gseg (lit "x [m.f a b,{n.g c]y"), tokenize_str gseg (lit "x [m.f a" ++ [10%N] ++ lit "   b , {n.g c" ++ [10%N; 10%N] ++ lit "]y") with
  | Ok ts1, Ok ts2 => map tk ts1 <> map tk ts2 /\ map tk (strip [] false ts1) = map tk (strip [] false ts2) /\
      match parse ts1, parse ts2 with
      | Ok c1, Ok c2 => match transform num_id c1, transform num_id c2 with
                        | Ok (a1, _), Ok (a2, _) => a1 <> a2 /\ bare a1 = bare a2
                        | _, _ => False
                        end
      | _, _ => False
      end
  | _, _ => False
  end.
Proof. vm_compute. repeat split; try reflexivity; discriminate. Qed.

(** A space after a lone backslash and a space outside brackets stay. *)
Example C81_example_kept :
  match tokenize_str gseg (lit "a b [m.f \ , c d]") with
  | Ok ts => length (strip [] false ts) = length ts - 3
  | _ => False
  end.
Proof. vm_compute. reflexivity. Qed.

(** ** C82 *)
Theorem C82_missing_brackets : forall ts c, parse ts = Ok c -> dangling false ts = false ->
  exists c', parse (close_missing [] ts) = Ok c' /\ flat_map unclosed (cst_nodes c') = [] /\
  forall uuid,
  (forall a es, transform uuid c = Ok (a, es) -> exists es', transform uuid c' = Ok (a, es')) /\
  (forall a es', transform uuid c' = Ok (a, es') -> exists es, transform uuid c = Ok (a, es)).
Proof. exact missing_closed_alike. Qed.
Print Assumptions C82_missing_brackets.

Example C82_example : match tokenize_str gseg (lit "x[m.f a{m.g <m.h b\>} c \\") with
  | Ok ts => dangling false ts = false /\
      length (close_missing [] ts) = length ts + 2 /\
      match parse ts, parse (close_missing [] ts) with
      | Ok c, Ok c' => match transform num_id c, transform num_id c' with
                       | Ok (a, es), Ok (a', es') => a' = a /\ length es = 2 /\ es' = []
                       | _, _ => False
                       end
      | _, _ => False
      end
  | _ => False
  end.
Proof. vm_compute. repeat split; reflexivity. Qed.

(** Without the condition: the bracket put in after a lone backslash would be escaped. *)
Example C82_example_dangling : match tokenize_str gseg (lit "[m.f \") with
  | Ok ts => dangling false ts = true
  | _ => False
  end.
Proof. vm_compute. reflexivity. Qed.

(** ** C25 *)
Theorem C25_ids_unique : forall uuid c a es, (forall i j, uuid i = uuid j -> i = j) ->
  transform uuid c = Ok (a, es) -> NoDup (map ast_id (ast_nodes a)).
Proof. exact transform_ids. Qed.
Print Assumptions C25_ids_unique.

Theorem C25_get_finds_the_node : forall uuid c a es, (forall i j, uuid i = uuid j -> i = j) ->
  transform uuid c = Ok (a, es) ->
  (forall x, In x (ast_nodes a) -> ast_get a (ast_id x) = Some x) /\
  (forall id, ~ In id (map ast_id (ast_nodes a)) -> ast_get a id = None).
Proof.
  exact (fun uuid c a es U E => conj (ast_get_node a (transform_ids uuid c a es U E)) (ast_get_none a)).
Qed.
Print Assumptions C25_get_finds_the_node.

Example C25_example : (forall i j, num_id i = num_id j -> i = j) /\
  match to_ast gseg num_id (lit "[m.f a, b]") with
  | Ok (a, _) => length (ast_nodes a) = 10
  | _ => False
  end.
Proof. split; [intros i j [= H]; apply Nnat.Nat2N.inj; exact H|vm_compute; reflexivity]. Qed.

(** ** C61 *)
Theorem C61_meaning_unique : forall c a b, means c a -> means c b -> erase a = erase b.
Proof. exact means_unique. Qed.
Print Assumptions C61_meaning_unique.

Theorem C61_well_formed_is_understood : forall uuid ts c a, parse ts = Ok c -> means c a ->
  exists b, transform uuid c = Ok (b, []) /\ erase b = erase a.
Proof.
  intros uuid ts c a H M. pose proof (proj1 (parse_sound ts c H)) as G.
  destruct (means_transform uuid c a G M) as [b E]. exists b. split; [exact E|].
  exact (means_unique c b a (transform_means uuid c b G E) M).
Qed.
Print Assumptions C61_well_formed_is_understood.

Example C61_example : match front gseg (lit "x [m.<n.g> a, {m.g} c]") with
  | Ok c => exists a, means c a
  | _ => False
  end.
Proof. 
  pose proof (fun ts c H => proj1 (C18_no_error_iff_well_formed num_id ts c H)) as X. unfold front.
  set (t := tokenize_str gseg (lit "x [m.<n.g> a, {m.g} c]")).
  assert (E : match t with Ok ts => match parse ts with Ok c => match transform num_id c with Ok (_, []) => True | _ => False end
                | _ => False end | _ => False end) by (vm_compute; exact I).
  destruct t as [ts|?|?|]; cbn [bind]; try exact E. specialize (X ts). destruct (parse ts) as [c|?|?|]; try exact E.
  specialize (X c eq_refl). destruct (transform num_id c) as [[a [|? ?]]|?|?|]; try destruct E. eauto.
 Qed.

(** ** C62 *)
Theorem C62_head_errors : forall uuid ts c a es, parse ts = Ok c -> transform uuid c = Ok (a, es) ->
  filter (of_kind [EModuleNotFound]) es = flat_map (misplaced EModuleNotFound 1 good_module) (cst_nodes c) /\
  filter (of_kind [EDotNotFound]) es = flat_map (misplaced EDotNotFound 2 good_dot) (cst_nodes c) /\
  filter (of_kind [EIdentifierNotFound]) es = flat_map (misplaced EIdentifierNotFound 3 good_ident) (cst_nodes c).
Proof.
  intros uuid ts c a es H E. pose proof (transform_kind uuid c a es (proj1 (parse_sound ts c H)) E) as K.
  split; [exact (K _ _ own_module)|]. split; [exact (K _ _ own_dot)|exact (K _ _ own_ident)].
Qed.
Print Assumptions C62_head_errors.

Theorem C62_comma_errors : forall uuid ts c a es, parse ts = Ok c -> transform uuid c = Ok (a, es) ->
  filter (of_kind [EUnexpectedComma]) es = flat_map bad_commas (cst_nodes c).
Proof.
  exact (fun uuid ts c a es H E => transform_kind uuid c a es (proj1 (parse_sound ts c H)) E _ _ own_commas).
Qed.
Print Assumptions C62_comma_errors.

Theorem C62_escape_errors : forall uuid ts c a es, parse ts = Ok c -> transform uuid c = Ok (a, es) ->
  filter (of_kind [EInvalidBackslash]) es = flat_map bad_escape (cst_nodes c).
Proof.
  exact (fun uuid ts c a es H E => transform_kind uuid c a es (proj1 (parse_sound ts c H)) E _ _ (fun n _ => own_escape n)).
Qed.
Print Assumptions C62_escape_errors.

Example C62_example : match to_ast gseg num_id (lit "[ m,f] [m.f ,a,,b,] \q") with
  | Ok (a, es) => length es = 7
  | _ => False
  end.
Proof. vm_compute. repeat split. Qed.

(** ** C63 *)
Theorem C63_argument_range_refuted : forall seg uuid, seg_laws seg ->
  exists a i k i' m f x l l' y, to_ast seg uuid (lit "aa [m.f b]") = Ok (a, []) /\
    In (AInner k i [m; f; AInner NExpr i' [ALeaf FText x (Some y) l] l'] (mkloc (mkpos 0 3) (mkpos 0 10))) (ast_nodes a) /\
    lstart l = mkpos 0 8 /\ lstart l' = mkpos 0 0.
Proof. exact argument_range. Qed.
Print Assumptions C63_argument_range_refuted.

Theorem C63_no_argument_range : forall seg, seg_laws seg -> forall uuid s ts c a es,
  tokenize_str seg s = Ok ts -> parse ts = Ok c -> transform uuid c = Ok (a, es) ->
  forall k i cs l, In (AInner k i cs l) (ast_nodes a) -> In k [NAngle; NCurly; NSquare] ->
  forall i' xs l', In (AInner NExpr i' xs l') cs ->
    lstart l' = mkpos 0 0 /\ exists x r, xs = x :: r /\ lstart (ast_location x) <> mkpos 0 0.
Proof. exact arguments_start. Qed.
Print Assumptions C63_no_argument_range.

Example C63_example : match to_ast gseg num_id (lit "[m.f b,{m.g c") with
  | Ok (a, _) => exists i cs l, In (AInner NSquare i cs l) (ast_nodes a) /\
      exists i' xs l', In (AInner NExpr i' xs l') cs
  | _ => False
  end.
Proof. vm_compute. do 3 eexists. split; [do 3 right; left; reflexivity|]. do 3 eexists. do 2 right; left; reflexivity. Qed.

(** ** C79 *)
Theorem C79_what_is_read : forall uuid ts c a es, parse ts = Ok c -> transform uuid c = Ok (a, es) -> reads c a.
Proof.
  intros uuid ts c a es P T. apply parse_sound in P as [G _]. exact (transform_reads uuid c a es G T).
Qed.
Print Assumptions C79_what_is_read.

(** The tree has the same form for tokens of the same kinds, wherever they stand. *)
Theorem C80_only_kinds_matter : forall ts1 ts2 c1 c2, map tk ts1 = map tk ts2 ->
  parse ts1 = Ok c1 -> parse ts2 = Ok c2 -> unloc c1 = unloc c2.
Proof. exact same_kinds. Qed.
Print Assumptions C80_only_kinds_matter.

Theorem C79_one_reading : forall c a b, reads c a -> reads c b -> erase a = erase b.
Proof. exact reads_unique. Qed.
Print Assumptions C79_one_reading.

Theorem C79_same_ids : forall uuid c1 c2 a1 a2 es1 es2, transform uuid c1 = Ok (a1, es1) -> transform uuid c2 = Ok (a2, es2) ->
  erase a1 = erase a2 -> a1 = a2.
Proof. exact same_ids. Qed.
Print Assumptions C79_same_ids.

Theorem C79_every_reading : forall uuid ts c a, parse ts = Ok c -> reads c a ->
  exists b es, transform uuid c = Ok (b, es) /\ erase b = erase a.
Proof.
  intros uuid ts c a P R. apply parse_sound in P as [G _]. exact (reads_transform uuid c a G R).
Qed.
Print Assumptions C79_every_reading.

Example C79_example : match tokenize_str gseg (lit "x [m,f. a,,{ b \q") with
  | Ok ts => match parse ts with
             | Ok c => match transform num_id c with
                       | Ok (a, es) => length es = 12 /\ length (ast_nodes a) = 14
                       | _ => False
                       end
             | _ => False
             end
  | _ => False
  end.
Proof. vm_compute. repeat split. Qed.
