(** What a build prints. *)
From Coq Require Import String List NArith Arith Bool.
From Verif Require Import Base Plugin Utf8 Compile Project SpecProject DownloadProofs Utf8Proofs BuildProofs SpecBuild.
Import ListNotations.

Lemma says_app : forall a b, says (a ++ b) = says a ++ says b.
Proof. intros a b. apply flat_map_app. Qed.

Lemma writes_silent : forall p b, says (writes p b) = [].
Proof. intros p b. unfold writes, says. cbn [flat_map app]. induction b as [|x b IH]; [reflexivity|exact IH]. Qed.

Lemma out_ops_silent : forall backend f outs, says (out_ops backend f outs) = [].
Proof.
  intros backend f outs. unfold out_ops. destruct outs as [|x outs]; [reflexivity|].
  rewrite says_app. unfold make_out. replace (says (if dir f (lit "out") then [] else [Mkdir (lit "out")])) with (@nil str) by (destruct (dir f (lit "out")); reflexivity).
  cbn [app]. unfold all_outs. generalize (x :: outs). clear. induction l as [|y l IH]; [reflexivity|].
  cbn [flat_map]. rewrite says_app, writes_silent. exact IH.
Qed.

Lemma listed : forall names, Forall (fun n => from_utf8 n <> None) names -> exists texts, Forall (Forall scalar) texts /\ map utf8 texts = names /\
  says (map (fun n => Print (lit "  - ./out/" ++ match from_utf8 n with Some s => s | None => [] end)) names) =
  map (fun s => lit "  - ./out/" ++ s) texts.
Proof.
  induction 1 as [|n names H _ (texts & A & B & C)]; [exists []; repeat constructor|].
  destruct (from_utf8 n) as [s|] eqn:E; [|congruence]. destruct (from_utf8_inv n s E) as [S ->].
  exists (s :: texts). split; [constructor; assumption|]. split; [cbn [map]; congruence|].
  cbn [map]. rewrite E. unfold says in *. cbn [flat_map]. rewrite C. reflexivity.
Qed.

Theorem build_says : forall seg uuid checks w o wasm outs_of backend docs t f os,
  build seg uuid checks w o wasm docs outs_of backend t f = (os, Ok tt) ->
  exists names, Forall (Forall scalar) names /\ map utf8 names = outs_of (apply_all f os) /\
    says os = lit "Build succeeded." :: map (fun n => lit "  - ./out/" ++ n) names.
Proof.
  intros seg uuid checks w o wasm outs_of backend docs t f os H.
  destruct (build_cases seg uuid checks w o wasm outs_of backend docs t f)
    as [(_ & X & _)|(entries & pv & ps & -> & OP & PN & [(b & nm & rest & outs & h' & extra & _ & _ & _ & _ & _ & X)|(outs & h' & said & C & P & F & K & T)])].
  - exfalso. rewrite H in X. apply (X tt). reflexivity.
  - exfalso. rewrite H in X. apply (X tt). reflexivity.
  - rewrite H in F, K, T. cbn [fst snd] in *. destruct (proj1 K eq_refl) as [_ U]. destruct (listed _ U) as (names & A & B & D).
    exists names. split; [exact A|]. rewrite F. split.
    + rewrite B, apply_all_app. f_equal. symmetry. apply prints_fs. constructor; [exact I|exact P].
    + rewrite says_app, out_ops_silent. rewrite (T eq_refl). change (says (Print ?s :: ?l)) with (s :: says l). cbn [app]. f_equal. exact D.
Qed.

(** Success is only announced when every document is compiled and written. *)
Theorem build_silent : forall seg uuid checks w o wasm outs_of backend docs t f,
  (forall entries, docs = Some entries -> NoDup entries) ->
  let r := build seg uuid checks w o wasm docs outs_of backend t f in
  says (fst r) <> [] ->
  exists entries pv ps outs h' rest, docs = Some entries /\ open_plugins wasm t f = ([], Ok pv) /\ plugins_new pv = Ok ps /\
    compiled seg uuid checks w ps f 0 entries [] outs h' /\
    (forall stem gen, In (stem, gen) outs -> file (apply_all f (fst r)) (out_file backend stem) = Some (utf8 gen)) /\
    says (fst r) = lit "Build succeeded." :: rest.
Proof.
  intros seg uuid checks w o wasm outs_of backend docs t f ND r S. subst r.
  destruct (build_cases seg uuid checks w o wasm outs_of backend docs t f)
    as [(F & _)|(entries & pv & ps & -> & OP & PN & [(b & nm & rest & outs & h' & extra & _ & _ & _ & F & K & _)|(outs & h' & said & C & P & F & _)])].
  - exfalso. apply S. rewrite F. reflexivity.
  - exfalso. apply S. rewrite F, says_app, out_ops_silent. destruct K as [->| ->]; reflexivity.
  - exists entries, pv, ps, outs, h', (says said). rewrite F. repeat (split; [assumption || reflexivity|]). split.
    + rewrite apply_all_app. rewrite prints_fs by (constructor; [exact I|exact P]).
      exact (proj1 (built_files seg uuid checks w ps backend f 0 entries [] outs h' C (ND _ eq_refl))).
    + rewrite says_app, out_ops_silent. reflexivity.
Qed.
