(** Building. *)
From Coq Require Import String List NArith Arith Bool Lia.
From Verif Require Import Base Plugin Utf8 Framing Json Serde Compile Project SpecProject PluginProofs SerdeProofs ProjectProofs CacheProofs DownloadProofs DownloadProofs2 AddProofs AddProofs2 Utf8Proofs.
Import ListNotations.

(** ** Names *)
Lemma extension_cases : forall name,
  (exists stem e, name = stem ++ 46%N :: e /\ no 46 e /\ stem <> [] /\ stem_extension name = (stem, Some e)) \/
  (stem_extension name = (name, None) /\ (no 46 name \/ exists e, name = 46%N :: e /\ no 46 e)).
Proof.
  intro name. unfold stem_extension.
  set (g := fix before_dot (r acc : bytes) : option (bytes * bytes) :=
           match r with [] => None | c :: r' => if N.eqb c 46 then Some (r', acc) else before_dot r' (c :: acc) end).
  assert (G : forall r acc, (no 46 r /\ g r acc = None) \/ exists a b, r = a ++ 46%N :: b /\ no 46 a /\ g r acc = Some (b, rev a ++ acc)).
  { induction r as [|c r IH]; intro acc; [left; split; [intros []|reflexivity]|]. cbn [g]. destruct (N.eqb_spec c 46) as [->|N].
    - right. exists [], r. repeat split. intros [].
    - destruct (IH (c :: acc)) as [[A B]|(a & b & -> & A & B)].
      + left. split; [|exact B]. intros [E|I]; [congruence|exact (A I)].
      + right. exists (c :: a), b. repeat split; [|rewrite B; cbn [rev]; rewrite <- app_assoc; reflexivity].
        intros [E|I]; [congruence|exact (A I)]. }
  destruct (G (rev name) []) as [[A B]|(a & b & E & A & B)].
  - right. rewrite B. split; [reflexivity|]. left. intro I. apply A. apply in_rev in I. exact I.
  - assert (F : name = rev b ++ 46%N :: rev a).
    { rewrite <- (rev_involutive name), E, rev_app_distr. cbn [rev]. rewrite <- app_assoc. reflexivity. }
    assert (NA : no 46 (rev a)) by (intro I; apply A; apply in_rev; exact I).
    rewrite B, app_nil_r. destruct b as [|x b].
    + right. split; [reflexivity|]. right. exists (rev a). auto.
    + left. exists (rev (x :: b)), (rev a). repeat split; try assumption. cbn [rev]. intro X. apply app_eq_nil in X as [_ X]. discriminate.
Qed.

Lemma extension_document : forall name, match snd (stem_extension name) with Some e => str_eqb e (lit "[]") | None => false end = true
  <-> document_name (stem_of name) name.
Proof.
  intro name. unfold stem_of, document_name. destruct (extension_cases name) as [(stem & e & E & N & S & X)|[X C]]; rewrite X; cbn [fst snd].
  - rewrite str_eqb_eq. split.
    + intros ->. split; [exact E|exact S].
    + intros [F _]. rewrite E in F. apply app_inv_head in F. injection F as ->. reflexivity.
  - split; [discriminate|]. intros [F _]. exfalso. rewrite <- (app_nil_r name) in F at 1. apply app_inv_head in F. discriminate.
Qed.
Lemma document_stem : forall stem name, document_name stem name -> stem_of name = stem.
Proof.
  intros stem name [-> S]. unfold stem_of. destruct (extension_cases (stem ++ lit ".[]")) as [(st & e & E & N & S' & X)|[X C]]; rewrite X; cbn [fst].
  - change (lit ".[]") with (46%N :: lit "[]") in E.
    assert (L : lit "[]" = e).
    { assert (A : forall (a b c d : bytes), no 46 c -> no 46 d -> a ++ 46%N :: c = b ++ 46%N :: d -> c = d).
      { intros a. induction a as [|x a IH]; intros [|y b] c d C D H; cbn [app] in H.
        - congruence.
        - injection H as <- H. exfalso. apply C. rewrite H. apply in_or_app. right. left. reflexivity.
        - injection H as -> H. exfalso. apply D. rewrite <- H. apply in_or_app. right. left. reflexivity.
        - injection H as _ H. eapply IH; eassumption. }
      apply (A _ _ _ _) in E; [exact E| |exact N]. vm_compute. intuition discriminate. }
    subst e. apply app_inv_tail in E. congruence.
  - exfalso. destruct C as [C|(e & E & N)].
    + apply C. apply in_or_app. right. left. reflexivity.
    + destruct stem as [|x stem]; [apply S; reflexivity|]. cbn [app] in E. injection E as _ E. apply N. rewrite <- E. apply in_or_app. right. left. reflexivity.
Qed.

(** ** Documents *)
Definition make_out (f : fs) : list op := if dir f (lit "out") then [] else [Mkdir (lit "out")].
Definition all_outs (backend : str) (outs : list (str * str)) : list op :=
  flat_map (fun x => writes (out_file backend (fst x)) (utf8 (snd x))) outs.
Definition out_ops (backend : str) (f : fs) (outs : list (str * str)) : list op :=
  match outs with [] => [] | _ => make_out f ++ all_outs backend outs end.

Lemma out_not_docs : forall backend stem name, out_file backend stem <> lit "docs/" ++ name.
Proof. intros backend stem name H. unfold out_file in H. vm_compute in H. discriminate. Qed.

Section Docs.
  Variable seg : str -> list str.
  Variable uuid : nat -> nat -> str.
  Variable checks : bool.
  Variable w : world.
  Variable ps : plugins.
  Variable o : outside.
  Variable backend : str.
  Notation compiled := (compiled seg uuid checks w ps).
  Notation unbuilt := (unbuilt seg uuid checks w ps o backend).
  Notation build_docs := (build_docs seg uuid checks w o ps backend).

  Definition same_docs (f g : fs) : Prop := forall name, file f (lit "docs/" ++ name) = file g (lit "docs/" ++ name).
  Lemma compiled_ext : forall f g n entries h outs h', same_docs f g -> compiled f n entries h outs h' -> compiled g n entries h outs h'.
  Proof.
    intros f g n entries h outs h' S C. induction C.
    - constructor.
    - constructor; assumption.
    - eapply compiled_document; try eassumption. rewrite <- (S (utf8 stem ++ lit ".[]")). assumption.
  Qed.

  Lemma document_dec : forall name, (exists stem e, stem_extension name = (stem, Some e) /\ str_eqb e (lit "[]") = true /\ document_name stem name) \/
    (match snd (stem_extension name) with Some e => str_eqb e (lit "[]") | None => false end = false /\ ~ is_document name).
  Proof.
    intro name. pose proof (extension_document name) as D. unfold stem_of in D. destruct (stem_extension name) as [stem ext] eqn:E. cbn [fst snd] in *.
    destruct ext as [e|]; [destruct (str_eqb e (lit "[]")) eqn:B|].
    - left. exists stem, e. repeat split; try assumption; apply D; reflexivity.
    - right. split; [reflexivity|]. intros [st H]. pose proof (document_stem _ _ H) as S. unfold stem_of in S. rewrite E in S. cbn [fst] in S. subst st.
      apply D in H. discriminate.
    - right. split; [reflexivity|]. intros [st H]. pose proof (document_stem _ _ H) as S. unfold stem_of in S. rewrite E in S. cbn [fst] in S. subst st.
      apply D in H. discriminate.
  Qed.

  Theorem build_docs_cases : forall entries n h f,
    (exists outs h', compiled f n entries h outs h' /\ build_docs n entries h f = (out_ops backend f outs, Ok tt)) \/
    exists before name rest outs h' extra, entries = before ++ name :: rest /\ compiled f n before h outs h' /\
      (from_utf8 (stem_of name) = None \/ unbuilt f (n + length before) name h') /\
      fst (build_docs n entries h f) = out_ops backend f outs ++ extra /\ (extra = [] \/ extra = [Mkdir (lit "out")]) /\
      forall x, snd (build_docs n entries h f) <> Ok x.
  Proof.
    induction entries as [|name entries IH]; intros n h f.
    { left. exists [], h. split; [constructor|reflexivity]. }
    remember (build_docs n (name :: entries) h f) as R eqn:E. cbn [Project.build_docs] in E.
    pose proof (document_dec name) as D. destruct (stem_extension name) as [stem ext] eqn:X. cbn [snd] in D. rewrite ibind_pure in E.
    destruct (from_utf8 stem) as [file_stem|] eqn:U; cbn [ok_or] in E; cycle 1.
    { right. exists [], name, entries, [], h, []. split; [reflexivity|]. split; [constructor|].
      split; [left; unfold stem_of; rewrite X; exact U|]. subst R. split; [reflexivity|]. split; [left; reflexivity|]. intros x H; discriminate. }
    apply from_utf8_inv in U as [FS ->].
    destruct D as [(st & e & Y & B & D)|[B D]]; cycle 1.
    { rewrite B in E. destruct (IH (S n) h f) as [(outs & h' & C & G)|(before & nm & rest & outs & h' & extra & -> & C & Z & G & K & NO)].
      - left. exists outs, h'. split; [constructor; assumption|]. subst R. exact G.
      - right. exists (name :: before), nm, rest, outs, h', extra. split; [reflexivity|]. split; [constructor; assumption|].
        cbn [length]. rewrite <- plus_n_Sm. subst R. auto. }
    injection Y as <- ->. rewrite B in E. destruct D as [-> SN].
    assert (SN' : file_stem <> []) by (intros ->; apply SN; reflexivity).
    assert (DN : document_name (utf8 file_stem) (utf8 file_stem ++ lit ".[]")) by (split; [reflexivity|exact SN]).
    assert (READ : (exists b text, file f (lit "docs/" ++ utf8 file_stem ++ lit ".[]") = Some b /\ from_utf8 b = Some text) \/
                   (forall b, file f (lit "docs/" ++ utf8 file_stem ++ lit ".[]") = Some b -> from_utf8 b = None)).
    { destruct (file f (lit "docs/" ++ utf8 file_stem ++ lit ".[]")) as [b|]; [|right; discriminate].
      destruct (from_utf8 b) as [text|] eqn:Q; [left; exists b, text; auto|right; intros b' [= <-]; exact Q]. }
    destruct READ as [(b & text & RB & RT)|RN]; cycle 1.
    { right. exists [], (utf8 file_stem ++ lit ".[]"), entries, [], h, []. split; [reflexivity|]. split; [constructor|].
      split; [right; exists file_stem; split; [exact DN|]; left; exact RN|].
      unfold ibind at 1, read_to_string in E. destruct (file f (lit "docs/" ++ utf8 file_stem ++ lit ".[]")) as [b|] eqn:RB.
      - rewrite (RN b eq_refl) in E. subst R. split; [reflexivity|]. split; [left; reflexivity|]. intros x H; discriminate.
      - subst R. split; [reflexivity|]. split; [left; reflexivity|]. intros x H; discriminate. }
    rewrite (ibind_step _ _ f [] text) in E by (unfold read_to_string; rewrite RB, RT; reflexivity). cbn [apply_all fold_left app] in E.
    destruct (compile seg (uuid n) checks w ps text h) as [r h1] eqn:CR. rewrite ibind_pure in E.
    assert (UB : (forall gen, r <> Ok gen) \/ (dir f (lit "out") = false /\ (file f (lit "out") <> None \/ denied o (lit "out") = true)) \/
                 ~ writable o (apply f (Mkdir (lit "out"))) (out_file backend file_stem) -> unbuilt f (n + 0) (utf8 file_stem ++ lit ".[]") h).
    { intro H. exists file_stem. split; [exact DN|]. right. exists b, text. split; [exact RB|]. split; [exact RT|]. rewrite Nat.add_0_r, CR. exact H. }
    destruct r as [gen| | |]; try (right; exists [], (utf8 file_stem ++ lit ".[]"), entries, [], h, [];
      split; [reflexivity|]; split; [constructor|]; split; [right; apply UB; left; intros ge H; discriminate|];
      subst R; split; [reflexivity|]; split; [left; reflexivity|]; intros x H; discriminate).
    assert (M : (exists e', create_dir_all o (lit "out") f = ([], Err e') /\ dir f (lit "out") = false /\ (file f (lit "out") <> None \/ denied o (lit "out") = true))
                \/ create_dir_all o (lit "out") f = (make_out f, Ok tt)).
    { unfold make_out, create_dir_all. destruct (dir f (lit "out")); [right; reflexivity|].
      destruct (file f (lit "out")) as [c|]; [left; eexists; split; [reflexivity|]; split; [reflexivity|left; discriminate]|].
      destruct (denied o (lit "out")); [left; eexists; split; [reflexivity|]; auto|right; reflexivity]. }
    destruct M as [(e' & M & M')|M].
    { right. exists [], (utf8 file_stem ++ lit ".[]"), entries, [], h, []. split; [reflexivity|]. split; [constructor|].
      split; [right; apply UB; right; left; exact M'|]. unfold ibind at 1 in E. rewrite M in E. cbn [app] in E. subst R.
      split; [reflexivity|]. split; [left; reflexivity|]. intros x H; discriminate. }
    rewrite (ibind_step _ _ f _ tt M) in E. set (f1 := apply_all f (make_out f)) in E.
    assert (D1 : forall q, dir f1 q = dir (apply f (Mkdir (lit "out"))) q).
    { intro q. unfold f1, make_out. cbn [apply dir]. destruct (dir f (lit "out")) eqn:Q; [|reflexivity].
      destruct (str_eqb (lit "out") q) eqn:Q'; [|reflexivity]. apply str_eqb_eq in Q'. subst q. exact Q. }
    change (utf8 (lit "out/" ++ file_stem ++ lit "." ++ backend)) with (out_file backend file_stem) in E.
    destruct (writable_dec o f1 (out_file backend file_stem)) as [W|W]; cycle 1.
    { destruct (write_file_not o (out_file backend file_stem) (utf8 gen) f1 W) as [e' Q]. unfold ibind in E. rewrite Q in E. cbn [app] in E.
      right. exists [], (utf8 file_stem ++ lit ".[]"), entries, [], h, (make_out f). split; [reflexivity|]. split; [constructor|].
      split. { right. apply UB. right. right. intro H. apply W. eapply writable_ext; [|exact H]. intro q. symmetry. apply D1. }
      subst R. cbn [fst]. rewrite app_nil_r. split; [reflexivity|]. split; [unfold make_out; destruct (dir f (lit "out")); auto|]. intros x H; discriminate. }
    rewrite (ibind_step _ _ f1 _ tt (write_file_ok o _ (utf8 gen) f1 W)) in E.
    set (f2 := apply_all f1 (writes (out_file backend file_stem) (utf8 gen))) in E.
    assert (SD : same_docs f2 f).
    { intro q. unfold f2. rewrite writes_file. destruct (str_eqb (out_file backend file_stem) (lit "docs/" ++ q)) eqn:Q.
      - apply str_eqb_eq in Q. exfalso. exact (out_not_docs _ _ _ Q).
      - unfold f1, make_out. destruct (dir f (lit "out")); reflexivity. }
    assert (D2 : forall q, dir f2 q = dir (apply f (Mkdir (lit "out"))) q) by (intro q; unfold f2; rewrite writes_dir; apply D1).
    assert (O2 : dir f2 (lit "out") = true) by (rewrite D2; reflexivity).
    assert (OPS : forall outs, make_out f ++ writes (out_file backend file_stem) (utf8 gen) ++ out_ops backend f2 outs
                  = out_ops backend f ((file_stem, gen) :: outs)).
    { intro outs. unfold out_ops. cbn [all_outs flat_map fst snd]. f_equal. f_equal. destruct outs as [|x outs]; [reflexivity|].
      unfold make_out. rewrite O2. reflexivity. }
    destruct (IH (S n) h1 f2) as [(outs & h' & C & G)|(before & nm & rest & outs & h' & extra & -> & C & Z & G & K & NO)].
    - left. exists ((file_stem, gen) :: outs), h'. split.
      + eapply compiled_document; try eassumption. eapply compiled_ext; [exact SD|exact C].
      + rewrite G in E. subst R. cbn [app]. rewrite <- OPS. reflexivity.
    - right. exists ((utf8 file_stem ++ lit ".[]") :: before), nm, rest, ((file_stem, gen) :: outs), h', extra.
      split; [reflexivity|]. split; [eapply compiled_document; try eassumption; eapply compiled_ext; [exact SD|exact C]|].
      split.
      { destruct Z as [Z|(st & DS & Z)]; [left; exact Z|right]. exists st. split; [exact DS|]. cbn [length]. rewrite <- plus_n_Sm.
        destruct Z as [Z|(b' & text' & Q1 & Q2 & Q3)].
        - left. intros b' Q. apply Z. rewrite (SD nm). exact Q.
        - right. exists b', text'. rewrite <- (SD nm). split; [exact Q1|]. split; [exact Q2|]. destruct Q3 as [Q3|[[Q3 _]|Q3]].
          + left. exact Q3.
          + congruence.
          + right. right. intro H. apply Q3. eapply writable_ext; [|exact H]. intro q. cbn [apply dir]. rewrite D2. cbn [apply dir].
            destruct (str_eqb (lit "out") q); reflexivity. }
      destruct (build_docs (S n) (before ++ nm :: rest) h1 f2) as [os r]. cbn [fst snd] in *. subst os R. cbn [fst snd app].
      split; [rewrite <- OPS, <- !app_assoc; reflexivity|]. auto.
  Qed.
End Docs.

Section Files.
  Variable seg : str -> list str.
  Variable uuid : nat -> nat -> str.
  Variable checks : bool.
  Variable w : world.
  Variable ps : plugins.
  Variable backend : str.
  Notation compiled := (compiled seg uuid checks w ps).

  Lemma out_file_inj : forall a b, Forall scalar a -> Forall scalar b -> out_file backend a = out_file backend b -> a = b.
  Proof.
    intros a b A B H. unfold out_file in H. rewrite !utf8_app in H. apply app_inv_head in H. rewrite !app_assoc in H.
    apply app_inv_tail in H. apply app_inv_tail in H. apply utf8_inj in H; assumption.
  Qed.

  Lemma compiled_stems : forall f n entries h outs h', compiled f n entries h outs h' ->
    forall stem, In stem (map fst outs) <-> stem <> [] /\ Forall scalar stem /\ In (utf8 stem ++ lit ".[]") entries.
  Proof.
    intros f n entries h outs h' C. induction C as [n h|n name names h outs h' N C IH|n stem b text gen h1 names h outs h' N F R T G C IH]; intro s.
    - cbn. tauto.
    - rewrite IH. split; intros (A & B & D); (split; [exact A|]); (split; [exact B|]); [right; exact D|].
      destruct D as [->|D]; [|exact D]. exfalso. apply N. exists (utf8 s). split; [reflexivity|]. intro X. apply A.
      destruct s as [|c s]; [reflexivity|]. exfalso. cbn [utf8 map concat] in X. apply app_eq_nil in X as [X _].
      unfold utf8_char in X. repeat match type of X with (if ?x then _ else _) = _ => destruct x end; discriminate.
    - cbn [map fst In]. rewrite IH. split.
      + intros [<-|(A & B & D)]; [repeat split; try assumption; left; reflexivity|]. repeat split; try assumption. right. exact D.
      + intros (A & B & [D|D]); [left|right; auto]. apply app_inv_tail in D. apply utf8_inj in D; assumption.
  Qed.
  Lemma compiled_nodup : forall f n entries h outs h', compiled f n entries h outs h' -> NoDup entries -> NoDup (map fst outs).
  Proof.
    intros f n entries h outs h' C. induction C as [n h|n name names h outs h' N C IH|n stem b text gen h1 names h outs h' N F R T G C IH]; intro D.
    - constructor.
    - inversion D; subst. auto.
    - inversion D as [|? ? X D']; subst. cbn [map fst]. constructor; [|auto]. intro I. apply X.
      apply (compiled_stems _ _ _ _ _ _ C) in I as (_ & _ & I). exact I.
  Qed.
  Lemma compiled_scalar : forall f n entries h outs h', compiled f n entries h outs h' -> Forall (fun x => Forall scalar (fst x)) outs.
  Proof. intros f n entries h outs h' C. induction C; [constructor|assumption|constructor; assumption]. Qed.

  Lemma all_outs_other : forall outs f p, (forall stem, In stem (map fst outs) -> out_file backend stem <> p) ->
    file (apply_all f (all_outs backend outs)) p = file f p.
  Proof.
    induction outs as [|[s g] outs IH]; intros f p N; [reflexivity|]. cbn [all_outs flat_map fst snd]. rewrite apply_all_app.
    fold (all_outs backend outs). rewrite IH by (intros st I; apply N; right; exact I). rewrite writes_file.
    destruct (str_eqb (out_file backend s) p) eqn:E; [|reflexivity]. apply str_eqb_eq in E. exfalso. apply (N s); [left; reflexivity|exact E].
  Qed.
  Lemma all_outs_in : forall outs f stem gen, NoDup (map fst outs) -> Forall (fun x => Forall scalar (fst x)) outs -> In (stem, gen) outs ->
    file (apply_all f (all_outs backend outs)) (out_file backend stem) = Some (utf8 gen).
  Proof.
    induction outs as [|[s g] outs IH]; intros f stem gen D F I; [destruct I|]. cbn [map fst] in D. inversion D as [|? ? N D']; subst.
    inversion F as [|? ? F1 F']; subst. cbn [fst] in F1.
    cbn [all_outs flat_map fst snd]. rewrite apply_all_app. fold (all_outs backend outs). destruct I as [I|I].
    - injection I as <- <-. rewrite all_outs_other.
      + rewrite writes_file, str_eqb_refl. reflexivity.
      + intros st J E. apply N. apply in_map_iff in J as ([s' g'] & <- & J). cbn [fst] in *.
        apply out_file_inj in E; [|rewrite Forall_forall in F'; exact (F' _ J)|exact F1]. subst s'. apply in_map_iff. exists (s, g'). auto.
    - apply IH; assumption.
  Qed.
  Lemma make_out_file : forall f q, file (apply_all f (make_out f)) q = file f q.
  Proof. intros f q. unfold make_out. destruct (dir f (lit "out")); reflexivity. Qed.

  Theorem built_files : forall f n entries h outs h', compiled f n entries h outs h' -> NoDup entries ->
    (forall stem gen, In (stem, gen) outs -> file (apply_all f (out_ops backend f outs)) (out_file backend stem) = Some (utf8 gen)) /\
    (forall p, (forall stem, In stem (map fst outs) -> out_file backend stem <> p) ->
       file (apply_all f (out_ops backend f outs)) p = file f p).
  Proof.
    intros f n entries h outs h' C D. pose proof (compiled_nodup _ _ _ _ _ _ C D) as DO. pose proof (compiled_scalar _ _ _ _ _ _ C) as SO.
    destruct outs as [|x outs]; [split; [intros ? ? []|reflexivity]|]. unfold out_ops. set (l := x :: outs) in *. clearbody l. clear x outs C. split.
    - intros stem gen I. rewrite apply_all_app. apply all_outs_in; assumption.
    - intros p N. rewrite apply_all_app, all_outs_other by exact N. apply make_out_file.
  Qed.
End Files.

Lemma open_plugins_none : forall wasm t f, fst (open_plugins wasm t f) = [].
Proof.
  intros wasm t. induction t as [|[name [p fl]] t IH]; intro f; [reflexivity|]. cbn [open_plugins]. unfold ibind at 1, open_plugin.
  destruct (match file f p with Some b => _ | None => _ end) as [x| | |]; try reflexivity.
  cbn [apply_all fold_left app]. unfold ibind, done. specialize (IH f). destruct (open_plugins wasm t f) as [os r]. cbn [fst] in IH. subst os.
  destruct r; reflexivity.
Qed.

Definition prints (os : list op) : Prop := Forall (fun x => match x with Print _ => True | _ => False end) os.
Lemma prints_fs : forall os f, prints os -> apply_all f os = f.
Proof.
  intros os f P. induction P as [|x os H P IH]; [reflexivity|]. destruct x; try destruct H. exact IH.
Qed.
Lemma print_outs_prints : forall names f, prints (fst (print_outs names f)).
Proof.
  induction names as [|name names IH]; intro f; cbn [print_outs]; [constructor|]. rewrite ibind_pure.
  destruct (ok_or (from_utf8 name) _) as [a| | |]; try constructor. rewrite (ibind_step _ _ f [Print (lit "  - ./out/" ++ a)] tt) by reflexivity.
  specialize (IH (apply_all f [Print (lit "  - ./out/" ++ a)])). destruct (print_outs names _) as [os r]. cbn [fst app] in *. constructor; [exact I|exact IH].
Qed.
Lemma print_outs_ok : forall names f, (snd (print_outs names f) = Ok tt <-> Forall (fun n => from_utf8 n <> None) names) /\
  (snd (print_outs names f) = Ok tt ->
   fst (print_outs names f) = map (fun n => Print (lit "  - ./out/" ++ match from_utf8 n with Some s => s | None => [] end)) names).
Proof.
  induction names as [|name names IH]; intro f; cbn [print_outs].
  - split; [split; [constructor|reflexivity]|reflexivity].
  - rewrite ibind_pure. destruct (from_utf8 name) as [s|] eqn:U; cbn [ok_or]; cycle 1.
    { split; [|discriminate]. split; [discriminate|]. intro F. inversion F. congruence. }
    rewrite (ibind_step _ _ f [Print (lit "  - ./out/" ++ s)] tt) by reflexivity.
    destruct (IH (apply_all f [Print (lit "  - ./out/" ++ s)])) as [A B]. destruct (print_outs names _) as [os r]. cbn [fst snd app map] in *.
    split.
    + rewrite A. split; intro F; [constructor; [congruence|exact F]|inversion F; assumption].
    + intro H. rewrite U. f_equal. apply B. exact H.
Qed.

(** ** Building as a whole *)
Section Whole.
  Variable seg : str -> list str.
  Variable uuid : nat -> nat -> str.
  Variable checks : bool.
  Variable w : world.
  Variable o : outside.
  Variable wasm : bytes -> option (list metadata).
  Variable outs_of : fs -> list bytes.
  Variable backend : str.
  Notation compiled := (compiled seg uuid checks w).
  Notation build docs t := (build seg uuid checks w o wasm docs outs_of backend t).

  Theorem build_cases : forall docs t f,
    (fst (build docs t f) = [] /\ (forall x, snd (build docs t f) <> Ok x) /\
       (docs = None \/ (forall pv ps, open_plugins wasm t f = ([], Ok pv) -> plugins_new pv <> Ok ps))) \/
    exists entries pv ps, docs = Some entries /\ open_plugins wasm t f = ([], Ok pv) /\ plugins_new pv = Ok ps /\
      ((exists before name rest outs h' extra, entries = before ++ name :: rest /\ compiled ps f 0 before [] outs h' /\
          (from_utf8 (stem_of name) = None \/ unbuilt seg uuid checks w ps o backend f (length before) name h') /\
          fst (build docs t f) = out_ops backend f outs ++ extra /\ (extra = [] \/ extra = [Mkdir (lit "out")]) /\
          forall x, snd (build docs t f) <> Ok x) \/
       (exists outs h' said, compiled ps f 0 entries [] outs h' /\ prints said /\
          fst (build docs t f) = out_ops backend f outs ++ Print (lit "Build succeeded.") :: said /\
          let f' := apply_all f (out_ops backend f outs) in
          (snd (build docs t f) = Ok tt <-> dir f' (lit "out") = true /\ Forall (fun n => from_utf8 n <> None) (outs_of f')) /\
          (snd (build docs t f) = Ok tt ->
             said = map (fun n => Print (lit "  - ./out/" ++ match from_utf8 n with Some s => s | None => [] end)) (outs_of f')))).
  Proof.
    intros docs t f. remember (build docs t f) as R eqn:E. unfold Project.build in E.
    pose proof (open_plugins_none wasm t f) as N. destruct (open_plugins wasm t f) as [l r] eqn:OP. cbn [fst] in N. subst l.
    destruct r as [pv| | |]; try (left; unfold ibind at 1 in E; rewrite OP in E; subst R; split; [reflexivity|]; split; [intros x H; discriminate|];
      right; intros pv ps H; discriminate H).
    rewrite (ibind_step _ _ f [] pv OP) in E. cbn [apply_all fold_left] in E. rewrite ibind_pure in E.
    destruct (plugins_new pv) as [ps| | |] eqn:PN; try (left; subst R; split; [reflexivity|]; split; [intros x H; discriminate|];
      right; intros pv' ps' H; injection H as <-; rewrite PN; discriminate).
    rewrite ibind_pure in E. destruct docs as [entries|]; cbn [ok_or] in E; cycle 1.
    { left. subst R. split; [reflexivity|]. split; [intros x H; discriminate|]. left. reflexivity. }
    right. exists entries, pv, ps. split; [reflexivity|]. split; [reflexivity|]. split; [exact PN|].
    destruct (build_docs_cases seg uuid checks w ps o backend entries 0 [] f) as [(outs & h' & C & G)|(before & nm & rest & outs & h' & extra & -> & C & Z & G & K & NO)].
    - right. rewrite (ibind_step _ _ f _ tt G) in E. set (f' := apply_all f (out_ops backend f outs)) in *.
      rewrite (ibind_step _ _ f' [Print (lit "Build succeeded.")] tt) in E by reflexivity.
      cbn [apply_all fold_left apply] in E. destruct (dir f' (lit "out")) eqn:O.
      + rewrite (ibind_step _ _ f' [] (outs_of f')) in E by (rewrite O; reflexivity). cbn [apply_all fold_left] in E.
        pose proof (print_outs_prints (outs_of f') f') as P. destruct (print_outs_ok (outs_of f') f') as [A B].
        destruct (print_outs (outs_of f') f') as [os r]. cbn [fst snd app] in *. exists outs, h', os. split; [exact C|]. split; [exact P|]. subst R. cbn [fst snd].
        split; [reflexivity|]. split; [rewrite A; tauto|exact B].
      + exists outs, h', []. split; [exact C|]. split; [constructor|]. unfold ibind in E. rewrite O in E. cbn [app] in E. subst R. cbn [fst snd].
        split; [reflexivity|]. split; [|discriminate]. split; [discriminate|intros [X _]; change (dir f' (lit "out") = true) in X; congruence].
    - left. exists before, nm, rest, outs, h', extra. split; [reflexivity|]. split; [exact C|]. split; [exact Z|].
      unfold ibind at 1 in E. destruct (build_docs seg uuid checks w o ps backend 0 (before ++ nm :: rest) [] f) as [os r]. cbn [fst snd] in *. subst os.
      destruct r as [[]| | |]; [exfalso; apply (NO tt); reflexivity|..]; cbn [app] in E; subst R;
        (split; [reflexivity|]); (split; [exact K|]); intros x H; discriminate.
  Qed.

  Lemma final_files : forall f outs extra, (extra = [] \/ extra = [Mkdir (lit "out")]) -> forall p,
    file (apply_all f (out_ops backend f outs ++ extra)) p = file (apply_all f (out_ops backend f outs)) p.
  Proof. intros f outs extra [->| ->] p; rewrite apply_all_app; reflexivity. Qed.

  (** What a build that succeeds leaves. *)
  Theorem build_outputs : forall docs t f os, build docs t f = (os, Ok tt) -> (forall entries, docs = Some entries -> NoDup entries) ->
    exists entries pv ps outs h', docs = Some entries /\ open_plugins wasm t f = ([], Ok pv) /\ plugins_new pv = Ok ps /\
      compiled ps f 0 entries [] outs h' /\
      (forall stem, In stem (map fst outs) <-> stem <> [] /\ Forall scalar stem /\ In (utf8 stem ++ lit ".[]") entries) /\
      (forall stem gen, In (stem, gen) outs -> file (apply_all f os) (out_file backend stem) = Some (utf8 gen)) /\
      (forall p, (forall stem, In stem (map fst outs) -> out_file backend stem <> p) -> file (apply_all f os) p = file f p).
  Proof.
    intros docs t f os H D. destruct (build_cases docs t f) as [(_ & X & _)|(entries & pv & ps & -> & OP & PN & [(b & nm & rest & outs & h' & extra & _ & _ & _ & _ & _ & X)|(outs & h' & said & C & P & F & _)])].
    - exfalso. rewrite H in X. apply (X tt). reflexivity.
    - exfalso. rewrite H in X. apply (X tt). reflexivity.
    - exists entries, pv, ps, outs, h'. rewrite H in F. cbn [fst] in F. subst os.
      assert (E : apply_all f (out_ops backend f outs ++ Print (lit "Build succeeded.") :: said) = apply_all f (out_ops backend f outs)).
      { rewrite apply_all_app. apply prints_fs. constructor; [exact I|exact P]. }
      rewrite E. destruct (built_files seg uuid checks w ps backend f 0 entries [] outs h' C (D _ eq_refl)) as [A B].
      repeat (split; [assumption || reflexivity|]). split; [eapply compiled_stems; first [exact C|exact backend]|]. split; assumption.
  Qed.

  (** What a build leaves when a document fails: the outputs of the documents before it. *)
  Theorem build_stops : forall docs t f, (forall x, snd (build docs t f) <> Ok x) -> (forall entries, docs = Some entries -> NoDup entries) ->
    exists entries ps outs h', (docs = Some entries \/ docs = None /\ entries = []) /\
      ((outs = [] /\ fst (build docs t f) = []) \/
       exists before rest, entries = before ++ rest /\ compiled ps f 0 before [] outs h' /\
         (forall name rest', rest = name :: rest' ->
            from_utf8 (stem_of name) = None \/ unbuilt seg uuid checks w ps o backend f (length before) name h')) /\
      (forall stem gen, In (stem, gen) outs -> file (apply_all f (fst (build docs t f))) (out_file backend stem) = Some (utf8 gen)) /\
      (forall p, (forall stem, In stem (map fst outs) -> out_file backend stem <> p) -> file (apply_all f (fst (build docs t f))) p = file f p).
  Proof.
    intros docs t f X D. destruct (build_cases docs t f) as [(F & _ & _)|(entries & pv & ps & -> & OP & PN & [(before & nm & rest & outs & h' & extra & E & C & Z & F & K & _)|(outs & h' & said & C & P & F & _)])].
    - exists (match docs with Some e => e | None => [] end), (mkPlugins [] None None None None), [], []. rewrite F.
      split; [destruct docs; auto|]. split; [left; auto|]. split; [intros ? ? []|reflexivity].
    - exists entries, ps, outs, h'. split; [left; reflexivity|]. split.
      + right. exists before, (nm :: rest). split; [exact E|]. split; [exact C|]. intros name rest' Q. injection Q as <- <-. exact Z.
      + specialize (D _ eq_refl). rewrite E in D.
        assert (DB : NoDup before).
        { clear -D. induction before as [|x l IH]; [constructor|]. inversion D as [|? ? N D']; subst. constructor; [|auto].
          intro I. apply N. apply in_or_app. left. exact I. }
        destruct (built_files seg uuid checks w ps backend f 0 before [] outs h' C DB) as [A B]. rewrite F. split.
        * intros stem gen I. rewrite final_files by exact K. apply A. exact I.
        * intros p N. rewrite final_files by exact K. apply B. exact N.
    - exists entries, ps, outs, h'. split; [left; reflexivity|]. split.
      + right. exists entries, []. rewrite app_nil_r. split; [reflexivity|]. split; [exact C|]. discriminate.
      + rewrite F.
        assert (E : apply_all f (out_ops backend f outs ++ Print (lit "Build succeeded.") :: said) = apply_all f (out_ops backend f outs)).
        { rewrite apply_all_app. apply prints_fs. constructor; [exact I|exact P]. }
        rewrite E. apply (built_files seg uuid checks w ps backend f 0 entries [] outs h' C (D _ eq_refl)).
  Qed.
End Whole.

(** ** When a build succeeds *)
Section Succeeds.
  Variable seg : str -> list str.
  Variable uuid : nat -> nat -> str.
  Variable checks : bool.
  Variable w : world.
  Notation compiled := (compiled seg uuid checks w).

  Lemma utf8_nil : forall s, utf8 s = [] -> s = [].
  Proof.
    intros [|c s] X; [reflexivity|]. exfalso. cbn [utf8 map concat] in X. apply app_eq_nil in X as [X _].
    unfold utf8_char in X. repeat match type of X with (if ?x then _ else _) = _ => destruct x end; discriminate.
  Qed.
  Lemma compiled_app : forall ps f a n b h outs h', compiled ps f n (a ++ b) h outs h' ->
    exists outs1 h1 outs2, compiled ps f n a h outs1 h1 /\ compiled ps f (n + length a) b h1 outs2 h' /\ outs = outs1 ++ outs2.
  Proof.
    intros ps f a. induction a as [|x a IH]; intros n b h outs h' C.
    - exists [], h, outs. rewrite Nat.add_0_r. split; [constructor|]. split; [exact C|reflexivity].
    - cbn [app] in C. inversion C as [|? ? ? ? ? ? N C'|? stem bt text gen h1 ? ? outs0 ? N F R T G C']; subst.
      + apply IH in C' as (o1 & h1 & o2 & A & B & ->). exists o1, h1, o2. cbn [length]. rewrite <- plus_n_Sm. split; [constructor; assumption|]. auto.
      + apply IH in C' as (o1 & h2 & o2 & A & B & ->). exists ((stem, gen) :: o1), h2, o2. cbn [length]. rewrite <- plus_n_Sm.
        split; [eapply compiled_document; eassumption|]. auto.
  Qed.
  Lemma compiled_det : forall ps f n a h outs h', compiled ps f n a h outs h' -> forall outs2 h2, compiled ps f n a h outs2 h2 -> outs = outs2 /\ h' = h2.
  Proof.
    intros ps f n a h outs h' C. induction C as [n h|n name names h outs h' N C IH|n stem b text gen h1 names h outs h' N F R T G C IH]; intros o2 h2 D.
    - inversion D; subst. auto.
    - inversion D; subst; [auto|]. exfalso. apply N. exists (utf8 stem). split; [reflexivity|]. intro X. apply utf8_nil in X. contradiction.
    - inversion D as [|? ? ? ? ? ? N2 D'|? stem2 b2 text2 gen2 h3 ? ? outs0 ? N2 F2 R2 T2 G2 D']; subst.
      + exfalso. apply N2. exists (utf8 stem). split; [reflexivity|]. intro X. apply utf8_nil in X. contradiction.
      + match goal with X : utf8 _ ++ _ = utf8 _ ++ _ |- _ => apply app_inv_tail in X; apply utf8_inj in X; try assumption end. subst stem2. rewrite R in R2. injection R2 as <-.
        rewrite T in T2. injection T2 as <-. rewrite G in G2. injection G2 as <- <-. apply IH in D' as [<- <-]. auto.
  Qed.

  Theorem build_succeeds : forall o wasm outs_of backend entries t f pv ps outs h',
    open_plugins wasm t f = ([], Ok pv) -> plugins_new pv = Ok ps -> compiled ps f 0 entries [] outs h' ->
    Forall (fun name => from_utf8 (stem_of name) <> None) entries ->
    (dir f (lit "out") = true \/ (file f (lit "out") = None /\ denied o (lit "out") = false /\ outs <> [])) ->
    Forall (fun x => writable o (apply f (Mkdir (lit "out"))) (out_file backend (fst x))) outs ->
    (forall g, Forall (fun n => from_utf8 n <> None) (outs_of g)) ->
    snd (build seg uuid checks w o wasm (Some entries) outs_of backend t f) = Ok tt.
  Proof.
    intros o wasm outs_of backend entries t f pv ps outs h' OP PN C V O W U.
    destruct (build_cases seg uuid checks w o wasm outs_of backend (Some entries) t f)
      as [(_ & _ & X)|(entries' & pv' & ps' & E & OP' & PN' & [(before & nm & rest & outs1 & h1 & extra & E' & C1 & Z & _)|(outs1 & h1 & said & C1 & _ & _ & H & _)])].
    - exfalso. destruct X as [X|X]; [discriminate|]. exact (X pv ps OP PN).
    - exfalso. injection E as <-. rewrite OP in OP'. injection OP' as <-. rewrite PN in PN'. injection PN' as <-.
      rewrite E' in C. apply compiled_app in C as (o1 & h2 & o2 & A & B & ->). destruct (compiled_det _ _ _ _ _ _ _ A _ _ C1) as [-> ->].
      destruct Z as [Z|(stem & [EN SN] & Z)].
      { rewrite Forall_forall in V. apply (V nm); [|exact Z]. rewrite E'. apply in_or_app. right. left. reflexivity. }
      inversion B as [|? ? ? ? ? ? N2 D'|? stem2 b2 text2 gen2 h3 ? ? outs0 ? N2 F2 R2 T2 G2 D']; subst.
      + apply N2. exists (utf8 stem). split; [reflexivity|exact SN].
      + match goal with X : utf8 _ ++ _ = utf8 _ ++ _ |- _ => apply app_inv_tail in X; rename X into EN' end. rewrite EN' in R2. destruct Z as [Z|(b & text & R3 & T3 & Z)].
        * rewrite (Z b2 R2) in T2. discriminate.
        * rewrite R2 in R3. injection R3 as <-. rewrite T2 in T3. injection T3 as <-. cbn [plus] in G2. destruct Z as [Z|[[Z1 Z2]|Z]].
          -- rewrite G2 in Z. apply (Z gen2). reflexivity.
          -- destruct O as [O|(O1 & O2 & _)]; [congruence|]. destruct Z2 as [Z2|Z2]; congruence.
          -- rewrite Forall_forall in W. apply Z. assert (OF : out_file backend stem = out_file backend stem2).
             { unfold out_file. rewrite !utf8_app, EN'. reflexivity. }
             rewrite OF. apply (W (stem2, gen2)). apply in_or_app. right. left. reflexivity.
    - injection E as <-. rewrite OP in OP'. injection OP' as <-. rewrite PN in PN'. injection PN' as <-.
      destruct (compiled_det _ _ _ _ _ _ _ C _ _ C1) as [<- <-]. apply H. split; [|apply U].
      destruct outs as [|x outs]; [destruct O as [O|(_ & _ & O)]; [exact O|exfalso; apply O; reflexivity]|].
      unfold out_ops. rewrite apply_all_app.
      assert (D : forall l g, dir (apply_all g (all_outs backend l)) (lit "out") = dir g (lit "out")).
      { induction l as [|y l IH]; intro g; [reflexivity|]. cbn [all_outs flat_map]. rewrite apply_all_app. fold (all_outs backend l). rewrite IH. apply writes_dir. }
      rewrite D. unfold make_out. destruct (dir f (lit "out")) eqn:Q; [exact Q|reflexivity].
  Qed.
End Succeeds.
