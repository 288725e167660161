(** * The Brack.toml of a new project, read back *)
From Coq Require Import String List NArith Arith Bool Lia.
From Verif Require Import Base Graphemes Tokenizer TokenizerRun Plugin Compile Utf8 Json Serde Project SpecProject Cli CliMore ProjectProofs AddProofs2 Toml TomlProofs.
Import ListNotations.
Local Open Scope N_scope.

(** What follows the name. *)
Definition new_rest : str :=
  lit "version = ""0.1.0""" ++ [10] ++ lit "backend = """"" ++ [10]
  ++ lit "authors = [""your name <your email>""]" ++ [10; 10] ++ lit "[plugins]" ++ [10].

Lemma new_split : forall name, new_toml name = write_header [lit "document"] ++ lit "name = " ++ 34 :: name ++ 34 :: 10 :: new_rest.
Proof. intro name. reflexivity. Qed.

(** ** Names that are read back *)
Lemma plain_clean : forall name, plain_name name -> forallb unescaped name = true.
Proof.
  intros name H. apply forallb_forall. intros c I. specialize (H c I). unfold unescaped, plain.
  destruct H as [->|(A & B & C & D)]; [reflexivity|].
  rewrite (proj2 (N.leb_le 32 c) A), (proj2 (N.eqb_neq c 127) B), (proj2 (N.eqb_neq c 34) C), (proj2 (N.eqb_neq c 92) D).
  rewrite orb_true_r. reflexivity.
Qed.

Lemma unescaped_plain : forall c, unescaped c = true -> c = 9 \/ (32 <= c /\ c <> 127 /\ c <> 34 /\ c <> 92).
Proof.
  intros c H. unfold unescaped, plain in H. apply andb_true_iff in H as [H D]. apply andb_true_iff in H as [H C].
  apply negb_true_iff in C, D. apply N.eqb_neq in C, D. apply orb_true_iff in H as [H|H]; [left; apply N.eqb_eq; exact H|].
  apply andb_true_iff in H as [A B]. apply negb_true_iff in B. apply N.eqb_neq in B. apply N.leb_le in A. auto.
Qed.

Lemma unescaped_not : forall c, unescaped c = true -> c <> 34 /\ c <> 92.
Proof. intros c H. apply unescaped_plain in H as [->|H]; [split; discriminate|tauto]. Qed.

Lemma clean_read : forall name r, forallb unescaped name = true -> read_basic (name ++ 34 :: r) = Some (name, r).
Proof.
  induction name as [|c name IH]; intros r H; [reflexivity|]. cbn [forallb] in H. apply andb_true_iff in H as [H1 H2].
  destruct (unescaped_not c H1) as [A B]. cbn [app read_basic].
  rewrite (proj2 (N.eqb_neq c 34) A), (proj2 (N.eqb_neq c 92) B), H1, (IH r H2). reflexivity.
Qed.

Lemma clean_string : forall name r, plain_name name -> read_string (34 :: name ++ 34 :: 10 :: r) = Some (name, 10 :: r).
Proof.
  intros name r H. apply plain_clean in H. unfold read_string.
  assert (T : starts_triple 34 (34 :: name ++ 34 :: 10 :: r) = None).
  { destruct name as [|c name]; [reflexivity|]. cbn [forallb] in H. apply andb_true_iff in H as [H _].
    destruct (unescaped_not c H) as [A _]. cbn [app starts_triple]. rewrite (proj2 (N.eqb_neq c 34) A).
    destruct (name ++ 34 :: 10 :: r) eqn:E; [destruct name; discriminate E|]. reflexivity. }
  assert (T2 : starts_triple 39 (34 :: name ++ 34 :: 10 :: r) = None).
  { cbn [starts_triple]. destruct (name ++ 34 :: 10 :: r) as [|x [|y l]]; reflexivity. }
  rewrite T, T2. change (34 =? 34) with true. cbv iota. apply clean_read. exact H.
Qed.

Definition new_kvs : list (str * json) :=
  [(lit "version", JStr (lit "0.1.0")); (lit "backend", JStr []); (lit "authors", JArr [JStr (lit "your name <your email>")])].

Lemma new_rest_read : goes_on new_rest (pair_lines new_kvs ++ [Header [lit "plugins"]]).
Proof.
  change new_rest with (pairs_text new_kvs ++ 10 :: sep_by [10] (map section_text [([lit "plugins"], [])])).
  apply pairs_read; [repeat constructor|].
  intros fuel HF. destruct fuel as [|fuel]; [cbn in HF; lia|].
  assert (G : Forall good_section [([lit "plugins"], [])]) by (repeat constructor; discriminate).
  exact (sections_read _ G (S fuel) ltac:(cbn [length] in HF; lia)).
Qed.

Theorem new_read : forall name, plain_name name -> toml_parse (new_toml name) = Ok (ser_config (fresh_config name)).
Proof.
  intros name H. unfold toml_parse.
  assert (G : goes_on (new_toml name) (Header [lit "document"] :: Pair [lit "name"] (JStr name) :: pair_lines new_kvs ++ [Header [lit "plugins"]])).
  { rewrite new_split. apply header_read; [discriminate|]. intros fuel HF.
    cbn [length app lit] in HF. destruct fuel as [|[|fuel]]; [cbn in HF; lia|cbn in HF; lia|].
    remember (34 :: name ++ 34 :: 10 :: new_rest) as q eqn:EQ.
    assert (KR : read_key (S fuel) (lit "name = " ++ q) = Some ([lit "name"], lit "= " ++ q)) by reflexivity.
    change (read_document (S (S fuel)) (lit "name = " ++ q)) with
      (opt! (k, r1) := read_key (S fuel) (lit "name = " ++ q) in
        match r1 with
        | d :: r2 =>
          if d =? 61 then
            opt! (v, r3) := read_value (S fuel) (skip_ws r2) in
            opt! r4 := line_end r3 in
            opt! ls := read_document (S fuel) r4 in Some (Pair k v :: ls)
          else None
        | [] => None
        end).
    rewrite KR. change (lit "= " ++ q) with (61 :: 32 :: q). cbn [opt_bind]. change (61 =? 61) with true. cbv iota.
    assert (RV : read_value (S fuel) (skip_ws (32 :: q)) = Some (JStr name, 10 :: new_rest)).
    { subst q. change (skip_ws (32 :: 34 :: name ++ 34 :: 10 :: new_rest)) with (34 :: name ++ 34 :: 10 :: new_rest).
      cbn [read_value]. change ((34 =? 34) || (34 =? 39)) with true. cbv iota. rewrite clean_string by exact H. reflexivity. }
    rewrite RV. cbn [opt_bind].
    change (line_end (10 :: new_rest)) with (Some new_rest). cbn [opt_bind].
    rewrite new_rest_read; [reflexivity|]. subst q. cbn [length] in HF. rewrite !app_length in HF. cbn [length] in HF.
    rewrite app_length in HF. cbn [length] in HF. lia. }
  rewrite G by apply le_n. cbn [opt_bind]. reflexivity.
Qed.

(** ** The other names *)
Lemma push_some : forall c o v r, push c o = Some (v, r) -> exists v', v = c :: v' /\ o = Some (v', r).
Proof. intros c [[v' r']|] v r H; [|discriminate H]. injection H as <- <-. exists v'. auto. Qed.

Lemma hex_quote : forall ds, In 34 ds -> scalar_num ds = None.
Proof.
  intros ds H. unfold scalar_num.
  assert (N : forall ds, fold_left (fun acc d => opt! n := acc in opt! v := hex_value d in Some (16 * n + v)) ds None = None) by (induction ds0; auto).
  assert (E : hex_num ds = None).
  { unfold hex_num. generalize (Some 0) as acc. induction ds as [|d ds IH]; [contradiction|]. intro acc. cbn [fold_left].
    destruct H as [->|H]; [|apply IH; exact H]. destruct acc; apply N. }
  rewrite E. reflexivity.
Qed.

Ltac short T H :=
  cbn [app] in H; do 6 (try (destruct T as [|? T]; [try discriminate H|]));
  first [discriminate H | rewrite hex_quote in H by (cbn; tauto); discriminate H].

(** A string between quotation marks ends before the line ends. *)
Lemma basic_short : forall n w T v r, (length w <= n)%nat -> read_basic (w ++ 34 :: 10 :: T) = Some (v, r) -> (length v <= length w)%nat.
Proof.
  induction n as [|n IH]; intros w T v r L H.
  - destruct w; [|cbn in L; lia]. cbn in H. injection H as <- _. cbn. lia.
  - destruct w as [|c w]; [cbn in H; injection H as <- _; cbn; lia|]. cbn [app read_basic] in H. cbn [length] in L |- *.
    destruct (c =? 34); [injection H as <- _; cbn; lia|].
    destruct (c =? 92).
    + destruct w as [|e w]; [cbn in H; discriminate H|]. cbn [app] in H. cbn [length] in L |- *.
      destruct (escape_letter e) as [d|].
      * apply push_some in H as (v' & -> & H). apply IH in H; cbn [length]; lia.
      * destruct (e =? 117).
        { assert (S : exists a b x d w2 y, w = a :: b :: x :: d :: w2 /\ push y (read_basic (w2 ++ 34 :: 10 :: T)) = Some (v, r)).
          { destruct w as [|a [|b [|x [|d w2]]]]; [short T H|short T H|short T H|short T H|]. cbn [app] in H.
            destruct (scalar_num [a; b; x; d]) as [y|]; [|discriminate H]. exists a, b, x, d, w2, y. auto. }
          destruct S as (a & b & x & d & w2 & y & -> & S). apply push_some in S as (v' & -> & S). cbn [length] in *.
          apply IH in S; cbn [length]; lia. }
        destruct (e =? 85); [|discriminate H].
        assert (S : exists a b x d a' b' x' d' w2 y, w = a :: b :: x :: d :: a' :: b' :: x' :: d' :: w2 /\
          push y (read_basic (w2 ++ 34 :: 10 :: T)) = Some (v, r)).
        { destruct w as [|a [|b [|x [|d [|a' [|b' [|x' [|d' w2]]]]]]]];
            [short T H|short T H|short T H|short T H|short T H|short T H|short T H|short T H|]. cbn [app] in H.
          destruct (scalar_num [a; b; x; d; a'; b'; x'; d']) as [y|]; [|discriminate H]. exists a, b, x, d, a', b', x', d', w2, y. auto. }
        destruct S as (a & b & x & d & a' & b' & x' & d' & w2 & y & -> & S). apply push_some in S as (v' & -> & S). cbn [length] in *.
        apply IH in S; cbn [length]; lia.
    + destruct (unescaped c); [|discriminate H]. apply push_some in H as (v' & -> & H). apply IH in H; cbn [length]; lia.
Qed.

Lemma basic_exact : forall w T r, read_basic (w ++ 34 :: 10 :: T) = Some (w, r) -> plain_name w.
Proof.
  induction w as [|c w IH]; intros T r H; [intros c []|]. cbn [app read_basic] in H.
  destruct (c =? 34) eqn:E34; [discriminate H|]. destruct (c =? 92) eqn:E92.
  - exfalso. apply N.eqb_eq in E92. subst c.
    destruct w as [|e w]; [cbn in H; discriminate H|]. cbn [app] in H.
    assert (S : exists d w2, (length w2 <= length w)%nat /\ push d (read_basic (w2 ++ 34 :: 10 :: T)) = Some (92 :: e :: w, r)).
    { destruct (escape_letter e) as [d|]; [exists d, w; auto|]. destruct (e =? 117).
      - destruct w as [|a [|b [|x [|d w2]]]]; [short T H|short T H|short T H|short T H|]. cbn [app] in H.
        destruct (scalar_num [a; b; x; d]) as [y|]; [|discriminate H]. exists y, w2. cbn [length]. split; [lia|exact H].
      - destruct (e =? 85); [|discriminate H].
        destruct w as [|a [|b [|x [|d [|a' [|b' [|x' [|d' w2]]]]]]]];
          [short T H|short T H|short T H|short T H|short T H|short T H|short T H|short T H|]. cbn [app] in H.
        destruct (scalar_num [a; b; x; d; a'; b'; x'; d']) as [y|]; [|discriminate H]. exists y, w2. cbn [length]. split; [lia|exact H]. }
    destruct S as (d & w2 & L & S). apply push_some in S as (v' & EV & S). injection EV as _ <-.
    apply (basic_short (length w2)) in S; [|lia]. cbn [length] in S. lia.
  - destruct (unescaped c) eqn:U; [|discriminate H]. apply push_some in H as (v' & EV & H). injection EV as <-.
    apply IH in H. intros x [<-|I]; [apply unescaped_plain; exact U|apply H; exact I].
Qed.

(** A string between three quotation marks ends with three quotation marks. *)
Definition ends_triple (s : str) (v r : str) : Prop := exists p, s = p ++ [34; 34; 34] ++ r /\ (length v <= length p)%nat.

Lemma ends_cons : forall c s v r, ends_triple s v r -> ends_triple (c :: s) v r.
Proof. intros c s v r (p & -> & L). exists (c :: p). split; [reflexivity|cbn; lia]. Qed.
Lemma ends_push : forall c d s v r, ends_triple s v r -> ends_triple (c :: s) (d :: v) r.
Proof. intros c d s v r (p & -> & L). exists (c :: p). split; [reflexivity|cbn; lia]. Qed.

Lemma close_triple : forall r v r', read_close 34 r = (v, r') -> ends_triple (34 :: 34 :: 34 :: r) v r'.
Proof.
  intros r v r' H. unfold read_close in H. destruct r as [|a r1]; [injection H as <- <-; exists []; auto|].
  destruct (a =? 34) eqn:A; [|injection H as <- <-; exists []; auto]. apply N.eqb_eq in A. subst a.
  destruct r1 as [|b r2]; [injection H as <- <-; exists [34]; auto|].
  destruct (b =? 34) eqn:B; injection H as <- <-; [apply N.eqb_eq in B; subst b; exists [34; 34]|exists [34]]; auto.
Qed.

Lemma lines_end : forall n s trim v r, (length s <= n)%nat -> read_lines trim s = Some (v, r) -> ends_triple s v r.
Proof.
  induction n as [|n IH]; intros s trim v r L H; (destruct s as [|c s]; [discriminate H|]; cbn [length] in L); [lia|].
  cbn [read_lines] in H.
  destruct (trim && (blank c || (c =? 10))); [apply IH in H; [apply ends_cons; exact H|lia]|].
  destruct (c =? 10); [apply push_some in H as (v' & -> & H); apply IH in H; [apply ends_push; exact H|lia]|].
  destruct (c =? 13).
  { destruct s as [|d s]; [discriminate H|]. cbn [length] in L. destruct (d =? 10); [|discriminate H]. destruct trim.
    - apply IH in H; [do 2 apply ends_cons; exact H|lia].
    - apply push_some in H as (v' & -> & H). apply IH in H; [apply ends_cons, ends_push; exact H|lia]. }
  destruct (c =? 34) eqn:E34.
  { apply N.eqb_eq in E34. subst c.
    assert (D : (exists r2, s = 34 :: 34 :: r2 /\ read_close 34 r2 = (v, r)) \/ push 34 (read_lines false s) = Some (v, r)).
    { destruct s as [|a [|b s2]]; [right; exact H|right; exact H|]. destruct (a =? 34) eqn:A; [|right; exact H].
      destruct (b =? 34) eqn:B; [|right; exact H]. apply N.eqb_eq in A, B. subst. left. exists s2. cbn [andb] in H. split; [reflexivity|congruence]. }
    destruct D as [(r2 & -> & D)|D]; [apply close_triple; exact D|].
    apply push_some in D as (v' & -> & D). apply IH in D; [apply ends_push; exact D|lia]. }
  destruct (c =? 92).
  { destruct (newline (skip_ws s)); [apply IH in H; [apply ends_cons; exact H|lia]|].
    destruct s as [|e s]; [discriminate H|]. cbn [length] in L.
    destruct (escape_letter e); [apply push_some in H as (v' & -> & H); apply IH in H; [apply ends_cons, ends_push; exact H|lia]|].
    destruct (e =? 117).
    { destruct s as [|a [|b [|x [|d s]]]]; try discriminate H. cbn [length] in L. destruct (scalar_num [a; b; x; d]); [|discriminate H].
      apply push_some in H as (v' & -> & H). apply IH in H; [do 5 apply ends_cons; apply ends_push; exact H|lia]. }
    destruct (e =? 85); [|discriminate H].
    destruct s as [|a [|b [|x [|d [|a' [|b' [|x' [|d' s]]]]]]]]; try discriminate H. cbn [length] in L.
    destruct (scalar_num [a; b; x; d; a'; b'; x'; d']); [|discriminate H].
    apply push_some in H as (v' & -> & H). apply IH in H; [do 9 apply ends_cons; apply ends_push; exact H|lia]. }
  destruct (unescaped c); [|discriminate H]. apply push_some in H as (v' & -> & H). apply IH in H; [apply ends_push; exact H|lia].
Qed.

Fixpoint has_triple (s : str) : bool :=
  match s with [] => false | _ :: r => match starts_triple 34 s with Some _ => true | None => has_triple r end end.

Lemma has_triple_app : forall p r, has_triple (p ++ [34; 34; 34] ++ r) = true.
Proof.
  induction p as [|c p IH]; intro r; [reflexivity|]. cbn [app has_triple].
  destruct (starts_triple 34 (c :: p ++ 34 :: 34 :: 34 :: r)); [reflexivity|apply (IH r)].
Qed.

Lemma triple_early : forall T, has_triple T = false -> forall x p r, p ++ [34; 34; 34] ++ r = x ++ 10 :: T -> (length T < length r)%nat.
Proof.
  intros T NT. induction x as [|a x IH]; intros p r E.
  - destruct p as [|c p]; [discriminate E|]. injection E as _ E. pose proof (has_triple_app p r) as Y. cbn [app] in Y, E. rewrite E, NT in Y. discriminate Y.
  - destruct p as [|c p]; [|injection E as _ E; apply (IH p r E)].
    cbn [app] in E. injection E as _ E. destruct x as [|b x]; [discriminate E|]. injection E as _ E.
    destruct x as [|d x]; [discriminate E|]. injection E as _ E. subst r. rewrite app_length. cbn [length]. lia.
Qed.

Theorem string_exact : forall name r, read_string (34 :: name ++ 34 :: 10 :: new_rest) = Some (name, r) -> plain_name name.
Proof.
  intros name r H. unfold read_string in H.
  assert (D : (exists n, name = 34 :: 34 :: n) \/ name = [34] \/ starts_triple 34 (34 :: name ++ 34 :: 10 :: new_rest) = None).
  { destruct name as [|a [|b n]].
    - right. right. reflexivity.
    - cbn [app starts_triple]. destruct (a =? 34) eqn:A; [apply N.eqb_eq in A; subst; auto|right; right; reflexivity].
    - cbn [app starts_triple]. destruct (a =? 34) eqn:A; [|right; right; reflexivity].
      destruct (b =? 34) eqn:B; [|right; right; reflexivity]. apply N.eqb_eq in A, B. subst. eauto. }
  destruct D as [(n & ->)|[->|D]].
  - exfalso. cbn [app starts_triple] in H. change ((34 =? 34) && (34 =? 34) && (34 =? 34)) with true in H. cbv iota in H.
    apply (lines_end _ _ _ _ _ (le_n _)) in H as (p & E & L).
    assert (Y : exists x, drop_newline (n ++ 34 :: 10 :: new_rest) = x ++ 10 :: new_rest /\ (length x <= length n + 1)%nat).
    { unfold drop_newline, newline. destruct n as [|a n]; [exists [34]; cbn; auto|]. cbn [app].
      destruct (a =? 10); [exists (n ++ [34]); rewrite <- app_assoc, app_length; cbn [length]; split; [reflexivity|lia]|].
      destruct (a =? 13); [|exists (a :: n ++ [34]); cbn [app length]; rewrite <- app_assoc, app_length; cbn [length]; split; [reflexivity|lia]].
      destruct n as [|b n]; [exists (a :: [34]); cbn; split; [reflexivity|lia]|]. cbn [app].
      destruct (b =? 10); [exists (n ++ [34])|exists (a :: b :: n ++ [34])]; cbn [app length]; rewrite <- app_assoc, app_length; cbn [length]; (split; [reflexivity|lia]). }
    destruct Y as (x & X & LX). rewrite X in E. symmetry in E.
    assert (NT : has_triple new_rest = false) by reflexivity.
    pose proof (triple_early new_rest NT x p r E) as LT.
    apply (f_equal (@length N)) in E. rewrite !app_length in E. cbn [length] in E, L. lia.
  - exfalso. vm_compute in H. discriminate H.
  - rewrite D in H.
    assert (T2 : starts_triple 39 (34 :: name ++ 34 :: 10 :: new_rest) = None).
    { cbn [starts_triple]. destruct (name ++ 34 :: 10 :: new_rest) as [|x [|y l]]; reflexivity. }
    rewrite T2 in H. change (34 =? 34) with true in H. cbv iota in H. apply (basic_exact _ _ _ H).
Qed.

(** ** The name in the configuration is the string after [name =] *)
Lemma opt_some : forall A B (o : option A) (f : A -> option B) b, opt_bind o f = Some b -> exists a, o = Some a /\ f a = Some b.
Proof. intros A B [a|] f b H; [exists a; auto|discriminate H]. Qed.

Lemma set_head : forall k k0 (i i0 : item) kvs, str_eqb k k0 = false -> set_item k i ((k0, i0) :: kvs) = (k0, i0) :: set_item k i kvs.
Proof. intros. cbn. rewrite H. reflexivity. Qed.
Lemma drop_head : forall k k0 (i0 : item) kvs, str_eqb k k0 = false -> drop_item k ((k0, i0) :: kvs) = (k0, i0) :: drop_item k kvs.
Proof. intros. cbn. rewrite H. reflexivity. Qed.

Lemma add_pair_head : forall path j dotted k0 j0 kvs kvs', add_pair path j dotted ((k0, Value j0) :: kvs) = Some kvs' ->
  exists tl, kvs' = (k0, Value j0) :: tl.
Proof.
  intros [|k path] j dotted k0 j0 kvs kvs' H; [discriminate H|]. cbn [add_pair find_item] in H.
  destruct (str_eqb k k0) eqn:E; [destruct path; discriminate H|]. destruct path as [|k2 path].
  - destruct (find_item k kvs); [discriminate H|]. destruct dotted; [|discriminate H]. injection H as <-. eexists. reflexivity.
  - destruct (find_item k kvs) as [[x|[] d sub]|]; try discriminate H.
    + apply opt_some in H as (s & _ & H). rewrite set_head in H by exact E. injection H as <-. eexists. reflexivity.
    + apply opt_some in H as (s & _ & H). injection H as <-. eexists. reflexivity.
Qed.

Lemma add_pairs_head : forall ps k0 j0 kvs kvs', add_pairs ps ((k0, Value j0) :: kvs) = Some kvs' -> exists tl, kvs' = (k0, Value j0) :: tl.
Proof.
  induction ps as [|[p j] ps IH]; intros k0 j0 kvs kvs' H; [injection H as <-; eexists; reflexivity|].
  cbn [add_pairs] in H. apply opt_some in H as (m & H1 & H2). apply add_pair_head in H1 as (tl & ->). apply (IH _ _ _ _ H2).
Qed.

Lemma add_section_head : forall path body k0 j0 kvs kvs', add_section path body ((k0, Value j0) :: kvs) = Some kvs' ->
  exists tl, kvs' = (k0, Value j0) :: tl.
Proof.
  intros [|k path] body k0 j0 kvs kvs' H; [discriminate H|]. cbn [add_section find_item] in H.
  destruct (str_eqb k k0) eqn:E; [destruct path; discriminate H|]. destruct path as [|k2 path].
  - destruct (find_item k kvs) as [[x|[] [] sub]|]; try discriminate H; apply opt_some in H as (s & _ & H).
    + rewrite drop_head in H by exact E. injection H as <-. eexists. reflexivity.
    + injection H as <-. eexists. reflexivity.
  - destruct (find_item k kvs) as [[x|i d sub]|]; try discriminate H; apply opt_some in H as (s & _ & H).
    + rewrite set_head in H by exact E. injection H as <-. eexists. reflexivity.
    + injection H as <-. eexists. reflexivity.
Qed.

Definition named (v : str) (kvs : list (str * item)) : Prop :=
  exists sub tl, kvs = (lit "document", Table false false ((lit "name", Value (JStr v)) :: sub)) :: tl.

Lemma add_section_named : forall path body v kvs kvs', named v kvs -> add_section path body kvs = Some kvs' -> named v kvs'.
Proof.
  intros [|k path] body v kvs kvs' (sub & tl & ->) H; [discriminate H|]. cbn [add_section find_item] in H.
  destruct (str_eqb k (lit "document")) eqn:E.
  - destruct path as [|k2 path]; [discriminate H|]. apply opt_some in H as (s & H1 & H2).
    apply add_section_head in H1 as (sub' & ->). cbn [set_item] in H2. rewrite E in H2. injection H2 as <-. do 2 eexists. reflexivity.
  - destruct path as [|k2 path].
    + destruct (find_item k tl) as [[x|[] [] sub2]|]; try discriminate H; apply opt_some in H as (s & _ & H).
      * rewrite drop_head in H by exact E. injection H as <-. do 2 eexists. reflexivity.
      * injection H as <-. do 2 eexists. reflexivity.
    + destruct (find_item k tl) as [[x|i d sub2]|]; try discriminate H; apply opt_some in H as (s & _ & H).
      * rewrite set_head in H by exact E. injection H as <-. do 2 eexists. reflexivity.
      * injection H as <-. do 2 eexists. reflexivity.
Qed.

Lemma add_sections_named : forall ss v kvs kvs', named v kvs -> add_sections ss kvs = Some kvs' -> named v kvs'.
Proof.
  induction ss as [|[p ps] ss IH]; intros v kvs kvs' N H; [injection H as <-; exact N|].
  cbn [add_sections] in H. apply opt_some in H as (m & H1 & H2). apply (IH v m); [|exact H2]. apply (add_section_named _ _ _ _ _ N H1).
Qed.

Lemma new_lines : forall fuel name ls, read_document (S (S (S fuel))) (new_toml name) = Some ls ->
  exists v r ls', read_string (34 :: name ++ 34 :: 10 :: new_rest) = Some (v, r) /\ ls = Header [lit "document"] :: Pair [lit "name"] (JStr v) :: ls'.
Proof.
  intros fuel name ls H. rewrite new_split in H. remember (34 :: name ++ 34 :: 10 :: new_rest) as q eqn:EQ.
  change (read_document (S (S (S fuel))) (write_header [lit "document"] ++ lit "name = " ++ q)) with
    (opt! ls := read_document (S (S fuel)) (lit "name = " ++ q) in Some (Header [lit "document"] :: ls)) in H.
  apply opt_some in H as (l1 & H & E). injection E as <-.
  change (read_document (S (S fuel)) (lit "name = " ++ q)) with
    (opt! (v, r3) := read_value (S fuel) (skip_ws (32 :: q)) in
     opt! r4 := line_end r3 in opt! ls := read_document (S fuel) r4 in Some (Pair [lit "name"] v :: ls)) in H.
  apply opt_some in H as ([v r3] & RV & H).
  apply opt_some in H as (r4 & _ & H). apply opt_some in H as (l2 & _ & H). injection H as <-.
  rewrite EQ in RV. cbn [skip_ws] in RV. change (blank 32) with true in RV. change (blank 34) with false in RV. cbv iota in RV.
  cbn [read_value] in RV. change ((34 =? 34) || (34 =? 39)) with true in RV. cbv iota in RV.
  apply opt_some in RV as ([v' r'] & RS & E). injection E as <- <-. exists v', r', l2. rewrite EQ. auto.
Qed.

Theorem new_named : forall name j, toml_parse (new_toml name) = Ok j ->
  exists v r a b, read_string (34 :: name ++ 34 :: 10 :: new_rest) = Some (v, r) /\
    j = JObj ((lit "document", JObj ((lit "name", JStr v) :: a)) :: b).
Proof.
  intros name j H. unfold toml_parse in H.
  assert (F : exists f, S (length (new_toml name)) = S (S (S f))).
  { rewrite new_split. cbn. eexists. reflexivity. }
  destruct F as [f F]. rewrite F in H. destruct (read_document (S (S (S f))) (new_toml name)) as [ls|] eqn:RD; [|discriminate H].
  apply new_lines in RD as (v & r & ls' & RS & ->). cbn [opt_bind group] in H. destruct (group ls') as [ps ss].
  cbn [add_pairs opt_bind add_sections add_section find_item add_pair app] in H.
  destruct (add_pairs ps [(lit "name", Value (JStr v))]) as [m|] eqn:AP; [|discriminate H].
  apply add_pairs_head in AP as (tl & ->). cbn [opt_bind] in H.
  destruct (add_sections ss [(lit "document", Table false false ((lit "name", Value (JStr v)) :: tl))]) as [k|] eqn:AS; [|discriminate H].
  apply (add_sections_named _ v) in AS; [|do 2 eexists; reflexivity]. destruct AS as (sub & tl2 & ->).
  cbn [opt_bind item_json map fst snd] in H. injection H as <-. exists v, r. do 2 eexists. split; [exact RS|reflexivity].
Qed.

Lemma once_head : forall name v fs o, field_once name ((name, v) :: fs) = Ok o -> o = Some v.
Proof.
  intros name v fs o H. cbn [field_once] in H. apply bind_ok in H as (x & _ & H). rewrite str_eqb_refl in H.
  destruct x; [discriminate H|]. congruence.
Qed.

Lemma config_name : forall v a b c, de_config (JObj ((lit "document", JObj ((lit "name", JStr v) :: a)) :: b)) = Ok c -> d_name (c_document c) = v.
Proof.
  intros v a b c H. unfold de_config in H. apply bind_ok in H as (fs & H1 & H).
  unfold de_table, de_struct in H1. cbn [mapM] in H1. apply bind_ok in H1 as (x & O1 & H1). apply bind_ok in H1 as (ys & H2 & H1).
  apply once_head in O1. subst x. injection H1 as <-. apply bind_ok in H2 as (y & O2 & H2). injection H2 as <-.
  apply bind_ok in H as (d & D & H). apply bind_ok in H as (ps & _ & H). injection H as <-. cbn [c_document].
  cbn [field] in D. unfold de_document in D. apply bind_ok in D as (fs & H1 & D).
  unfold de_table, de_struct in H1. cbn [mapM] in H1. apply bind_ok in H1 as (x & O1 & H1). apply once_head in O1. subst x.
  apply bind_ok in H1 as (ys & H2 & H1). injection H1 as <-.
  apply bind_ok in H2 as (y1 & _ & H2). apply bind_ok in H2 as (yr & H3 & H2). injection H2 as <-.
  apply bind_ok in H3 as (y2 & _ & H2). apply bind_ok in H2 as (yr2 & H3 & H2). injection H2 as <-.
  apply bind_ok in H3 as (y3 & _ & H2). injection H2 as <-.
  cbn [field de_str bind] in D. apply bind_ok in D as (ver & _ & D). apply bind_ok in D as (be & _ & D). apply bind_ok in D as (au & _ & D).
  injection D as <-. reflexivity.
Qed.

Theorem new_config : forall name c, (let! j := toml_parse (new_toml name) in de_config j) = Ok c ->
  d_name (c_document c) = name <-> plain_name name.
Proof.
  intros name c H. apply bind_ok in H as (j & P & H). split.
  - intro E. apply new_named in P as (v & r & a & b & RS & ->). apply config_name in H. rewrite E in H. subst v. apply (string_exact _ _ RS).
  - intro PN. rewrite (new_read name PN) in P. injection P as <-. rewrite de_ser_config in H. injection H as <-. reflexivity.
Qed.

(** ** In the new project *)
Lemma new_bytes : forall name, Forall scalar name -> from_utf8 (utf8 (new_toml name)) = Some (new_toml name).
Proof.
  intros name H. apply from_utf8_utf8. rewrite new_split.
  repeat (apply Forall_app; split); try ascii. constructor; [apply ascii_scalar; reflexivity|].
  apply Forall_app. split; [exact H|]. unfold new_rest. cbn. ascii.
Qed.

Lemma loads_new : forall name g, Forall scalar name -> file g brack_toml = Some (utf8 (new_toml name)) ->
  load_brack_toml toml_crate g = ([], let! j := toml_parse (new_toml name) in de_config j).
Proof.
  intros name g S F. unfold load_brack_toml, ibind, read_to_string, done. rewrite F, new_bytes by exact S. reflexivity.
Qed.

Theorem new_loaded : forall o name f os g, Forall scalar name -> new_project o name f = (os, Ok tt) ->
  seen_from name (apply_all f os) g -> plain_name name -> load_brack_toml toml_crate g = ([], Ok (fresh_config name)).
Proof.
  intros o name f os g S N V P. apply new_files in N as (_ & _ & FT & _ & _).
  rewrite (loads_new name g S); [|rewrite (proj1 (V brack_toml)), <- FT; f_equal; rewrite utf8_app; reflexivity].
  rewrite (new_read name P). cbn [bind]. rewrite de_ser_config. reflexivity.
Qed.

Theorem new_loaded_exactly : forall o name f os g, Forall scalar name -> new_project o name f = (os, Ok tt) ->
  seen_from name (apply_all f os) g ->
  ((exists c, snd (load_brack_toml toml_crate g) = Ok c /\ d_name (c_document c) = name) <-> plain_name name).
Proof.
  intros o name f os g S N V. split.
  - intros (c & L & E). apply new_files in N as (_ & _ & FT & _ & _).
    rewrite (loads_new name g S) in L; [|rewrite (proj1 (V brack_toml)), <- FT; f_equal; rewrite utf8_app; reflexivity].
    cbn [snd] in L. apply (new_config name c L). exact E.
  - intro P. rewrite (new_loaded o name f os g S N V P). exists (fresh_config name). split; reflexivity.
Qed.

Lemma empty_compiles : forall seg uuid checks w, seg_laws seg ->
  compile seg uuid checks w (mkPlugins [] None None None None) [] [] = (Ok [], []).
Proof.
  intros seg uuid checks w L. unfold compile. rewrite (tokenize_run seg L), (seg_nil seg L). reflexivity.
Qed.

Lemma step : forall A B (m : io A) (k : A -> io B) f os x, m f = (os, Ok x) ->
  ibind m k f = (os ++ fst (k x (apply_all f os)), snd (k x (apply_all f os))).
Proof. intros A B m k f os x H. unfold ibind. rewrite H. destruct (k x (apply_all f os)). reflexivity. Qed.

Definition build_steps : list op :=
  [Mkdir (lit "out"); Create (lit "out/main."); Print (lit "Build succeeded."); Print (lit "  - ./out/main.")].

Theorem new_builds : forall seg uuid checks w shown o o2 order wasm docs outs name f os g, seg_laws seg ->
  Forall scalar name -> plain_name name -> (forall r, present f (utf8 name ++ [47] ++ r) = false) -> (forall p, denied o2 p = false) ->
  new_project o name f = (os, Ok tt) -> seen_from name (apply_all f os) g ->
  docs g = Some [lit "main.[]"] -> (forall h, file h (lit "out/main.") <> None -> outs h = [lit "main."]) ->
  build_command seg uuid checks w toml_crate shown o2 order wasm docs outs g = (build_steps, Ok tt) /\
  file (apply_all g build_steps) (lit "out/main.") = Some [].
Proof.
  intros seg uuid checks w shown o o2 order wasm docs outs name f os g L S P FR DN N V D O.
  pose proof (new_loaded o name f os g S N V P) as LD. pose proof N as N'.
  apply new_files in N' as (DIRS & FM & _ & _ & FO).
  assert (U : forall r, utf8 (name ++ lit r) = utf8 name ++ utf8 (lit r)) by (intro; apply utf8_app).
  assert (FMAIN : file g (lit "docs/main.[]") = Some []).
  { rewrite (proj1 (V _)), <- FM. f_equal. rewrite U. reflexivity. }
  assert (NOFILE : forall r, r = lit "out" \/ r = lit "out/main." -> file g r = None /\ dir g r = false).
  { intros r R. rewrite (proj1 (V r)), (proj2 (V r)).
    assert (NE : forall a : string, r <> skipn 1 (utf8 (lit a)) -> utf8 name ++ [47] ++ r <> utf8 (name ++ lit a) \/ hd 0 (utf8 (lit a)) <> 47).
    { intros a H. destruct (N.eq_dec (hd 0 (utf8 (lit a))) 47) as [E|E]; [left|right; exact E]. intro X. rewrite U in X. apply app_inv_head in X.
      apply H. rewrite <- X. reflexivity. }
    specialize (FR r). unfold present in FR. split.
    - rewrite FO.
      + destruct (file f (utf8 name ++ [47] ++ r)); [discriminate FR|reflexivity].
      + destruct (NE "/docs/main.[]"%string) as [X|X]; [destruct R; subst r; vm_compute; discriminate|exact X|exfalso; apply X; reflexivity].
      + destruct (NE "/Brack.toml"%string) as [X|X]; [destruct R; subst r; vm_compute; discriminate|exact X|exfalso; apply X; reflexivity].
      + destruct (NE "/.gitignore"%string) as [X|X]; [destruct R; subst r; vm_compute; discriminate|exact X|exfalso; apply X; reflexivity].
    - destruct (dir (apply_all f os) (utf8 name ++ [47] ++ r)) eqn:E; [|reflexivity]. apply DIRS in E as [E|[E|E]].
      + exfalso. rewrite <- (app_nil_r (utf8 name)) in E at 2. apply app_inv_head in E. discriminate E.
      + exfalso. destruct (NE "/docs"%string) as [X|X]; [destruct R; subst r; vm_compute; discriminate|exact (X E)|apply X; reflexivity].
      + destruct (file f (utf8 name ++ [47] ++ r)); [discriminate FR|congruence]. }
  destruct (NOFILE (lit "out") (or_introl eq_refl)) as [F1 D1]. destruct (NOFILE (lit "out/main.") (or_intror eq_refl)) as [F2 D2].
  split.
  - unfold build_command. rewrite (step _ _ _ _ _ _ _ LD).
    assert (DL : download_plugins_using_config shown o2 order (fresh_config name) [] g = ([], Ok [])) by reflexivity.
    cbn [apply_all fold_left]. rewrite (step _ _ _ _ _ _ _ DL).
    cbn [apply_all fold_left]. rewrite D. cbn [fresh_config c_document d_backend app]. unfold build.
    assert (OP : open_plugins wasm [] g = ([], Ok [])) by reflexivity. rewrite (step _ _ _ _ _ _ _ OP).
    rewrite (step _ _ _ _ _ _ (mkPlugins [] None None None None) eq_refl).
    rewrite (step _ _ _ _ _ _ [lit "main.[]"] eq_refl). cbn [apply_all fold_left].
    assert (B : build_docs seg uuid checks w o2 (mkPlugins [] None None None None) [] 0 [lit "main.[]"] [] g
                = ([Mkdir (lit "out"); Create (lit "out/main.")], Ok tt)).
    { cbn [build_docs]. change (stem_extension (lit "main.[]")) with (lit "main", Some (lit "[]")). cbv iota.
      rewrite (step _ _ _ _ _ _ (lit "main") eq_refl). change (str_eqb (lit "[]") (lit "[]")) with true. cbv iota. cbn [apply_all fold_left].
      assert (RD : read_to_string (lit "docs/" ++ lit "main.[]") g = ([], Ok [])).
      { unfold read_to_string. change (lit "docs/" ++ lit "main.[]") with (lit "docs/main.[]"). rewrite FMAIN. reflexivity. }
      rewrite (step _ _ _ _ _ _ _ RD). rewrite (empty_compiles seg (uuid 0%nat) checks w L). cbn [apply_all fold_left].
      rewrite (step _ _ _ _ _ _ (@nil BinNums.N) eq_refl). cbn [apply_all fold_left].
      assert (MK : create_dir_all o2 (lit "out") g = ([Mkdir (lit "out")], Ok tt)).
      { unfold create_dir_all. rewrite D1, F1, DN. reflexivity. }
      rewrite (step _ _ _ _ _ _ _ MK).
      assert (WR : write_file o2 (utf8 (lit "out/" ++ lit "main" ++ lit "." ++ [])) (utf8 []) (apply_all g [Mkdir (lit "out")]) = ([Create (lit "out/main.")], Ok tt)).
      { unfold write_file. change (utf8 (lit "out/" ++ lit "main" ++ lit "." ++ [])) with (lit "out/main.").
        change (dir (apply_all g [Mkdir (lit "out")]) (parent (lit "out/main."))) with true.
        change (dir (apply_all g [Mkdir (lit "out")]) (lit "out/main.")) with (str_eqb (lit "out") (lit "out/main.") || dir g (lit "out/main."))%bool.
        rewrite D2, DN. reflexivity. }
      rewrite (step _ _ _ _ _ _ _ WR). reflexivity. }
    rewrite (step _ _ _ _ _ _ _ B). rewrite (step _ _ _ _ _ _ tt eq_refl).
    set (h := apply_all _ [Print _]). assert (DO : dir h (lit "out") = true) by reflexivity.
    assert (FO2 : file h (lit "out/main.") = Some []) by reflexivity.
    rewrite (step _ _ (fun f => if dir f (lit "out") then ([], Ok (outs f)) else ([], Err (lit "No such file or directory"))) _ h
               [] [lit "main."]) by (rewrite DO, O; [reflexivity|rewrite FO2; discriminate]).
    reflexivity.
  - reflexivity.
Qed.
