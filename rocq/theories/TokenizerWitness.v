(** Concrete witnesses for the tokenizer refutations, valid for every lawful segmenter. *)
From Coq Require Import String List NArith ZArith Bool Lia Arith.
From Verif Require Import Base Tokens Graphemes UAX29 Tokenizer TokenizerRun SpecTok TokenizerProofs TokenizerProofs2.
Import ListNotations.

Definition ascii (s : str) : bool := forallb (fun c => (c <? 128)%N && negb (c =? 13)%N) s.

Lemma ascii_forall : forall s, ascii s = true -> Forall (fun c => (c < 128)%N /\ c <> CR) s.
Proof.
  intros s H. apply Forall_forall. intros c Hc. unfold ascii in H. rewrite forallb_forall in H.
  apply H in Hc. apply andb_true_iff in Hc as [H1 H2]. apply N.ltb_lt in H1. split; [exact H1|].
  intros ->. discriminate H2.
Qed.

(** On ASCII text every lawful segmenter gives the tokens computed with [gseg]. *)
Lemma tokenize_gseg : forall seg s, seg_laws seg -> ascii s = true -> tokenize_str seg s = tokenize_str gseg s.
Proof.
  intros seg s L H. apply tokenize_ascii; [exact L|exact gseg_laws|]. apply ascii_forall. exact H.
Qed.

Lemma true_positions_refuted : forall seg, seg_laws seg ->
  exists s ts ts1 t ts2, tokenize_str seg s = Ok ts /\ ts = ts1 ++ t :: ts2 /\
    lstart (tl t) <> true_pos seg (source ts1).
Proof.
  intros seg L. exists (lit "[" ++ [10%N] ++ lit "]a").
  rewrite (tokenize_gseg seg _ L) by reflexivity.
  destruct (tokenize_str gseg (lit "[" ++ [10%N] ++ lit "]a")) as [ts| | |] eqn:E;
    [|vm_compute in E; discriminate E..].
  exists ts, (firstn 3 ts), (nth 3 ts (mktok TkEOF mock_location)), (skipn 4 ts).
  vm_compute in E. injection E as <-. split; [reflexivity|]. split; [reflexivity|].
  intro H. apply (f_equal pline) in H. vm_compute in H. discriminate H.
Qed.

Lemma crlf_refuted :
  exists s ts ts1 t ts2, ~ occurs [10%N; 62%N] s /\ ~ occurs [10%N; 125%N] s /\ ~ occurs [10%N; 93%N] s /\
    tokenize_str gseg s = Ok ts /\ ts = ts1 ++ t :: ts2 /\
    lstart (tl t) <> true_pos gseg (source ts1).
Proof.
  exists (lit "a" ++ [13; 10]%N ++ lit "[").
  assert (Hno : forall x, x <> 91%N -> ~ occurs [10%N; x] (lit "a" ++ [13; 10]%N ++ lit "[")).
  { intros x Hx (a & b & E). cbn in E.
    do 3 (destruct a as [|? a]; [injection E; intros; congruence | injection E as _ E]).
    destruct a as [|? [|]]; discriminate E. }
  destruct (tokenize_str gseg (lit "a" ++ [13; 10]%N ++ lit "[")) as [ts| | |] eqn:E;
    [|vm_compute in E; discriminate E..].
  exists ts, (firstn 1 ts), (nth 1 ts (mktok TkEOF mock_location)), (skipn 2 ts).
  split; [exact (Hno 62%N ltac:(discriminate))|].
  split; [exact (Hno 125%N ltac:(discriminate))|].
  split; [exact (Hno 93%N ltac:(discriminate))|].
  vm_compute in E. injection E as <-. split; [reflexivity|]. split; [reflexivity|].
  vm_compute. discriminate.
Qed.

Lemma escape_neutral_refuted : forall seg, seg_laws seg ->
  exists b tb ts, tokenize_str seg b = Ok tb /\ tokenize_str seg (lit "\[" ++ b) = Ok ts /\
    map tk ts <> TkBackSlash :: TkSquareOpen :: map tk tb.
Proof.
  intros seg L. exists (lit "a b").
  rewrite !(tokenize_gseg seg _ L) by reflexivity.
  destruct (tokenize_str gseg (lit "a b")) as [ts| | |] eqn:E; [|vm_compute in E; discriminate E..].
  destruct (tokenize_str gseg (lit "\[" ++ lit "a b")) as [ts'| | |] eqn:E'; [|vm_compute in E'; discriminate E'..].
  eexists. eexists. split; [reflexivity|]. split; [reflexivity|].
  vm_compute in E, E'. injection E as <-. injection E' as <-. vm_compute. discriminate.
Qed.

(** After an escaped closing bracket a command is no longer recognised. *)
Lemma escape_close_refuted : forall seg, seg_laws seg ->
  exists b tb ts, tokenize_str seg b = Ok tb /\ tokenize_str seg (lit "\]" ++ b) = Ok ts /\
    map tk ts <> TkBackSlash :: TkSquareClose :: map tk tb.
Proof.
  intros seg L. exists (lit "[a.b c]").
  rewrite !(tokenize_gseg seg _ L) by reflexivity.
  destruct (tokenize_str gseg (lit "[a.b c]")) as [ts| | |] eqn:E; [|vm_compute in E; discriminate E..].
  destruct (tokenize_str gseg (lit "\]" ++ lit "[a.b c]")) as [ts'| | |] eqn:E'; [|vm_compute in E'; discriminate E'..].
  eexists. eexists. split; [reflexivity|]. split; [reflexivity|].
  vm_compute in E, E'. injection E as <-. injection E' as <-. vm_compute. discriminate.
Qed.
