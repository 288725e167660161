(** Extended grapheme clusters (crate [unicode-segmentation], [s.graphemes(true)]).

    The crate is external. The tokenizer model takes *any* segmenter [seg]; the theorems
    assume the laws below. UAX29.v shows that the UAX #29 rules satisfy them. *)
From Coq Require Import List NArith.
From Verif Require Import Base.
Import ListNotations.

Definition NUL : N := 0%N.
Definition LF : N := 10%N.
Definition CR : N := 13%N.

Record seg_laws (seg : str -> list str) : Prop := {
  (** the clusters are a partition of the text into non-empty pieces *)
  seg_concat : forall s, concat (seg s) = s;
  seg_nonempty : forall s, ~ In [] (seg s);
  (** boundaries do not depend on the text after or before them:
      the clusters of a final (initial) part starting (ending) at a boundary are the same *)
  seg_tail : forall s g gs, seg s = g :: gs -> seg (concat gs) = gs;
  seg_prefix : forall s gs1 gs2, seg s = gs1 ++ gs2 -> seg (concat gs1) = gs1;
  (** there is always a break after a line feed *)
  seg_lf : forall a b, seg ((a ++ [LF]) ++ b) = seg (a ++ [LF]) ++ seg b;
  (** a line feed is a cluster of its own unless it follows a carriage return *)
  seg_lf_cluster : forall s g, In g (seg s) -> In LF g -> g = [LF] \/ g = [CR; LF];
  (** NUL is a control character: it is a cluster of its own *)
  seg_nul : forall s g, In g (seg s) -> In NUL g -> g = [NUL];
  (** ASCII text without carriage returns: every character is a cluster *)
  seg_ascii : forall s, Forall (fun c => (c < 128)%N /\ c <> CR) s -> seg s = map (fun c => [c]) s
}.

Lemma seg_nil : forall seg, seg_laws seg -> seg [] = [].
Proof.
  intros seg L. pose proof (seg_concat seg L []) as H.
  destruct (seg []) as [|g gs] eqn:E; [reflexivity|].
  cbn in H. apply app_eq_nil in H as [-> _].
  exfalso. apply (seg_nonempty seg L []). rewrite E. left; reflexivity.
Qed.
