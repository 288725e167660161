(** Concrete streams. *)
From Coq Require Import String List NArith ZArith Bool Lia.
From Verif Require Import Base Utf8 Framing SpecFraming FramingProofs FramingProofs2.
Import ListNotations.

(** A server that only remembers what was dispatched. *)
Definition log_parse (b : bytes) : res bytes := Ok b.
Definition log_dispatch (st : list bytes) (b : bytes) : list bytes * res unit := (st ++ [b], Ok tt).
Definition log_run := run true log_parse log_dispatch.

Definition sent (s : str) : message := mkmsg (send_message s) (utf8 s).

Lemma sent_well_formed : forall s, Forall scalar s ->
  (N.of_nat (length (utf8 s)) < 2147483648)%N -> well_formed (sent s).
Proof. exact send_well_framed. Qed.

Definition hello : message := sent (lit "{""id"":1}").
Definition world : message := sent (lit "{""id"":22}").
(** A body of one letter of two bytes: e with an acute accent. *)
Definition accent : message := sent [233%N].

Lemma lit_scalar : forall s, forallb (fun c => N.ltb c 0xD800) (lit s) = true -> Forall scalar (lit s).
Proof.
  intros s H. apply Forall_forall. intros c I. rewrite forallb_forall in H. apply H in I.
  apply N.ltb_lt in I. left. exact I.
Qed.

Lemma hello_well_formed : well_formed hello.
Proof. apply sent_well_formed; [apply lit_scalar; reflexivity|reflexivity]. Qed.
Lemma world_well_formed : well_formed world.
Proof. apply sent_well_formed; [apply lit_scalar; reflexivity|reflexivity]. Qed.
Lemma accent_well_formed : well_formed accent.
Proof. apply sent_well_formed; [repeat constructor|reflexivity]. Qed.

(** A message with two fields, as some clients send them. *)
Definition typed : message :=
  mkmsg (frame [(lit "Content-Type", lit "application/vscode-jsonrpc; charset=utf-8");
                (lit "Content-Length", lit "2")] (lit "[]")) (lit "[]").

Ltac each := repeat (apply Forall_cons || apply Forall_nil).
Ltac not_in := vm_compute; intuition discriminate.

Lemma typed_well_formed : well_formed typed.
Proof.
  unfold well_formed, well_framed. repeat split; try (vm_compute; reflexivity || discriminate).
  eexists. split; [reflexivity|]. split; [|split].
  - repeat constructor; cbn [fst snd]; (not_in || (vm_compute; discriminate)).
  - intros v [I|[I|[]]]; [discriminate|]. injection I as <-. apply (decimal_digit 2). reflexivity.
  - eexists. right. left. reflexivity.
Qed.
