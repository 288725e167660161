(** The properties of the language server. Every theorem is closed by a lemma proved
    elsewhere; beside each one an example shows that its hypotheses can be met. *)
From Coq Require Import String List NArith ZArith Bool Lia.
From Verif Require Import PositionProofs Base Tokens Graphemes UAX29 Tokenizer SpecTok TokenizerWitness Utf8 Framing SpecFraming
  FramingProofs FramingProofs2 FramingWitness SemTok SpecServer SemTokProofs.
Import ListNotations.

(** * C38: messages are dispatched in order, each once, whatever the chunking *)

(** The client sends the messages [ms] and the stream is cut into any non-empty reads
    (and possibly ends early, [rest] being lost). Whatever parsing and dispatching do, the
    server does exactly what handling the first [k] messages in order does, where these
    are messages that were received completely; it may in addition stop with an error
    after them. *)
Theorem C38_in_order_once :
  forall (St V : Type) (checks : bool) (from_str : bytes -> res V)
    (dispatch : St -> V -> St * res unit) reads ms st rest,
  Forall well_formed ms -> Forall (fun r => r <> []) reads ->
  concat reads ++ rest = concat (map raw ms) ->
  exists k, k <= complete ms (length (concat reads)) /\
    let h := handle from_str dispatch (firstn k (map body ms)) st in
    run checks from_str dispatch reads st = h
    \/ (snd h = Ok tt /\ exists e, run checks from_str dispatch reads st = (fst h, Err e)).
Proof. exact @run_any_cut. Qed.
Print Assumptions C38_in_order_once.

Example C38_example :
  Forall well_formed [hello; typed; accent]
  /\ log_run (map (fun c => [c]) (concat (map raw [hello; typed]))) []
     = ([lit "{""id"":1}"; lit "[]"], Ok tt).
Proof.
  split; [each; [apply hello_well_formed|apply typed_well_formed|apply accent_well_formed]|].
  vm_compute. reflexivity.
Qed.

(** * C39: every complete message is dispatched *)

(** False: two messages that arrive in one read. The second one was received completely
    and is never dispatched. *)
Theorem C39_pipelined_refuted :
  exists ms reads,
    Forall well_formed ms /\ Forall valid reads /\ Forall (fun r => r <> []) reads
    /\ concat reads = concat (map raw ms) /\ complete ms (length (concat reads)) = 2
    /\ forall checks, run checks log_parse log_dispatch reads [] = (firstn 1 (map body ms), Ok tt).
Proof.
  exists [hello; world], [raw hello ++ raw world].
  split; [each; [apply hello_well_formed|apply world_well_formed]|].
  split; [each; vm_compute; discriminate|].
  split; [each; discriminate|].
  split; [reflexivity|]. split; [reflexivity|]. intros []; vm_compute; reflexivity.
Qed.
Print Assumptions C39_pipelined_refuted.

(** Exactly how many messages are taken, if no read ends inside a character: with every
    read at most one more, and only if it is complete. *)
Theorem C39_one_per_read :
  forall (St V : Type) (checks : bool) (from_str : bytes -> res V)
    (dispatch : St -> V -> St * res unit) reads ms st rest,
  Forall well_formed ms -> Forall valid reads -> Forall (fun r => r <> []) reads ->
  concat reads ++ rest = concat (map raw ms) ->
  run checks from_str dispatch reads st
  = handle from_str dispatch (firstn (taken_after ms 0 0 reads) (map body ms)) st.
Proof. exact @run_reads. Qed.
Print Assumptions C39_one_per_read.

Example C39_example :
  let stream := concat (map raw [hello; world; typed]) in
  let reads := [firstn 50 stream; firstn 10 (skipn 50 stream); skipn 60 stream] in
  Forall valid reads /\ concat reads = stream /\ taken_after [hello; world; typed] 0 0 reads = 3
  /\ log_run reads [] = (map body [hello; world; typed], Ok tt).
Proof. vm_compute. repeat split; each; discriminate. Qed.

(** If moreover no read completes more than one message, all are dispatched. *)
Theorem C39_all_dispatched_partial :
  forall (St V : Type) (checks : bool) (from_str : bytes -> res V)
    (dispatch : St -> V -> St * res unit) reads ms st,
  Forall well_formed ms -> Forall valid reads -> Forall (fun r => r <> []) reads ->
  concat reads = concat (map raw ms) ->
  (forall pre r post, reads = pre ++ r :: post ->
    complete ms (length (concat (pre ++ [r]))) <= S (complete ms (length (concat pre)))) ->
  run checks from_str dispatch reads st = handle from_str dispatch (map body ms) st.
Proof. exact @run_all. Qed.
Print Assumptions C39_all_dispatched_partial.

Example C39_all_example :
  let reads := [raw hello; raw world] in
  forall pre r post, reads = pre ++ r :: post ->
  complete [hello; world] (length (concat (pre ++ [r]))) <= S (complete [hello; world] (length (concat pre))).
Proof.
  intros reads [|p [|q pre]] r post E; unfold reads in E.
  - injection E as <- _. vm_compute. lia.
  - injection E as <- <- _. vm_compute. lia.
  - destruct pre; discriminate.
Qed.

(** * C40: a chunk boundary inside a character does not stop the server *)

(** False: if a read ends inside a character the server returns an error, after doing
    what the earlier reads made it do. *)
Theorem C40_split_character_stops :
  forall (St V : Type) (checks : bool) (from_str : bytes -> res V)
    (dispatch : St -> V -> St * res unit) reads r reads2 ms st rest,
  Forall well_formed ms -> Forall valid reads -> Forall (fun r => r <> []) reads ->
  ~ valid r -> concat (reads ++ r :: reads2) ++ rest = concat (map raw ms) ->
  run checks from_str dispatch (reads ++ r :: reads2) st
  = match handle from_str dispatch (firstn (taken_after ms 0 0 reads) (map body ms)) st with
    | (st', Ok _) => (st', Err (lit "invalid utf-8 sequence"))
    | x => x
    end.
Proof. exact @run_broken. Qed.
Print Assumptions C40_split_character_stops.

Theorem C40_split_character_refuted :
  exists m reads, well_formed m /\ Forall (fun r => r <> []) reads /\ concat reads = raw m
    /\ forall checks, exists e, run checks log_parse log_dispatch reads [] = ([], Err e).
Proof.
  exists accent, [firstn 22 (raw accent); skipn 22 (raw accent)].
  split; [apply accent_well_formed|]. split; [each; discriminate|].
  split; [reflexivity|]. intro checks. eexists. destruct checks; vm_compute; reflexivity.
Qed.
Print Assumptions C40_split_character_refuted.

Example C40_example :
  ~ valid (firstn 22 (raw accent)) /\ valid (raw accent) /\ log_run [raw accent] [] = ([[195; 169]%N], Ok tt).
Proof. vm_compute. repeat split; [intro H; apply H; reflexivity|discriminate]. Qed.

(** * C41: malformed headers do not panic the server *)

(** False: a line without [": "], a negative length, and a length that ends inside a
    character panic. *)
Theorem C41_header_refuted : forall checks,
  (exists e, run checks log_parse log_dispatch [lit "Content-Length" ++ crlf ++ crlf] [] = ([], Panic e))
  /\ (exists e, run checks log_parse log_dispatch [lit "Content-Length: -2" ++ crlf ++ crlf] [] = ([], Panic e))
  /\ (exists e, run checks log_parse log_dispatch
                  [lit "Content-Length: 1" ++ crlf ++ crlf ++ utf8 [233%N]] [] = ([], Panic e)).
Proof. intros []; repeat split; eexists; vm_compute; reflexivity. Qed.
Print Assumptions C41_header_refuted.

(** But nothing else does: if parsing and dispatching do not panic, then for every stream
    of bytes, well-formed or not, a panic means that the stream contains a malformed
    header before a blank line. *)
Theorem C41_only_malformed_partial :
  forall (St V : Type) (checks : bool) (from_str : bytes -> res V)
    (dispatch : St -> V -> St * res unit),
  (forall b, is_panic (from_str b) = false) ->
  (forall st v, is_panic (snd (dispatch st v)) = false) ->
  forall reads st st' e, (Z.of_nat (length (concat reads)) < 9223372036854775808)%Z ->
  run checks from_str dispatch reads st = (st', Panic e) ->
  exists a h t c, concat reads = a ++ (h ++ crlf ++ crlf ++ t) ++ c /\ malformed h t.
Proof. exact @run_panic. Qed.
Print Assumptions C41_only_malformed_partial.

Example C41_example :
  (forall b, is_panic (log_parse b) = false) /\ (forall st v, is_panic (snd (log_dispatch st v)) = false)
  /\ log_run [lit "Content-Length: +2" ++ crlf ++ crlf ++ lit "{}"] [] = ([lit "{}"], Ok tt)
  /\ exists e, log_run [lit "Content-Length: two" ++ crlf ++ crlf ++ lit "{}"] [] = ([], Err e).
Proof. repeat split. eexists. vm_compute. reflexivity. Qed.

(** A header without a length makes the server ignore everything that follows, for ever. *)
Theorem C41_no_length_blocks :
  forall (St V : Type) (checks : bool) (from_str : bytes -> res V)
    (dispatch : St -> V -> St * res unit) fields reads st,
  fields <> [] -> Forall well_formed_field fields ->
  ~ (exists v, In (lit "Content-Length", v) fields) -> Forall valid reads ->
  run checks from_str dispatch (frame fields [] :: reads) st = (st, Ok tt).
Proof. exact @no_length_stuck. Qed.
Print Assumptions C41_no_length_blocks.

Example C41_blocks_example :
  log_run [frame [(lit "Content-Type", lit "json")] []; raw hello; raw world] [] = ([], Ok tt).
Proof. vm_compute. reflexivity. Qed.

(** * C42: what the server writes, a server like it can read *)

(** Messages of any text, written one after the other and read one at a time. *)
Theorem C42_written_is_read :
  forall (St V : Type) (checks : bool) (from_str : bytes -> res V)
    (dispatch : St -> V -> St * res unit) (msgs : list str) st,
  Forall (fun m => Forall scalar m /\ (N.of_nat (length (utf8 m)) < 2147483648)%N) msgs ->
  run checks from_str dispatch (map send_message msgs) st
  = handle from_str dispatch (map utf8 msgs) st.
Proof. exact @written_is_read. Qed.
Print Assumptions C42_written_is_read.

(** What is written is a well-formed message with that body, so that C38 to C40 apply to
    it for every other chunking, and decoding the body gives the text back. *)
Theorem C42_written_is_well_formed : forall msg, Forall scalar msg ->
  (N.of_nat (length (utf8 msg)) < 2147483648)%N ->
  well_framed (send_message msg) (utf8 msg) /\ from_utf8 (utf8 msg) = Some msg.
Proof. exact written_is_well_formed. Qed.
Print Assumptions C42_written_is_well_formed.

Example C42_example :
  send_message [123; 233; 125]%N
  = lit "Content-Length: 4" ++ [13; 10; 13; 10; 123; 195; 169; 125]%N.
Proof. vm_compute. reflexivity. Qed.

(** * C43: semantic tokens decode to the positions of the tokens *)

(** With and without overflow checks: computing the relative positions succeeds, and a
    client that decodes them gets the line, the start and the width of every token, in
    order, each with the type of its kind. *)
Theorem C43_decodes : forall seg, seg_laws seg -> forall checks s ts,
  tokenize_str seg s = Ok ts -> (N.of_nat (length s) < 4294967296)%N ->
  exists sts, separate checks ts = Ok sts
    /\ map fst (decode 0 0 sts) = map span ts
    /\ map token_type sts = map (fun t => token_kind_to_type (tk t)) ts.
Proof. exact semantic_tokens_decode. Qed.
Print Assumptions C43_decodes.

Example C43_example : exists ts sts,
  tokenize_str gseg (lit "a" ++ [10%N] ++ lit "[m.f b]") = Ok ts
  /\ separate true ts = Ok sts
  /\ decode 0 0 sts
     = [(0, 0, 1, 100); (0, 1, 1, 100); (1, 0, 1, 12); (1, 1, 1, 0); (1, 2, 1, 100); (1, 3, 1, 8);
        (1, 4, 1, 100); (1, 5, 1, 100); (1, 6, 1, 12); (1, 7, 0, 100)]%N.
Proof. do 2 eexists. split; [vm_compute; reflexivity|]. vm_compute. split; reflexivity. Qed.

(** * C44: the types of tokens and the announced legend *)

(** False: every answer to a request for semantic tokens contains a type that is not an
    index into the legend. *)
Theorem C44_outside_legend_refuted : forall seg, seg_laws seg -> forall checks s ts sts,
  tokenize_str seg s = Ok ts -> (N.of_nat (length s) < 4294967296)%N ->
  separate checks ts = Ok sts ->
  exists t, In t sts /\ nth_error legend (N.to_nat (token_type t)) = None.
Proof. exact always_outside. Qed.
Print Assumptions C44_outside_legend_refuted.

(** The types of modules, identifiers and brackets are the legend's entry of their name, ... *)
Theorem C44_shown_in_legend : forall k n, shown_as k = Some n ->
  nth_error legend (N.to_nat (token_kind_to_type k)) = Some n.
Proof. exact shown_type. Qed.
Print Assumptions C44_shown_in_legend.

(** ... and all other tokens have the number 100. *)
Theorem C44_others : forall k, shown_as k = None -> token_kind_to_type k = 100%N.
Proof. exact hidden_type. Qed.
Print Assumptions C44_others.

Example C44_example : length legend = 23
  /\ shown_as (TkIdent (lit "f")) = Some (lit "variable") /\ token_kind_to_type (TkIdent (lit "f")) = 8%N
  /\ shown_as TkEOF = None
  /\ exists ts sts, tokenize_str gseg [] = Ok ts /\ separate false ts = Ok sts
       /\ map token_type sts = [100%N].
Proof. repeat split. do 2 eexists. split; [vm_compute; reflexivity|]. vm_compute. split; reflexivity. Qed.

(** * C66: semantic token columns and the protocol's UTF-16 columns *)

(** True of ASCII text without carriage returns and without a line feed before a closing
    bracket: the position of every token is that of the protocol. *)
Theorem C66_ascii_partial : forall seg, seg_laws seg -> forall s ts,
  Forall (fun c => (c < 128)%N /\ c <> 13%N) s ->
  ~ occurs [10; 62]%N s -> ~ occurs [10; 125]%N s -> ~ occurs [10; 93]%N s ->
  tokenize_str seg s = Ok ts ->
  forall ts1 t ts2, ts = ts1 ++ t :: ts2 ->
  fst (span t) = utf16_position (source ts1).
Proof. exact utf16_columns. Qed.
Print Assumptions C66_ascii_partial.

Example C66_example :
  let s := lit "a" ++ [10%N] ++ lit "[f]" in
  Forall (fun c => (c < 128)%N /\ c <> 13%N) s /\ exists ts, tokenize_str gseg s = Ok ts
  /\ map (fun t => fst (span t)) ts
     = map utf16_position [[]; lit "a"; lit "a" ++ [10%N]; lit "a" ++ [10%N] ++ lit "[";
                           lit "a" ++ [10%N] ++ lit "[f"; lit "a" ++ [10%N] ++ lit "[f]"].
Proof.
  split.
  - cbn. repeat constructor; try lia; discriminate.
  - eexists. vm_compute. split; reflexivity.
Qed.

(** For every text and every token: its position is that of the protocol exactly if every line
    feed before it was read as a newline token and every cluster before it on its line is one
    character of the basic multilingual plane. *)
Theorem C66_exactly : forall seg, seg_laws seg -> forall s ts, tokenize_str seg s = Ok ts ->
  forall ts1 t ts2, ts = ts1 ++ t :: ts2 ->
  (fst (span t) = utf16_position (source ts1) <->
   own_lines ts1 /\ Forall (fun g => exists c, g = [c] /\ (c < 0x10000)%N) (seg (after_lf (source ts1)))).
Proof. exact utf16_exactly. Qed.
Print Assumptions C66_exactly.

(** Two lines: the first with a character outside the plane, the second with Japanese text. *)
Example C66_exactly_example : exists t1 t2 t3 t4 t5,
  tokenize_str gseg ([0x1F600; 10; 0x3042; 0x3044; 0x5B]%N) = Ok [t1; t2; t3; t4; t5] /\
  own_lines [t1; t2; t3] /\
  gseg (after_lf (source [t1; t2; t3])) = [[0x3042]; [0x3044]]%N /\
  fst (span t4) = (1, 2)%N /\ utf16_position (source [t1; t2; t3]) = (1, 2)%N /\
  fst (span t2) = (0, 1)%N /\ utf16_position (source [t1]) = (0, 2)%N.
Proof.
  do 5 eexists. split; [vm_compute; reflexivity|]. split.
  - intros t [<-|[<-|[<-|[]]]] H I.
    + destruct I as [I|[]]. discriminate I.
    + apply H; reflexivity.
    + destruct I as [I|[I|[]]]; discriminate I.
  - vm_compute. repeat split; reflexivity.
Qed.

(** False in general: after a character outside the basic multilingual plane the column of
    the end of file is off by one. *)
Theorem C66_utf16_refuted : forall seg, seg_laws seg ->
  exists s ts ts1 t ts2, tokenize_str seg s = Ok ts /\ ts = ts1 ++ t :: ts2 /\ source ts1 = s
    /\ fst (span t) = (0%N, 1%N) /\ utf16_position (source ts1) = (0%N, 2%N).
Proof. exact utf16_refuted. Qed.
Print Assumptions C66_utf16_refuted.
