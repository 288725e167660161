(** Property theorems C01-C09, C89 and C90 (tokenizer). [seg] is the grapheme segmenter of the Unicode crate;
    UAX29.v proves that the UAX #29 rules satisfy [seg_laws]. *)
From Coq Require Import String List NArith ZArith.
From Verif Require Import Base Tokens Graphemes UAX29 Tokenizer SpecTok
  TokenizerProofs TokenizerProofs2 TokenizerWitness PositionProofs Overflow OverflowProofs.
Import ListNotations.

Theorem C00_grapheme_laws_hold : forall cl, ascii_table cl -> seg_laws (useg cl).
Proof. exact useg_laws. Qed.
Print Assumptions C00_grapheme_laws_hold.

(** ** C01 *)
Theorem C01_tokenize_total : forall seg, seg_laws seg ->
  forall s, exists ts, tokenize_str seg s = Ok ts.
Proof. exact tokenize_total. Qed.
Print Assumptions C01_tokenize_total.

Example C01_example : map tk (match tokenize_str gseg (lit "x [m.f a, b]") with Ok ts => ts | _ => [] end) =
  [TkText (lit "x "); TkSquareOpen; TkModule (lit "m"); TkDot; TkIdent (lit "f"); TkWhiteSpace;
   TkText (lit "a"); TkComma; TkWhiteSpace; TkText (lit "b"); TkSquareClose; TkEOF].
Proof. vm_compute. reflexivity. Qed.

(** ** C02 *)
Theorem C02_single_final_eof : forall seg, seg_laws seg ->
  forall s ts, tokenize_str seg s = Ok ts ->
  exists body e, ts = body ++ [mktok TkEOF e] /\
    Forall (fun t => tk t <> TkEOF /\ tk t <> TkEmpty) body.
Proof. exact (fun seg L s ts H => cut_eof_last _ _ _ _ (tokenize_cut seg L s ts H)). Qed.
Print Assumptions C02_single_final_eof.

Example C02_example : exists ts, tokenize_str gseg (lit "]] \\ {") = Ok ts /\ length ts = 8.
Proof. eexists. vm_compute. split; reflexivity. Qed.

(** ** C03 *)
Theorem C03_lossless : forall seg, seg_laws seg ->
  forall s ts, tokenize_str seg s = Ok ts ->
  exists rest, s = source ts ++ rest /\ (rest = [] \/ exists r, rest = 0%N :: r) /\ ~ In 0%N (source ts).
Proof. exact tokenize_lossless. Qed.
Print Assumptions C03_lossless.

Theorem C03_lossless_without_nul : forall seg, seg_laws seg ->
  forall s ts, tokenize_str seg s = Ok ts -> ~ In 0%N s -> source ts = s.
Proof. exact tokenize_lossless_nonul. Qed.
Print Assumptions C03_lossless_without_nul.

Example C03_example : exists ts, tokenize_str gseg (lit "a[b c" ++ [0%N] ++ lit "lost") = Ok ts /\
  source ts = lit "a[b c".
Proof. eexists. vm_compute. split; reflexivity. Qed.

(** ** C04 *)
Theorem C04_ranges_tile : forall seg, seg_laws seg ->
  forall s ts, tokenize_str seg s = Ok ts -> tiled (fun v => length (seg v)) 0 0 ts.
Proof. exact tokenize_tiled. Qed.
Print Assumptions C04_ranges_tile.

Example C04_example : exists ts, tokenize_str gseg (lit "ab" ++ [0x301; 10]%N ++ lit "[c]") = Ok ts /\
  map (fun t => (pline (lstart (tl t)), pchar (lstart (tl t)), pchar (lend (tl t)))) ts =
  [(0, 0, 2); (0, 2, 3); (1, 0, 1); (1, 1, 2); (1, 2, 3); (1, 3, 3)].
Proof. eexists. vm_compute. split; reflexivity. Qed.

(** ** C05: true outside two neighbourhoods (line feed before a closing bracket, CRLF), false in them. *)
Theorem C05_true_positions_partial : forall seg, seg_laws seg -> forall s ts,
  ~ occurs [13%N; 10%N] s ->
  ~ occurs [10%N; 62%N] s -> ~ occurs [10%N; 125%N] s -> ~ occurs [10%N; 93%N] s ->
  tokenize_str seg s = Ok ts ->
  forall ts1 t ts2, ts = ts1 ++ t :: ts2 -> lstart (tl t) = true_pos seg (source ts1).
Proof. exact tokenize_true_pos. Qed.
Print Assumptions C05_true_positions_partial.

(** For every text and every token: its position is the true one exactly if every line feed
    before it was read as a newline token. *)
Theorem C05_exactly : forall seg, seg_laws seg -> forall s ts, tokenize_str seg s = Ok ts ->
  forall ts1 t ts2, ts = ts1 ++ t :: ts2 ->
  (lstart (tl t) = true_pos seg (source ts1) <-> own_lines ts1).
Proof. exact true_pos_exactly. Qed.
Print Assumptions C05_exactly.

Example C05_exactly_example : exists t1 t2 t3 t4 t5 t6,
  tokenize_str gseg ([10%N] ++ lit "[" ++ [10%N] ++ lit "]a") = Ok [t1; t2; t3; t4; t5; t6] /\
  own_lines [t1; t2] /\ lstart (tl t3) = true_pos gseg (source [t1; t2]) /\
  tk t3 = TkIdent [10%N] /\ lstart (tl t4) = mkpos 1 2 /\ true_pos gseg (source [t1; t2; t3]) = mkpos 2 0.
Proof.
  do 6 eexists. split; [vm_compute; reflexivity|]. split.
  - intros t [<-|[<-|[]]] H I; [apply H; reflexivity|]. destruct I as [I|[]]. discriminate I.
  - vm_compute. repeat split; reflexivity.
Qed.

Theorem C05_true_positions_refuted : forall seg, seg_laws seg ->
  exists s ts ts1 t ts2, tokenize_str seg s = Ok ts /\ ts = ts1 ++ t :: ts2 /\
    lstart (tl t) <> true_pos seg (source ts1).
Proof. exact true_positions_refuted. Qed.
Print Assumptions C05_true_positions_refuted.

Theorem C05_crlf_refuted :
  exists s ts ts1 t ts2, ~ occurs [10%N; 62%N] s /\ ~ occurs [10%N; 125%N] s /\ ~ occurs [10%N; 93%N] s /\
    tokenize_str gseg s = Ok ts /\ ts = ts1 ++ t :: ts2 /\
    lstart (tl t) <> true_pos gseg (source ts1).
Proof. exact crlf_refuted. Qed.
Print Assumptions C05_crlf_refuted.

Example C05_example : exists ts, tokenize_str gseg (lit "a" ++ [10%N] ++ lit "[b.c d]") = Ok ts /\
  nth_error (map (fun t => lstart (tl t)) ts) 6 = Some (mkpos 1 4) /\
  true_pos gseg (lit "a" ++ [10%N] ++ lit "[b.c") = mkpos 1 4.
Proof. eexists. vm_compute. repeat split; reflexivity. Qed.

(** ** C06 *)
Theorem C06_lexical_classes : forall seg, seg_laws seg ->
  forall s ts, tokenize_str seg s = Ok ts ->
  forall ts1 t ts2, ts = ts1 ++ t :: ts2 ->
  match tk t with
  | TkText v | TkModule v => v <> [] /\ forall x, special x -> ~ In [x] (seg v)
  | TkIdent v => exists q g, seg v = q ++ [g] /\ (forall x, special x -> ~ In [x] q) /\
      g <> [92%N] /\ g <> [0%N] /\
      ((exists x, special x /\ g = [x]) -> exists d r, In d (lit ">}]") /\ source ts2 = d :: r)
  | _ => True
  end.
Proof. exact tokenize_lex. Qed.
Print Assumptions C06_lexical_classes.

Example C06_example : exists ts, tokenize_str gseg (lit "[a<]") = Ok ts /\
  map tk ts = [TkSquareOpen; TkText (lit "a"); TkIdent (lit "<"); TkSquareClose; TkEOF].
Proof. eexists. vm_compute. split; reflexivity. Qed.

(** ** C07 *)
Theorem C07_plain_lines : forall seg, seg_laws seg -> forall ls ts,
  (forall l, In l ls -> (forall c, In c l -> ~ In c markup /\ c <> 10%N /\ c <> 0%N) /\
                        (forall l', l <> l' ++ [13%N])) ->
  tokenize_str seg (join_lines ls) = Ok ts -> map tk ts = lines_kinds ls.
Proof. exact tokenize_plain. Qed.
Print Assumptions C07_plain_lines.

Example C07_example : exists ts, tokenize_str gseg (join_lines [lit "a. b, c"; []; lit "d"]) = Ok ts /\
  map tk ts = [TkText (lit "a. b, c"); TkNewLine; TkNewLine; TkText (lit "d"); TkEOF].
Proof. eexists. vm_compute. split; reflexivity. Qed.

(** ** C08: false; what holds is that a backslash never influences how the rest is tokenized, so an
    escaped bracket counts exactly like an unescaped one. *)
Theorem C08_escape_neutral_refuted : forall seg, seg_laws seg ->
  exists b tb ts, tokenize_str seg b = Ok tb /\ tokenize_str seg (lit "\[" ++ b) = Ok ts /\
    map tk ts <> TkBackSlash :: TkSquareOpen :: map tk tb.
Proof. exact escape_neutral_refuted. Qed.
Print Assumptions C08_escape_neutral_refuted.

Theorem C08_escape_close_refuted : forall seg, seg_laws seg ->
  exists b tb ts, tokenize_str seg b = Ok tb /\ tokenize_str seg (lit "\]" ++ b) = Ok ts /\
    map tk ts <> TkBackSlash :: TkSquareClose :: map tk tb.
Proof. exact escape_close_refuted. Qed.
Print Assumptions C08_escape_close_refuted.

Theorem C08_backslash_transparent_partial : forall seg, seg_laws seg -> forall s ts,
  seg (92%N :: s) = [92%N] :: seg s ->
  tokenize_str seg s = Ok ts ->
  tokenize_str seg (92%N :: s) =
    Ok (mktok TkBackSlash (mkloc (mkpos 0 0) (mkpos 0 1)) :: map (shift_tok 0 1) ts).
Proof. exact tokenize_backslash. Qed.
Print Assumptions C08_backslash_transparent_partial.

Example C08_example : gseg (92%N :: lit "[a b") = [92%N] :: gseg (lit "[a b") /\
  exists ts, tokenize_str gseg (lit "[a b") = Ok ts /\
  map tk ts = [TkSquareOpen; TkIdent (lit "a"); TkWhiteSpace; TkText (lit "b"); TkEOF].
Proof. vm_compute. split; [reflexivity|]. eexists. split; reflexivity. Qed.

(** ** C09 *)
Theorem C09_paragraphs_independent : forall seg, seg_laws seg -> forall a b ta ea tb,
  (forall a', a <> a' ++ [13%N]) -> ~ In 0%N a ->
  tokenize_str seg (a ++ [10%N]) = Ok (ta ++ [ea]) ->
  countk opening ta = countk closing ta -> pending ta = false ->
  tokenize_str seg b = Ok tb ->
  tokenize_str seg (a ++ [10%N] ++ b) = Ok (ta ++ map (shift_tok (countk newline ta) 0) tb).
Proof. exact tokenize_compose. Qed.
Print Assumptions C09_paragraphs_independent.

Example C09_example : exists ta ea, tokenize_str gseg (lit "x {m.f [n.g y]}" ++ [10%N]) = Ok (ta ++ [ea]) /\
  countk opening ta = 2 /\ countk closing ta = 2 /\ pending ta = false /\ countk newline ta = 1.
Proof.
  destruct (tokenize_str gseg (lit "x {m.f [n.g y]}" ++ [10%N])) as [ts| | |] eqn:E;
    [|vm_compute in E; discriminate E..].
  exists (removelast ts), (last ts (mktok TkEOF mock_location)). vm_compute in E. injection E as <-.
  vm_compute. repeat split; reflexivity.
Qed.

(** ** C89 *)
Theorem C89_no_overflow : forall seg, seg_laws seg -> forall s,
  (Z.of_nat (brackets s) < 2 ^ 31)%Z -> (Z.of_nat (length s) < 2 ^ 64)%Z ->
  tokenize_checked seg s = tokenize_str seg s.
Proof. exact no_overflow. Qed.
Print Assumptions C89_no_overflow.

Theorem C89_overflow : forall seg, seg_laws seg -> forall n, (2 ^ 31 <= Z.of_nat n)%Z ->
  tokenize_checked seg (repeat 91%N n) = Panic (lit "attempt to add with overflow").
Proof. exact overflows. Qed.
Print Assumptions C89_overflow.

Example C89_example : brackets (lit "x {m.f [n.g \[y]}") = 5 /\
  (exists ts, tokenize_checked gseg (lit "x {m.f [n.g \[y]}") = Ok ts /\ length ts = 17) /\
  exists n, (2 ^ 31 <= Z.of_nat n)%Z.
Proof.
  split; [reflexivity|]. split; [eexists; vm_compute; split; reflexivity|].
  exists (Z.to_nat (2 ^ 31)). rewrite Z2Nat.id; apply Z.leb_le; reflexivity.
Qed.

(** ** C90 *)
(** [n] nested calls of dispatch are enough exactly if there are fewer clusters than that. *)
Theorem C90_depth : forall seg, seg_laws seg -> forall s n,
  dispatch seg n (t_start s) =
  if (n <=? length (until_nul (seg s)))%nat then Fuel else tokenize_str seg s.
Proof. exact depth. Qed.
Print Assumptions C90_depth.

Example C90_example :
  dispatch gseg 9 (t_start (lit "[m.f abc]" ++ [0%N] ++ lit "x")) = Fuel /\
  exists ts, dispatch gseg 10 (t_start (lit "[m.f abc]" ++ [0%N] ++ lit "x")) = Ok ts /\ length ts = 8.
Proof. vm_compute. split; [reflexivity|]. eexists. split; reflexivity. Qed.
