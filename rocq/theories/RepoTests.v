(** The unit tests of /repo, replayed on the model. Generated from the sources: each example cites its test. *)
From Coq Require Import String List NArith ZArith.
From Verif Require Import Base Tokens Graphemes UAX29 Tokenizer CST Parser Kinds.
Import ListNotations.

Definition at_ (k : tkind) (l c l2 c2 : nat) : token := mktok k (mkloc (mkpos l c) (mkpos l2 c2)).

(** brack-tokenizer/src/tokenize.rs 39, on brack-tokenizer/test/split_no_commands.[] *)
Example test_split_no_commands :
  tokenize_str gseg (lit "Hello, World!") =
  Ok [(at_ (TkText (lit "Hello, World!")) 0 0 0 13);
      (at_ TkEOF 0 13 0 13)].
Proof. vm_compute. reflexivity. Qed.

(** brack-tokenizer/src/tokenize.rs 78, on brack-tokenizer/test/split_commands_with_an_argument_includes_square_brackets.[] *)
Example test_split_commands_with_an_argument_includes_square_brackets :
  tokenize_str gseg (lit "Hello, [std.* World!]") =
  Ok [(at_ (TkText (lit "Hello, ")) 0 0 0 7);
      (at_ TkSquareOpen 0 7 0 8);
      (at_ (TkModule (lit "std")) 0 8 0 11);
      (at_ TkDot 0 11 0 12);
      (at_ (TkIdent (lit "*")) 0 12 0 13);
      (at_ TkWhiteSpace 0 13 0 14);
      (at_ (TkText (lit "World!")) 0 14 0 20);
      (at_ TkSquareClose 0 20 0 21);
      (at_ TkEOF 0 21 0 21)].
Proof. vm_compute. reflexivity. Qed.

(** brack-tokenizer/src/tokenize.rs 196, on brack-tokenizer/test/split_commands_with_an_argument_includes_curly_brackets.[] *)
Example test_split_commands_with_an_argument_includes_curly_brackets :
  tokenize_str gseg (lit "Hello, {std.* World!}") =
  Ok [(at_ (TkText (lit "Hello, ")) 0 0 0 7);
      (at_ TkCurlyOpen 0 7 0 8);
      (at_ (TkModule (lit "std")) 0 8 0 11);
      (at_ TkDot 0 11 0 12);
      (at_ (TkIdent (lit "*")) 0 12 0 13);
      (at_ TkWhiteSpace 0 13 0 14);
      (at_ (TkText (lit "World!")) 0 14 0 20);
      (at_ TkCurlyClose 0 20 0 21);
      (at_ TkEOF 0 21 0 21)].
Proof. vm_compute. reflexivity. Qed.

(** brack-tokenizer/src/tokenize.rs 314, on brack-tokenizer/test/split_commands_with_an_argument_includes_angle_brackets.[] *)
Example test_split_commands_with_an_argument_includes_angle_brackets :
  tokenize_str gseg (lit "Hello, <* World!>") =
  Ok [(at_ (TkText (lit "Hello, ")) 0 0 0 7);
      (at_ TkAngleOpen 0 7 0 8);
      (at_ (TkIdent (lit "*")) 0 8 0 9);
      (at_ TkWhiteSpace 0 9 0 10);
      (at_ (TkText (lit "World!")) 0 10 0 16);
      (at_ TkAngleClose 0 16 0 17);
      (at_ TkEOF 0 17 0 17)].
Proof. vm_compute. reflexivity. Qed.

(** brack-tokenizer/src/tokenize.rs 409, on brack-tokenizer/test/split_commands_with_two_arguments_includes_square_brackets.[] *)
Example test_split_commands_with_two_arguments_includes_square_brackets :
  tokenize_str gseg (lit "Hello, [std.@ World!, https://example\.com/]") =
  Ok [(at_ (TkText (lit "Hello, ")) 0 0 0 7);
      (at_ TkSquareOpen 0 7 0 8);
      (at_ (TkModule (lit "std")) 0 8 0 11);
      (at_ TkDot 0 11 0 12);
      (at_ (TkIdent (lit "@")) 0 12 0 13);
      (at_ TkWhiteSpace 0 13 0 14);
      (at_ (TkText (lit "World!")) 0 14 0 20);
      (at_ TkComma 0 20 0 21);
      (at_ TkWhiteSpace 0 21 0 22);
      (at_ (TkText (lit "https://example")) 0 22 0 37);
      (at_ TkBackSlash 0 37 0 38);
      (at_ TkDot 0 38 0 39);
      (at_ (TkText (lit "com/")) 0 39 0 43);
      (at_ TkSquareClose 0 43 0 44);
      (at_ TkEOF 0 44 0 44)].
Proof. vm_compute. reflexivity. Qed.

(** brack-tokenizer/src/tokenize.rs 593, on brack-tokenizer/test/split_nesting_commands.[] *)
Example test_split_nesting_commands :
  tokenize_str gseg (lit "Hello, [std.* [std.@ World!, https://example\.com/]]") =
  Ok [(at_ (TkText (lit "Hello, ")) 0 0 0 7);
      (at_ TkSquareOpen 0 7 0 8);
      (at_ (TkModule (lit "std")) 0 8 0 11);
      (at_ TkDot 0 11 0 12);
      (at_ (TkIdent (lit "*")) 0 12 0 13);
      (at_ TkWhiteSpace 0 13 0 14);
      (at_ TkSquareOpen 0 14 0 15);
      (at_ (TkModule (lit "std")) 0 15 0 18);
      (at_ TkDot 0 18 0 19);
      (at_ (TkIdent (lit "@")) 0 19 0 20);
      (at_ TkWhiteSpace 0 20 0 21);
      (at_ (TkText (lit "World!")) 0 21 0 27);
      (at_ TkComma 0 27 0 28);
      (at_ TkWhiteSpace 0 28 0 29);
      (at_ (TkText (lit "https://example")) 0 29 0 44);
      (at_ TkBackSlash 0 44 0 45);
      (at_ TkDot 0 45 0 46);
      (at_ (TkText (lit "com/")) 0 46 0 50);
      (at_ TkSquareClose 0 50 0 51);
      (at_ TkSquareClose 0 51 0 52);
      (at_ TkEOF 0 52 0 52)].
Proof. vm_compute. reflexivity. Qed.

(** brack-tokenizer/src/tokenize.rs 843, on brack-tokenizer/test/split_newlines.[] *)
Example test_split_newlines :
  tokenize_str gseg ([72; 101; 108; 108; 111; 44; 10; 87; 111; 114; 108; 100; 44; 10; 123; 115; 116; 100; 46; 42; 42; 32; 67; 111; 110; 116; 97; 99; 116; 125; 10; 91; 115; 116; 100; 46; 64; 32; 77; 121; 32; 119; 101; 98; 115; 105; 116; 101; 44; 32; 104; 116; 116; 112; 115; 58; 47; 47; 101; 120; 97; 109; 112; 108; 101; 92; 46; 99; 111; 109; 47; 93; 10; 10; 50; 48; 50; 51; 46; 49; 50; 46; 50; 56]%N) =
  Ok [(at_ (TkText (lit "Hello,")) 0 0 0 6);
      (at_ TkNewLine 0 6 0 7);
      (at_ (TkText (lit "World,")) 1 0 1 6);
      (at_ TkNewLine 1 6 1 7);
      (at_ TkCurlyOpen 2 0 2 1);
      (at_ (TkModule (lit "std")) 2 1 2 4);
      (at_ TkDot 2 4 2 5);
      (at_ (TkIdent (lit "**")) 2 5 2 7);
      (at_ TkWhiteSpace 2 7 2 8);
      (at_ (TkText (lit "Contact")) 2 8 2 15);
      (at_ TkCurlyClose 2 15 2 16);
      (at_ TkNewLine 2 16 2 17);
      (at_ TkSquareOpen 3 0 3 1);
      (at_ (TkModule (lit "std")) 3 1 3 4);
      (at_ TkDot 3 4 3 5);
      (at_ (TkIdent (lit "@")) 3 5 3 6);
      (at_ TkWhiteSpace 3 6 3 7);
      (at_ (TkText (lit "My")) 3 7 3 9);
      (at_ TkWhiteSpace 3 9 3 10);
      (at_ (TkText (lit "website")) 3 10 3 17);
      (at_ TkComma 3 17 3 18);
      (at_ TkWhiteSpace 3 18 3 19);
      (at_ (TkText (lit "https://example")) 3 19 3 34);
      (at_ TkBackSlash 3 34 3 35);
      (at_ TkDot 3 35 3 36);
      (at_ (TkText (lit "com/")) 3 36 3 40);
      (at_ TkSquareClose 3 40 3 41);
      (at_ TkNewLine 3 41 3 42);
      (at_ TkNewLine 4 0 4 1);
      (at_ (TkText (lit "2023.12.28")) 5 0 5 10);
      (at_ TkEOF 5 10 5 10)].
Proof. vm_compute. reflexivity. Qed.

(** brack-tokenizer/src/tokenize.rs 1206, on brack-tokenizer/test/split_japanese_and_emoji.[] *)
Example test_split_japanese_and_emoji :
  tokenize_str gseg ([12371; 12435; 12395; 12385; 12399; 65281; 127471; 127477]%N) =
  Ok [(at_ (TkText ([12371; 12435; 12395; 12385; 12399; 65281; 127471; 127477]%N)) 0 0 0 7);
      (at_ TkEOF 0 7 0 7)].
Proof. vm_compute. reflexivity. Qed.

(** brack-tokenizer/src/angle_bracket_open.rs 60 *)
Example test_angle_bracket_open : tokenize_str gseg (lit "<") = Ok [at_ TkAngleOpen 0 0 0 1; at_ TkEOF 0 1 0 1].
Proof. vm_compute. reflexivity. Qed.

(** brack-tokenizer/src/tokenizer.rs 76; the model has no [uri], which nothing reads *)
Example test_merge :
  let t n s b := mkT (Some n) (Some n) (Some n) (Some n) (Some s) (Some s) (Some [at_ (TkText s) n n n n]) (Some (Z.of_nat n)) (Some (Z.of_nat n))
                     (Some (Z.of_nat n)) (Some b) in
  merge (t 1 (lit "a") true) (t 2 (lit "b") false) = t 2 (lit "b") false.
Proof. vm_compute. reflexivity. Qed.

(** A test of [is_err()]. *)
Definition fails {A} (r : res A) : Prop := exists e, r = Err e.
Definition mock (k : tkind) : token := mktok k mock_location.
(** [cst.children()[i]]; an [Invalid] matches nothing, so the default value fails the tests as the panic of the index does. *)
Definition child (i : nat) (c : cst) : cst :=
  match cst_children c with Ok cs => nth i cs (new_invalid mock_location) | _ => new_invalid mock_location end.

(** brack-parser/src/angle.rs 93 *)
Example test_bracket_parse_valid_angle_bracket : exists c ts, b_parse 40 KAngle [mock TkAngleOpen; mock (TkModule (lit "std")); mock TkDot; mock (TkIdent (lit "*")); mock TkWhiteSpace; mock (TkText (lit "Hello!")); mock TkAngleClose] = Ok (c, ts) /\
  cst_matches_kind c new_angle = true /\ cst_matches_kind (child 0 c) (new_angle_open mock_location) = true /\ cst_matches_kind (child 1 c) new_expr = true /\ cst_matches_kind (child 0 (child 1 c)) (new_module (lit "std") mock_location) = true /\ cst_matches_kind (child 1 (child 1 c)) (new_dot mock_location) = true /\ cst_matches_kind (child 2 (child 1 c)) (new_ident (lit "*") mock_location) = true /\ cst_matches_kind (child 3 (child 1 c)) (new_whitespace mock_location) = true /\ cst_matches_kind (child 4 (child 1 c)) (new_text (lit "Hello!") mock_location) = true /\ cst_matches_kind (child 2 c) (new_angle_close mock_location) = true /\ length ts = 0.
Proof. do 2 eexists. vm_compute. repeat split; reflexivity. Qed.

(** brack-parser/src/angle.rs 139 *)
Example test_bracket_parse_invalid_angle_bracket : exists c ts, b_parse 40 KAngle [mock TkAngleOpen; mock (TkModule (lit "std")); mock TkDot; mock (TkIdent (lit "*")); mock TkWhiteSpace; mock (TkText (lit "Hello!")); mock TkEOF] = Ok (c, ts) /\
  cst_matches_kind c new_angle = true /\ cst_matches_kind (child 0 c) (new_angle_open mock_location) = true /\ cst_matches_kind (child 1 c) new_expr = true /\ cst_matches_kind (child 0 (child 1 c)) (new_module (lit "std") mock_location) = true /\ cst_matches_kind (child 1 (child 1 c)) (new_dot mock_location) = true /\ cst_matches_kind (child 2 (child 1 c)) (new_ident (lit "*") mock_location) = true /\ cst_matches_kind (child 3 (child 1 c)) (new_whitespace mock_location) = true /\ cst_matches_kind (child 4 (child 1 c)) (new_text (lit "Hello!") mock_location) = true /\ length ts = 1.
Proof. do 2 eexists. vm_compute. repeat split; reflexivity. Qed.

(** brack-parser/src/bracket_close.rs 38 *)
Example test_bracket_close_parse_only_angle_bracket_close : exists c ts, bracket_close_parse [mock TkAngleClose] = Ok (c, ts) /\
  length ts = 0 /\ cst_matches_kind c (new_angle_close mock_location) = true.
Proof. do 2 eexists. vm_compute. repeat split; reflexivity. Qed.

(** brack-parser/src/bracket_close.rs 50 *)
Example test_bracket_close_parse_only_square_bracket_close : exists c ts, bracket_close_parse [mock TkSquareClose] = Ok (c, ts) /\
  length ts = 0 /\ cst_matches_kind c (new_square_close mock_location) = true.
Proof. do 2 eexists. vm_compute. repeat split; reflexivity. Qed.

(** brack-parser/src/bracket_close.rs 62 *)
Example test_bracket_close_parse_only_curly_bracket_close : exists c ts, bracket_close_parse [mock TkCurlyClose] = Ok (c, ts) /\
  length ts = 0 /\ cst_matches_kind c (new_curly_close mock_location) = true.
Proof. do 2 eexists. vm_compute. repeat split; reflexivity. Qed.

(** brack-parser/src/bracket_close.rs 74 *)
Example test_bracket_close_parse_failures :
  fails (bracket_close_parse []) /\ fails (bracket_close_parse [mock TkAngleOpen]) /\ fails (bracket_close_parse [mock TkSquareOpen]) /\ fails (bracket_close_parse [mock TkCurlyOpen]).
Proof. vm_compute. repeat split; eexists; reflexivity. Qed.

(** brack-parser/src/comma.rs 26 *)
Example test_comma_parse_only_comma : exists c ts, comma_parse [mock TkComma] = Ok (c, ts) /\
  length ts = 0 /\ cst_matches_kind c (new_comma mock_location) = true.
Proof. do 2 eexists. vm_compute. repeat split; reflexivity. Qed.

(** brack-parser/src/comma.rs 35 *)
Example test_comma_parse_failure :
  fails (comma_parse [mock TkAngleOpen]).
Proof. vm_compute. repeat split; eexists; reflexivity. Qed.

(** brack-parser/src/dot.rs 27 *)
Example test_dot_parse_only_dot : exists c ts, dot_parse [mock TkDot] = Ok (c, ts) /\
  length ts = 0 /\ cst_matches_kind c (new_dot mock_location) = true.
Proof. do 2 eexists. vm_compute. repeat split; reflexivity. Qed.

(** brack-parser/src/dot.rs 36 *)
Example test_dot_parse_failures :
  fails (dot_parse []) /\ fails (dot_parse [mock TkAngleOpen]).
Proof. vm_compute. repeat split; eexists; reflexivity. Qed.

(** brack-parser/src/eof.rs 27 *)
Example test_eof_parse_only_eof : exists c ts, eof_parse [mock TkEOF] = Ok (c, ts) /\
  length ts = 0 /\ cst_matches_kind c (new_eof mock_location) = true.
Proof. do 2 eexists. vm_compute. repeat split; reflexivity. Qed.

(** brack-parser/src/eof.rs 36 *)
Example test_eof_parse_failure :
  fails (eof_parse []) /\ fails (eof_parse [mock TkAngleOpen]).
Proof. vm_compute. repeat split; eexists; reflexivity. Qed.

(** brack-parser/src/escaped.rs 87 *)
Example test_escaped_parse_valid_dot : exists c ts, escaped_parse [mock TkBackSlash; mock TkDot] = Ok (c, ts) /\
  length ts = 0 /\ cst_matches_kind c (new_backslash mock_location) = true /\ cst_matches_kind (child 0 c) (new_text (lit ".") mock_location) = true.
Proof. do 2 eexists. vm_compute. repeat split; reflexivity. Qed.

(** brack-parser/src/escaped.rs 103 *)
Example test_escaped_parse_valid_comma : exists c ts, escaped_parse [mock TkBackSlash; mock TkComma] = Ok (c, ts) /\
  length ts = 0 /\ cst_matches_kind c (new_backslash mock_location) = true /\ cst_matches_kind (child 0 c) (new_text (lit ",") mock_location) = true.
Proof. do 2 eexists. vm_compute. repeat split; reflexivity. Qed.

(** brack-parser/src/escaped.rs 119 *)
Example test_escaped_parse_valid_bracket_open : exists c ts, escaped_parse [mock TkBackSlash; mock TkAngleOpen] = Ok (c, ts) /\
  length ts = 0 /\ cst_matches_kind c (new_backslash mock_location) = true /\ cst_matches_kind (child 0 c) (new_text (lit "<") mock_location) = true.
Proof. do 2 eexists. vm_compute. repeat split; reflexivity. Qed.

(** brack-parser/src/escaped.rs 135 *)
Example test_escaped_parse_valid_bracket_close : exists c ts, escaped_parse [mock TkBackSlash; mock TkAngleClose] = Ok (c, ts) /\
  length ts = 0 /\ cst_matches_kind c (new_backslash mock_location) = true /\ cst_matches_kind (child 0 c) (new_text (lit ">") mock_location) = true.
Proof. do 2 eexists. vm_compute. repeat split; reflexivity. Qed.

(** brack-parser/src/escaped.rs 151 *)
Example test_escaped_parse_valid_backslash : exists c ts, escaped_parse [mock TkBackSlash; mock TkBackSlash] = Ok (c, ts) /\
  length ts = 0 /\ cst_matches_kind c (new_backslash mock_location) = true /\ cst_matches_kind (child 0 c) (new_text (lit "\") mock_location) = true.
Proof. do 2 eexists. vm_compute. repeat split; reflexivity. Qed.

(** brack-parser/src/escaped.rs 167 *)
Example test_escaped_parse_valid_text : exists c ts, escaped_parse [mock TkBackSlash; mock (TkText (lit "Hello!"))] = Ok (c, ts) /\
  length ts = 1 /\ cst_matches_kind c (new_backslash mock_location) = true /\ cst_children c = Ok [].
Proof. do 2 eexists. vm_compute. repeat split; reflexivity. Qed.

(** brack-parser/src/escaped.rs 180 *)
Example test_escaped_parse_failures :
  fails (escaped_parse []) /\ fails (escaped_parse [mock TkDot]) /\ fails (escaped_parse [mock TkComma]) /\ fails (escaped_parse [mock TkAngleOpen]) /\ fails (escaped_parse [mock TkAngleClose]) /\ fails (escaped_parse [mock (TkText (lit "Hello!"))]).
Proof. vm_compute. repeat split; eexists; reflexivity. Qed.

(** brack-parser/src/ident.rs 27 *)
Example test_ident_parse_only_ident : exists c ts, ident_parse [mock (TkIdent (lit "foo"))] = Ok (c, ts) /\
  length ts = 0 /\ cst_matches_kind c (new_ident (lit "foo") mock_location) = true.
Proof. do 2 eexists. vm_compute. repeat split; reflexivity. Qed.

(** brack-parser/src/ident.rs 39 *)
Example test_ident_parse_failure :
  fails (ident_parse [mock TkDot]).
Proof. vm_compute. repeat split; eexists; reflexivity. Qed.

(** brack-parser/src/modules.rs 27 *)
Example test_module_parse_only_module : exists c ts, module_parse [mock (TkModule (lit "module"))] = Ok (c, ts) /\
  length ts = 0 /\ cst_matches_kind c (new_module (lit "module") mock_location) = true.
Proof. do 2 eexists. vm_compute. repeat split; reflexivity. Qed.

(** brack-parser/src/modules.rs 39 *)
Example test_module_parse_failure :
  fails (module_parse [mock TkDot]).
Proof. vm_compute. repeat split; eexists; reflexivity. Qed.

(** brack-parser/src/newline.rs 27 *)
Example test_newline_parse_only_newline : exists c ts, newline_parse [mock TkNewLine] = Ok (c, ts) /\
  length ts = 0 /\ cst_matches_kind c (new_newline mock_location) = true.
Proof. do 2 eexists. vm_compute. repeat split; reflexivity. Qed.

(** brack-parser/src/newline.rs 36 *)
Example test_newline_parse_failure :
  fails (newline_parse [mock TkDot]).
Proof. vm_compute. repeat split; eexists; reflexivity. Qed.

(** brack-parser/src/text.rs 27 *)
Example test_text_parse_only_text : exists c ts, text_parse [mock (TkText (lit "text"))] = Ok (c, ts) /\
  length ts = 0 /\ cst_matches_kind c (new_text (lit "text") mock_location) = true.
Proof. do 2 eexists. vm_compute. repeat split; reflexivity. Qed.

(** brack-parser/src/text.rs 39 *)
Example test_text_parse_failure :
  fails (text_parse [mock TkDot]).
Proof. vm_compute. repeat split; eexists; reflexivity. Qed.

(** brack-parser/src/whitespace.rs 27 *)
Example test_whitespace_parse_only_whitespace : exists c ts, whitespace_parse [mock TkWhiteSpace] = Ok (c, ts) /\
  length ts = 0 /\ cst_matches_kind c (new_whitespace mock_location) = true.
Proof. do 2 eexists. vm_compute. repeat split; reflexivity. Qed.

(** brack-parser/src/whitespace.rs 36 *)
Example test_whitespace_parse_failure :
  fails (whitespace_parse [mock TkDot]).
Proof. vm_compute. repeat split; eexists; reflexivity. Qed.
