# Formal model of brack in Rocq (Coq 8.16.1)

`properties.jsonl` lists the properties, `rocq/theories` holds the model and the proofs,
`MANIFEST.json` maps properties to theorems, `seeded/LOG.jsonl` records mutation tests.

In that log `first_failing_lemmas` are the lemmas whose proof scripts stopped working in the edited model, and `failed` are all
property theorems whose proofs rest on one of them. So `failed` can contain theorems that are still true of the edited model. That
the edit makes a theorem about the broken claim false was judged by reading its statement, not proved. An id with `-again` is the
same edit repeated after a theorem was tightened.

## 1. Trusted base

* Coq's kernel (8.16.1), including `vm_compute`, which is used for concrete witnesses.
* Standard library only (`List`, `ZArith`, `NArith`, `Lia`, `String`, `Permutation`, ...).
  No plugin, no axiom of our own. Every property theorem is followed by `Print Assumptions`;
  the intended answer is `Closed under the global context` for all of them. A check of all loaded files also lists the fields of
  `Coq.ssr.ssrunder.Under_rel`, a sealed module of the standard library that its `ssreflect` files load; no theorem here uses them.
* The reading of the Rust sources: the model was transcribed by hand from `/repo`. Each model
  definition cites the file and lines it models and says where it simplifies. As a check of this reading, the unit tests of
  `/repo` (tokenizer and parser, 39 tests) are replayed on the model in `RepoTests.v`.

## 2. Layers

| layer | file(s) | what it models |
|---|---|---|
| values, results | `Base.v` | strings as lists of code points; `res` = `Ok`/`Err`/`Panic`/`Fuel` |
| graphemes | `Graphemes.v` | `unicode-segmentation` as *any* segmenter obeying the laws of `seg_laws`; the UAX#29 state machine (`UAX29.v`) is an instance |
| tokens, tokenizer | `Tokens.v`, `Tokenizer.v`, `Overflow.v` | `brack-tokenizer` |
| CST, parser | `CST.v`, `Parser.v` | `brack-parser` |
| AST, transformer | `AST.v`, `Transform.v` | `brack-transformer` |
| plugins | `Plugin.v` | `brack-plugin`, with the WASM call as an oracle on the call history |
| expander, codegen | `Expander.v`, `Codegen.v` | `brack-expander`, `brack-codegen` |
| pipeline | `Compile.v` | the five stages as `build` and `compile` run them |
| bytes | `Utf8.v` | UTF-8 encoding and decoding |
| language server | `Framing.v`, `SemTok.v`, `Server.v` | `brack-language-server` |
| project, CLI | `Project.v`, `Cli.v` | `brack-project-manager`, `src/main.rs` |
| JSON | `Json.v`, `Serde.v` | the serde derives used between host and plugins |
| output | `Show.v` | the texts printed by `compile`: derived `Debug` and serde code |
| comparing, displaying | `Kinds.v`, `Display.v` | `matches_kind`, `assert_ast_eq`, `Display` of CSTs and errors |
| spec | `Spec*.v` | grammar, positions, decoders: small definitions that do not use model helpers |
| theorems | `Props*.v` | the property theorems only, each closed by `exact`, with `Print Assumptions` |

Errors are values: `Err` is an `anyhow` error, `Panic` a Rust panic (index out of range, `unwrap`,
`panic!`, arithmetic overflow in debug), `Fuel` the artificial out-of-fuel value. For each fuelled function a
theorem excludes `Fuel` for the fuel the model passes.

## 3. Not modelled

* WASM execution (extism), HTTP (reqwest), terminal output, logging: oracles.
* Stack size: Rust's stack can overflow on large inputs, the model's cannot. How deep the tokenizer recurses is C90, how deep
  the parser nests its calls of `expr::parse` is C96 (between two of them are two more calls, of `bracket::parse` and of one of the three
  bracket parsers).
* `usize` and `i32` are unbounded integers, with these exceptions: the tokenizer has a variant with checked arithmetic (`Overflow.v`, C89),
  `arg_counter` (where overflow is reachable with two parameters), the semantic token deltas (`u32`) and `Content-Length` (`i32`).
* SHA-256 is computed (`Sha256.v`); that two given texts have no collision is an explicit hypothesis where it is needed.
  Which characters `{:?}` shows without escape is a parameter (`shown`).
* TOML syntax: `Toml.v` is a writer and a reader for TOML as the crates `toml` 0.8.19 and `toml_edit` 0.22.20 do it, written from the TOML
  1.0 specification and knowledge of these crates (they are not in the repository). Numbers, dates and arrays of tables are left out:
  the configuration has none; a text with them is rejected by the model, though the crate may read it.
* UUIDs: a fresh-name counter (distinct draws assumed).
* the help and error texts of `clap`, what is printed to stderr, the debug programs (`debug/*.rs`).

## 4. Properties: what is modelled and how each is proved

Tokenizer (C01-C09, C89, C90). `dispatch` and its handlers are modelled as one structural function over the grapheme list
(`separate` re-segments the remaining text at each step; the tail law shows that this is the same list). All theorems are for every
segmenter obeying the laws.
* C89, C90 (`OverflowProofs.v`): one step of `dispatch` is modelled apart from the recursion (`dispatch_step`), so that the same handlers
  run with checked integers (`dispatch_checked`) and with a bound on the depth (the fuel of `dispatch`).
* C01 induction on graphemes. C02, C03, C04, C06: one invariant on the tokenizer state (tokens so far, pool, start column, line).
* C05: invariant with true positions; `_refuted` by `[\n]`; conditional theorem.
* C07: induction on lines. C08: `_refuted`; the exact effect on the counters is proved as `_partial`.
* C09: simulation between two runs that differ by prefix tokens and line offset.

Parser (C10-C16, C60, C80, C88, C96). Fuelled mutual recursion with fuel 4n+4 for n tokens (`fuel_for`), which always suffices (`parse_safe`).
* C10 mutual induction on fuel. C11: leaves of the result ++ rest = input. C12: grammar as inductive predicates in `Spec`.
* C13: acceptance by induction on a bracket-balance derivation; rejection by inversion. C14: invariant on trees.
* C15, C16: `_refuted` with witnesses, plus exact/conditional theorems. `DocEnd.v` gives the end of a document exactly.
* C88 (`SpecGrow.v`, `GrowProofs.v`): `add` for any node and any children, and the panics of `add`, `children` and `value`.
* C96 (`SpecNesting.v`, `ParserDepth.v`): a second model of the parser with a limit on nested calls of `expr::parse`, compared with the
  first, for texts that parse and for texts that do not; `ParserReach.v`: the bound is reached, by opening brackets only.
* C80: `parse ts = Ok c` iff `tree_of ts c` (`SpecTree.v`); completeness by induction on fuel over the grammar of the tree.

Transformer (C17-C25, C61-C63, C79, C81, C82). `simplify` by structural recursion over CST; `aux` with an id counter.
* C17: the exact condition over the token kinds; `_refuted`; conditional theorem over texts combines tokenizer and parser invariants.
* C18, C19, C61: the meaning of a well-formed CST is a relation in `SpecTransform.v`, both directions and uniqueness.
* C20: words (names, texts, beginnings of commands, invalid escapes) preserved, from the tokens to the AST. C21, C23, C24: `_refuted` plus exact
  description of what happens. C22, C62: the errors of each kind are, in order, those of the nodes. C25: counter intervals.
* C79: the reading of any parsed tree, broken or not, is a second relation (`SpecReads.v`): soundness, uniqueness, completeness. C63 follows for every argument.
* C81: `squeeze` takes the spaces out of a tree; it maps the tree of the tokens to the tree of the stripped tokens (C80) and keeps the readings (C79). C82: the same with `closeup`, which closes every bracket.

Expander, codegen, plugins (C26-C37, C64, C65). A plugin is an oracle from the call history to a reply, so stateful plugins are included.
Overflow checks (debug/release) are a parameter of the model.
* C26, C28, C32, C37: `_refuted` plus exact description. C27, C30: relations `run` and `renders` between histories in `SpecGen.v`; C30 is an
  equivalence. C29: composition of C07 with parser/transformer/codegen. C31: every event of every run, failing runs included.
  C33: induction, and over texts. C34-C36, C64: fold invariants, permutations. C65: combination of C17, C28 and C32 over the pipeline `Compile.v`.

Language server (C38-C48). The read loop is a fold over chunks; messages as byte lists; UTF-8 decoding modelled.
* C38, C42: prefix theorem over all chunkings. C39-C41: `_refuted` + conditional. C43: decode of encode. C44, C45, C48: `_refuted` + exact.
* C46: invariant over histories. C47: map equality.
* C45-C48, C67-C71 (`Server.v`, spec in `SpecLsp.v`): `dispatch` is a function of the state, the message and an environment
  (URL parsing, files, project loading, WASM loading, hash-map order) about which nothing is assumed and which may change with
  every message. Not modelled: what `lsp_types` accepts beyond the fields read (`accepts`), and writing to a closed stdout.
  Whole sessions are `process_all`; `server_run_is_history` and `run_is_history` tie them to the byte loop of `Framing.v`.

Exchange with plugins (C59, `Serde.v`, spec in `SpecSerde.v`). The derived serde code and the JSON texts. The recursion limit of `serde_json` is
modelled; a document with 20 brackets in each other cannot be exchanged (`C59_deep_refuted`), the height of the AST is bounded by
the nesting of the brackets. Simplification: a text is read as JSON value first, so ignored fields count for the limit too.

Project and CLI (C49-C58, C73-C78, C91-C95; `Project.v`, `Cli.v`, `Args.v`, spec in `SpecProject.v`). A program is a function from the files it finds to the list of
steps it takes and its result. A step is a request, a new directory, an emptied or created file, one byte written, a removal or a line
printed, so that "killed at any moment" is "a prefix of the steps". Servers and write permissions are an environment (`outside`).
* Not modelled: links, `..` in paths, writes that fail half-way, servers that answer the same request differently within one run.
  A TOML text is written and read by a codec (`toml`); theorems that need it to read back what it wrote assume `toml_law`. The codec of
  `Toml.v` has this property (`toml_crate_law`, C50) and only reads configurations that can be written (`loaded_storable`); the theorems
  named `_toml` are the instances. (Some examples use a codec based on JSON, `json_toml`, whose texts are shorter to compute.)
* C91: the clean direction follows the reader through the lines; the other one shows that the string after `name =` is never longer than what
  is between the quotation marks, and that no later line can change `document.name`. C92 composes `new` and `build`.
* C49: `entry_of` says which tables are entries; the reader accepts exactly these. C50: `parse_schema_exact` is an equivalence.
* C51: the debug text is injective (prefix decoding), UTF-8 is injective, the hash has 64 digits; `_refuted` for the backend.
* C52: `join_all` as slots filled in any order; hash-map order as a permutation. C53: `download_ok_iff` says when it succeeds.
* C54, C55: prefixes of the steps. C56: `compiled` relates the list of names to the outputs; `build_cases` describes every run; what it prints is in
  `PropsBuild.v` (`SpecBuild.v`, `BuildSays.v`).
* C57: the matcher finds the leftmost match of the pattern (`SpecCli.v`); names of files are found exactly if made of letters. C58: the stages are those of `Compile.v`.
* C83 (`Show.v`): `{:?}` is a prefix code, piece by piece; JSON is read back by the serde code of the same types.
* C84 (`SpecJoin.v`): the tokenizer restarts after an empty line outside brackets, the parser cuts statements there, the transformer
  works statement by statement; relocation (`Lower.v`) for places, `_refuted` for the ends of unclosed-bracket errors.
* C85 (`Kinds.v`), C86 (`Display.v`, vocabulary in `SpecShow.v`): the functions that compare and display trees, for all trees.
  The positive part of C86 for ASTs reads the display line by line; the indentation says where the children of a node end.
* C87 (`SpecRefuse.v`, proofs in `RefuseProofs.v`, `RefuseCompile.v`): the counterpart of C30 for failures, with the messages. The
  text that a failing plugin call gives is not modelled: it is always "call failed".
* C73-C78: sequences of the above (`ProjectMore.v`, `CliMore.v`).
* C93-C95 (`Args.v`, vocabulary in `SpecArgs.v`): how `clap` 4.5 reads the arguments (from its documented behaviour; its sources are not
  in the sandbox), and `main`. `spelled` lists the spellings of every command; the reader accepts exactly these.

## 5. Status

See `MANIFEST.json`. `partial` means: the full statement is false of the code (a `_refuted` theorem gives the
witness) or only a part is proved (`_partial`); the note says which.
