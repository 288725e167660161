{"id": "C01", "title": "Tokenizing never fails", "statement": "tokenize_str returns Ok for every input string: no Err, no panic, and it terminates.", "quantifier": "every Unicode text and every grapheme segmentation of it", "why_tests_cant": "the input space is infinite; tests cover a dozen files", "anchors": ["crates/brack-tokenizer/src/tokenize.rs::tokenize_str", "crates/brack-tokenizer/src/dispatch.rs::dispatch", "crates/brack-tokenizer/src/utils.rs::separate"]}
{"id": "C02", "title": "Exactly one EOF, last", "statement": "The token list returned by tokenize_str ends with an EOF token, contains no other EOF token and never contains an Empty token.", "quantifier": "every text", "why_tests_cant": "holds for all texts, including malformed ones", "anchors": ["crates/brack-tokenizer/src/dispatch.rs::dispatch", "crates/brack-tokenizer/src/tokens.rs::Token"]}
{"id": "C03", "title": "Tokenizing is lossless", "statement": "Writing back the source characters of the returned tokens in order gives the input text, cut off at its first NUL character; a text without NUL is reproduced completely.", "quantifier": "every text", "why_tests_cant": "needs every text and every bracket state; the NUL cut-off is not tested", "anchors": ["crates/brack-tokenizer/src/dispatch.rs::dispatch", "crates/brack-tokenizer/src/text.rs::tokenize", "crates/brack-tokenizer/src/identifier.rs::tokenize"]}
{"id": "C04", "title": "Token ranges tile the document", "statement": "The first token starts at (0,0); every token lies on one line, is as wide as the number of graphemes of its source and starts where the previous one ended (or at column 0 of the next line after a NewLine token); EOF is empty.", "quantifier": "every text and every token in it", "why_tests_cant": "all token sequences; the tests fix a few positions", "anchors": ["crates/brack-tokenizer/src/tokens.rs::Location", "crates/brack-tokenizer/src/text.rs::tokenize", "crates/brack-tokenizer/src/newline.rs::tokenize"]}
{"id": "C05", "title": "Token positions are the true text positions", "statement": "Every token's start is the line/column (in graphemes) at which its source really begins in the text. True for every text without CRLF where no newline is directly followed by a closing bracket; false in general: '[' newline ']' turns the newline into an identifier without advancing the line counter, and CRLF is one grapheme that is not recognised as a newline.", "quantifier": "every text and every token", "why_tests_cant": "the violation needs a specific three-character neighbourhood in an arbitrary context", "anchors": ["crates/brack-tokenizer/src/identifier.rs::tokenize", "crates/brack-tokenizer/src/dispatch.rs::dispatch", "crates/brack-tokenizer/src/newline.rs::tokenize"]}
{"id": "C06", "title": "Text tokens carry no markup characters", "statement": "The value of a Text, Module or Ident token is never empty; a Text or Module value contains no bracket, backslash, newline or NUL grapheme; an Ident value can contain one only as its last grapheme, directly before a closing bracket.", "quantifier": "every text and every token", "why_tests_cant": "all contexts of nesting and identifier state", "anchors": ["crates/brack-tokenizer/src/dispatch.rs::dispatch", "crates/brack-tokenizer/src/text.rs::tokenize", "crates/brack-tokenizer/src/module.rs::tokenize"]}
{"id": "C07", "title": "Plain text is split into lines only", "statement": "For a text without brackets, backslash and NUL the tokens are exactly one Text token per non-empty line, one NewLine token per newline, and EOF.", "quantifier": "every text without markup characters", "why_tests_cant": "unbounded number and length of lines", "anchors": ["crates/brack-tokenizer/src/dispatch.rs::dispatch", "crates/brack-tokenizer/src/text.rs::tokenize", "crates/brack-tokenizer/src/newline.rs::tokenize"]}
{"id": "C08", "title": "Escaping a bracket is neutral for the rest of the document", "statement": "Putting a backslash before a bracket makes it ordinary text and does not change how later text is tokenized. False: an escaped bracket still changes the nesting counters, so later dots, commas and spaces become separate tokens (or command syntax stops being recognised).", "quantifier": "every text with an escaped bracket", "why_tests_cant": "effect appears arbitrarily far from the escape", "anchors": ["crates/brack-tokenizer/src/backslash.rs::tokenize", "crates/brack-tokenizer/src/square_bracket_open.rs::tokenize", "crates/brack-tokenizer/src/square_bracket_close.rs::tokenize"]}
{"id": "C09", "title": "Paragraphs tokenize independently", "statement": "If a text ends with a newline, has as many opening as closing bracket tokens and no pending command name, then appending more text gives the same tokens for the first part followed by the tokens of the second part tokenized alone, moved down by the number of lines.", "quantifier": "every pair of texts", "why_tests_cant": "relational property over pairs of unbounded inputs", "anchors": ["crates/brack-tokenizer/src/dispatch.rs::dispatch", "crates/brack-tokenizer/src/tokenizer.rs::Tokenizer"]}
{"id": "C10", "title": "Parsing what the tokenizer produced never panics", "statement": "For every text, parse applied to its tokens returns Ok or Err; it never panics and always terminates. (A hand-made token list ending in a lone backslash does panic.)", "quantifier": "every text; for arbitrary token lists, every list not ending in a lone backslash", "why_tests_cant": "recursion over unbounded nesting; slice indexing panics on specific tails", "anchors": ["crates/brack-parser/src/parse.rs::parse", "crates/brack-parser/src/escaped.rs::parse", "crates/brack-parser/src/expr.rs::parse"]}
{"id": "C11", "title": "The CST contains every token", "statement": "When parse succeeds, reading the leaves of the CST from left to right gives back exactly the token list, kinds, values and locations included (escaped characters as backslash plus character).", "quantifier": "every token list on which parse succeeds", "why_tests_cant": "tree of unbounded shape", "anchors": ["crates/brack-parser/src/parse.rs::parse", "crates/brack-parser/src/stmt.rs::parse", "crates/brack-parser/src/square.rs::parse", "crates/brack-parser/src/escaped.rs::parse"]}
{"id": "C12", "title": "The CST follows the published grammar", "statement": "Every CST returned by parse is a derivation tree of brack.cst.ebnf: document, stmt, expr_or_close, expr, escaped, bracket.", "quantifier": "every token list on which parse succeeds", "why_tests_cant": "all derivation shapes", "anchors": ["crates/brack-parser/src/parse.rs::parse", "crates/brack-parser/src/stmt.rs::parse", "crates/brack-parser/src/expr.rs::parse", "brack.cst.ebnf"]}
{"id": "C13", "title": "Which documents are accepted", "statement": "parse accepts exactly the token lists in which, up to the first EOF: every closing bracket either closes the innermost open bracket of its kind (those inside it stay unclosed) or stands alone on its line outside all brackets; nothing else shares a line with such a lone closing bracket; and a document that starts with a newline has only newlines. In particular balanced documents not starting with a newline are accepted; content after a leading newline, and a closing bracket that closes nothing with something before it on its line, are rejected.", "quantifier": "every token list", "why_tests_cant": "grammar-level acceptance over all inputs", "anchors": ["crates/brack-parser/src/parse.rs::parse", "crates/brack-parser/src/bracket_close.rs::parse", "crates/brack-parser/src/newline.rs::parse"]}
{"id": "C14", "title": "Expr and bracket nodes span their tokens", "statement": "The location of every Expr node runs from the start of its first child to the end of its last child; that of every bracket node from its opening bracket to its closing bracket (or, if unclosed, to the end of the next token).", "quantifier": "every node of every CST", "why_tests_cant": "unbounded trees", "anchors": ["crates/brack-parser/src/expr.rs::parse", "crates/brack-parser/src/square.rs::parse", "crates/brack-parser/src/curly.rs::parse", "crates/brack-parser/src/angle.rs::parse"]}
{"id": "C15", "title": "Merging two locations gives their hull", "statement": "merge_location returns the earliest start and the latest end of its two arguments. False on one line: it compares a line number with a column, so the end can be too early; true whenever the end lines differ or the second end column is at least the line number and not before the first end.", "quantifier": "every pair of locations", "why_tests_cant": "the wrong branch depends on the numeric relation between a line and a column", "anchors": ["crates/brack-tokenizer/src/tokens.rs::merge_location", "crates/brack-transformer/src/square.rs::check_if_the_first_and_last_node_are_brackets"]}
{"id": "C16", "title": "Statement and document locations", "statement": "A Stmt or Document node's location runs from its first child to its last child. False for the start, which is always line 0, column 0; true for the end of every Stmt. A Document ends where its EOF ends, except when the EOF's line number exceeds its column and the child before it ends on that line: then it ends where that child does, which is another place if the document ends in an escape.", "quantifier": "every CST", "why_tests_cant": "depends on absolute position in the document", "anchors": ["crates/brack-parser/src/cst.rs::add", "crates/brack-parser/src/stmt.rs::parse", "crates/brack-parser/src/cst.rs::new_stmt"]}
{"id": "C17", "title": "Transforming never panics", "statement": "transform applied to a successfully parsed document returns an AST and an error list. False in general: it panics exactly when an unescaped space, comma or dot token stands outside all brackets, which happens after an escaped opening bracket and after a bracket closed by an outer one (e.g. '\\[ a' and '{m.f [m.g a } b'). True for every text in which no opening bracket is escaped and every unescaped closing bracket closes the innermost open bracket, if there is one.", "quantifier": "every text", "why_tests_cant": "needs the interaction of tokenizer state, parser and transformer over all texts", "anchors": ["crates/brack-transformer/src/transform.rs::transform", "crates/brack-transformer/src/expr.rs::simplify", "crates/brack-transformer/src/utils.rs::remove_elements_not_included_ast"]}
{"id": "C18", "title": "No error reported means well-formed", "statement": "transform reports no error if and only if every command is 'open (module|angle) . (ident|angle) arguments close' with non-empty comma-separated arguments and no stray dot, and every backslash escapes an escapable character.", "quantifier": "every parsed CST", "why_tests_cant": "iff over all trees", "anchors": ["crates/brack-transformer/src/square.rs::simplify", "crates/brack-transformer/src/curly.rs::simplify", "crates/brack-transformer/src/angle.rs::simplify", "crates/brack-transformer/src/utils.rs::check_valid_arguments", "crates/brack-transformer/src/backslash.rs::simplify"]}
{"id": "C19", "title": "The AST follows the published grammar", "statement": "When transform reports no error, the AST it returns is a derivation of brack.ast.ebnf: commands have exactly module, ident, then one non-empty expression per argument. True with two corrections of the published grammar: expressions contain curly commands too, and after an escaped opening bracket a word of an argument can be an identifier or module leaf instead of text (false for the published grammar in that case).", "quantifier": "every error-free document", "why_tests_cant": "all trees", "anchors": ["crates/brack-transformer/src/transform.rs::transform", "crates/brack-transformer/src/utils.rs::check_valid_arguments", "brack.ast.ebnf"]}
{"id": "C20", "title": "No text is lost between CST and AST", "statement": "The text, module and identifier leaves of the AST, the beginnings of its commands and its invalid escapes, read left to right, are exactly those of the CST (escaped characters included), errors or not.", "quantifier": "every parsed CST on which transform does not panic", "why_tests_cant": "unbounded trees, error recovery included", "anchors": ["crates/brack-transformer/src/utils.rs::remove_elements_not_included_ast", "crates/brack-transformer/src/utils.rs::check_valid_arguments", "crates/brack-transformer/src/transform.rs::transform"]}
{"id": "C21", "title": "Unbalanced brackets are reported", "statement": "Every closing bracket without an opening one and every mismatched bracket is reported as a TransformError. False: MismatchedBracket, *NotOpened and CommaNotFound can never be produced from parsed input; a lone closing bracket on its own line is silently dropped.", "quantifier": "every parsed document", "why_tests_cant": "reachability of an error kind over all inputs", "anchors": ["crates/brack-transformer/src/error.rs::TransformError", "crates/brack-transformer/src/stmt.rs::simplify", "crates/brack-transformer/src/square.rs::check_if_the_first_and_last_node_are_brackets", "crates/brack-parser/src/square.rs::parse"]}
{"id": "C22", "title": "Unclosed brackets are reported", "statement": "A bracket that is left unclosed (at the end of the file or because an outer bracket is closed first) is always reported by exactly one *NotClosed error of its own kind, and no properly closed bracket is.", "quantifier": "every parsed document", "why_tests_cant": "all nestings", "anchors": ["crates/brack-transformer/src/square.rs::simplify", "crates/brack-transformer/src/angle.rs::simplify", "crates/brack-transformer/src/curly.rs::simplify"]}
{"id": "C23", "title": "Each stray dot is reported once", "statement": "A dot among the arguments of a command gives one UnexpectedDot error. False: each is reported twice.", "quantifier": "every command with a dot among its arguments", "why_tests_cant": "count over all argument lists", "anchors": ["crates/brack-transformer/src/utils.rs::check_unexpected_dot", "crates/brack-transformer/src/utils.rs::check_valid_arguments"]}
{"id": "C24", "title": "Spaces inside arguments are kept", "statement": "The words of a command argument stay separated. False: every space and newline inside a command is dropped, so the words are concatenated.", "quantifier": "every command argument", "why_tests_cant": "all arguments", "anchors": ["crates/brack-transformer/src/utils.rs::remove_whitespaces_and_newlines", "crates/brack-transformer/src/square.rs::simplify"]}
{"id": "C25", "title": "AST node ids are unique and get finds them", "statement": "All node ids in the AST produced by transform are pairwise distinct, and AST::get(id) returns exactly the node carrying that id, None for an id not in the tree.", "quantifier": "every document and every node; UUID draws assumed distinct", "why_tests_cant": "search over unbounded trees", "anchors": ["crates/brack-transformer/src/transform.rs::transform", "crates/brack-transformer/src/ast.rs::get"]}
{"id": "C26", "title": "Macros are expanded", "statement": "The AST returned by expander has each angle node replaced by what its macro returned. False: the results are discarded; expander returns its input unchanged whenever it succeeds.", "quantifier": "every AST and every plugin behaviour", "why_tests_cant": "all trees and all plugin replies", "anchors": ["crates/brack-expander/src/expand.rs::expand_other", "crates/brack-expander/src/expand.rs::expander"]}
{"id": "C27", "title": "Every macro is called exactly once, in document order", "statement": "expander calls the macro command of each outermost angle node exactly once, left to right, passing the whole document and that node's id, and calls nothing else; it stops at the first failure, with a message that says whether a name is missing, the plugin is unknown, the command is unknown (naming it) or the call failed.", "quantifier": "every AST and every plugin behaviour", "why_tests_cant": "call traces of unbounded length", "anchors": ["crates/brack-expander/src/expand.rs::expand_angle", "crates/brack-expander/src/expand.rs::expand_other", "crates/brack-plugin/src/plugins.rs::call_macro_command"]}
{"id": "C28", "title": "Expanding a document with an invalid escape", "statement": "expander reports failure through Err, never a panic. False: a document with an invalid backslash escape makes it panic, and only such documents do.", "quantifier": "every AST and plugin behaviour", "why_tests_cant": "depends on the order of macro failures and broken nodes", "anchors": ["crates/brack-expander/src/expand.rs::expand_other", "crates/brack-transformer/src/ast.rs::children"]}
{"id": "C29", "title": "Text-only documents compile to their text", "statement": "Without hooks, a document with no markup characters, no NUL and no CRLF line ends that does not start with a newline (or consists of newlines only) compiles to exactly its text with the newlines removed; more generally, a document that is parsed and transformed and has no commands and only valid escapes compiles to its texts, escapes resolved, one after the other.", "quantifier": "every such text, any set of hook-free plugins", "why_tests_cant": "end-to-end over all texts", "anchors": ["crates/brack-codegen/src/generate.rs::generate", "crates/brack-codegen/src/text.rs::generate", "crates/brack-project-manager/src/project.rs::build"]}
{"id": "C30", "title": "Generated text is the in-order concatenation of the parts", "statement": "generate returns the concatenation, in document order, of what its parts generate, each passed through the text, expr, stmt and document hook of its level exactly once; hooks and commands are called innermost first, left to right.", "quantifier": "every AST and every plugin behaviour", "why_tests_cant": "call order for unbounded trees and stateful plugins", "anchors": ["crates/brack-codegen/src/generate.rs::generate", "crates/brack-codegen/src/stmt.rs::generate", "crates/brack-codegen/src/expr.rs::generate", "crates/brack-codegen/src/text.rs::generate"]}
{"id": "C31", "title": "Commands are called only with the arity they declare", "statement": "A plugin command is invoked only if the number of arguments in the document lies between the number of required parameters and the number of parameters (unbounded with an array), and then receives exactly one value per declared parameter, of the matching kind and taken from the matching position.", "quantifier": "every signature and every argument list", "why_tests_cant": "all signatures", "anchors": ["crates/brack-codegen/src/square.rs::generate", "crates/brack-codegen/src/curly.rs::generate", "crates/brack-plugin/src/types.rs::arg_counter"]}
{"id": "C32", "title": "Binding arguments never panics", "statement": "For every declared signature and every number of arguments in the document, a command either is called or yields Err. False: a required or array parameter after an optional one indexes out of bounds, and anything after an array parameter overflows the maximum; true for signatures with required, then optional parameters, or required then one final array.", "quantifier": "every signature and argument count", "why_tests_cant": "combinatorial over signatures", "anchors": ["crates/brack-codegen/src/square.rs::generate", "crates/brack-plugin/src/types.rs::arg_counter"]}
{"id": "C33", "title": "No unexpanded macro reaches the output", "statement": "If generate succeeds, the AST contains no angle node; together with the expander this means that every document containing a macro fails to build.", "quantifier": "every AST and plugin behaviour", "why_tests_cant": "all trees", "anchors": ["crates/brack-codegen/src/generate.rs::generate", "crates/brack-codegen/src/expr.rs::generate", "crates/brack-codegen/src/square.rs::generate", "crates/brack-expander/src/expand.rs::expander"]}
{"id": "C34", "title": "At most one plugin per hook", "statement": "Plugins::new succeeds exactly when no hook is enabled by two plugins, and then the document, stmt, expr and text hook is bound to the single plugin that enables it.", "quantifier": "every list of plugins", "why_tests_cant": "all lists", "anchors": ["crates/brack-plugin/src/plugins.rs::new"]}
{"id": "C35", "title": "An enabled hook can always be called", "statement": "If Plugin::new accepted each plugin and Plugins::new accepted the set with distinct names, a hook call never fails with 'plugin not found' or 'metadata not found'. Without distinct names it can: the later plugin replaces the one that has the hook.", "quantifier": "every plugin metadata list and every feature flag", "why_tests_cant": "all metadata tables", "anchors": ["crates/brack-plugin/src/plugin.rs::new", "crates/brack-plugin/src/plugins.rs::call_document_hook", "crates/brack-plugin/src/plugins.rs::call_text_hook"]}
{"id": "C36", "title": "The result does not depend on hash-map order", "statement": "Whatever order the plugin hash map is iterated in (its keys, the plugin names, are distinct), Plugins::new succeeds or fails alike and every lookup and hook is the same, so compiling any text gives the same result and makes the same plugin calls. With two plugins of the same name the order matters.", "quantifier": "every permutation of the plugins", "why_tests_cant": "order is random at run time", "anchors": ["crates/brack-plugin/src/plugins.rs::new", "crates/brack-project-manager/src/project.rs::build", "src/main.rs::run_compile"]}
{"id": "C37", "title": "Syntax errors stop the build", "statement": "If transform reports errors, build does not write an output file for the document. False: build and compile drop the error list; an unclosed command is compiled as if it were closed.", "quantifier": "every document", "why_tests_cant": "all erroneous documents", "anchors": ["crates/brack-project-manager/src/project.rs::build", "src/main.rs::run_compile", "crates/brack-transformer/src/transform.rs::transform"]}
{"id": "C38", "title": "Messages are dispatched in order and exactly once, whatever the chunking", "statement": "For every sequence of framed messages and every way the byte stream is cut into reads, the language server dispatches a prefix of the sequence, in order, each message once, until it stops.", "quantifier": "every message sequence and every chunking of the byte stream", "why_tests_cant": "all read schedules", "anchors": ["crates/brack-language-server/src/server.rs::run"]}
{"id": "C39", "title": "Every complete message is dispatched", "statement": "A message that has been received completely is eventually dispatched. False: at most one message is taken per read, so pipelined messages wait for later input and are lost at end of input; true when no read completes more than one message.", "quantifier": "every message sequence and chunking", "why_tests_cant": "depends on kernel read boundaries", "anchors": ["crates/brack-language-server/src/server.rs::run"]}
{"id": "C40", "title": "A chunk boundary inside a character does not stop the server", "statement": "Non-ASCII messages are handled for every chunking. False: if a read ends inside a multi-byte character the server returns an error; it never happens for ASCII-only streams.", "quantifier": "every chunking", "why_tests_cant": "depends on read boundaries", "anchors": ["crates/brack-language-server/src/server.rs::run"]}
{"id": "C41", "title": "Malformed headers do not panic the server", "statement": "Any header yields continue or Err. False: a header line without ': ' and a negative Content-Length panic; -1 blocks forever.", "quantifier": "every byte stream", "why_tests_cant": "all byte streams", "anchors": ["crates/brack-language-server/src/server.rs::run"]}
{"id": "C42", "title": "What the server writes, a server like it can read", "statement": "Every message written by send_message is framed so that the reading loop recovers exactly its body.", "quantifier": "every message body", "why_tests_cant": "all strings incl. non-ASCII, byte length vs. character length", "anchors": ["crates/brack-language-server/src/server.rs::send_message", "crates/brack-language-server/src/server.rs::send_stdout", "crates/brack-language-server/src/server.rs::run"]}
{"id": "C43", "title": "Semantic tokens decode to the token positions", "statement": "Decoding the relative positions returned for textDocument/semanticTokens/full gives exactly the start and length of every token, and computing them never underflows, for every document below 2^32 lines and columns.", "quantifier": "every text", "why_tests_cant": "delta encoding over unbounded token lists", "anchors": ["crates/brack-language-server/src/request/semantic_tokens.rs::separate"]}
{"id": "C44", "title": "Semantic token types are in the announced legend", "statement": "Every token_type sent is an index into the legend sent at initialize. False: undecorated tokens get type 100 while the legend has 23 entries; the decorated ones are mapped to the legend entry of their name.", "quantifier": "every text", "why_tests_cant": "all tokens", "anchors": ["crates/brack-language-server/src/request/semantic_tokens.rs::token_kind_to_type", "crates/brack-language-server/src/request.rs::handle_request"]}
{"id": "C45", "title": "Every request gets exactly one response", "statement": "Each message with an id and a method is answered by exactly one response or error carrying that id. False: requests with non-integer ids, failing parameter decoding, completion without project, and unreadable files get none; never more than one is sent. The answer to initialize announces whole-document synchronisation, the five trigger characters of completion, and the token types and modifiers of the legend.", "quantifier": "every message and server state", "why_tests_cant": "all histories", "anchors": ["crates/brack-language-server/src/server.rs::dispatch", "crates/brack-language-server/src/request.rs::handle_request", "crates/brack-language-server/src/request/completion.rs::handle_completion"]}
{"id": "C46", "title": "No diagnostics without the capability", "statement": "textDocument/publishDiagnostics is sent only after an initialize request whose client capabilities include publishDiagnostics.", "quantifier": "every message history", "why_tests_cant": "all histories", "anchors": ["crates/brack-language-server/src/server.rs::send_publish_diagnostics", "crates/brack-language-server/src/request.rs::handle_request"]}
{"id": "C47", "title": "Diagnostics mirror the transform errors", "statement": "Saving a document that parses publishes exactly one diagnostic per transform error, in the same order, with the error's range and message, and an empty list if there is none.", "quantifier": "every text", "why_tests_cant": "all texts", "anchors": ["crates/brack-language-server/src/notification/did_save.rs::handle_text_document_did_save"]}
{"id": "C48", "title": "Saving a broken document keeps the server alive", "statement": "A didSave notification never ends the server. False: if the saved document does not parse (e.g. it starts with an empty line, or has a mismatched bracket), run returns an error.", "quantifier": "every saved text", "why_tests_cant": "all texts", "anchors": ["crates/brack-language-server/src/notification/did_save.rs::handle_text_document_did_save", "crates/brack-language-server/src/server.rs::run"]}
{"id": "C49", "title": "Brack.toml round-trips", "statement": "Reading back a serialized plugin entry gives the same entry; field order does not matter; unknown, duplicate, missing or ill-typed fields and schemas other than github are rejected. The TOML text written for a configuration (with whatever characters in its strings and names) is read back as the same configuration.", "quantifier": "every plugin entry and every order of its fields; every configuration whose plugin names are distinct", "why_tests_cant": "all entries and permutations", "anchors": ["crates/brack-project-manager/src/plugin.rs::serialize", "crates/brack-project-manager/src/plugin.rs::deserialize"]}
{"id": "C50", "title": "Adding github:owner/repo@version records exactly that", "statement": "add_plugin with 'github:O/R@V' records owner O, repo R, version V under the name before the first dot of R, keeps all other entries, and never overwrites an existing entry.", "quantifier": "every owner, repo, version and existing configuration", "why_tests_cant": "all strings and configurations", "anchors": ["crates/brack-project-manager/src/plugin.rs::add_plugin"]}
{"id": "C51", "title": "The plugin cache never serves another plugin", "statement": "Two plugin entries share a cache file only if their name, owner, repo, version and hook settings are equal (hash assumed collision-free). But the backend is not part of the key, so after changing the backend the cached file of the old backend is used (false in that case).", "quantifier": "every pair of plugin entries and backends", "why_tests_cant": "injectivity over all entries", "anchors": ["crates/brack-project-manager/src/plugin.rs::hash_sha256", "crates/brack-project-manager/src/project.rs::download_plugins_using_config"]}
{"id": "C52", "title": "Downloads do not depend on completion order", "statement": "Whatever order the concurrent downloads finish in, the files written and the plugin table are the same.", "quantifier": "every completion order", "why_tests_cant": "schedules", "anchors": ["crates/brack-project-manager/src/project.rs::download_plugins_using_config"]}
{"id": "C53", "title": "After a successful download every configured plugin is available", "statement": "If download_plugins_using_config succeeds, every plugin of the configuration is registered with its cache path and hook flags, and its file exists.", "quantifier": "every configuration, file system and set of responses", "why_tests_cant": "all configurations", "anchors": ["crates/brack-project-manager/src/project.rs::download_plugins_using_config"]}
{"id": "C54", "title": "A crash during download does not poison the cache", "statement": "If the process dies while a plugin file is written, the next run downloads it again. False: an incomplete file counts as cached and is used.", "quantifier": "every crash point", "why_tests_cant": "crash points", "anchors": ["crates/brack-project-manager/src/project.rs::download_plugins_using_config"]}
{"id": "C55", "title": "A crash during add does not lose the configuration", "statement": "If the process dies during add_plugin, Brack.toml is either the old or the new version. False: it is truncated first.", "quantifier": "every crash point", "why_tests_cant": "crash points", "anchors": ["crates/brack-project-manager/src/plugin.rs::add_plugin"]}
{"id": "C56", "title": "Building writes one output per document", "statement": "build writes, for each docs/*.[] file processed, exactly out/<stem>.<backend> with the generated text; distinct documents never overwrite each other's output; documents after a failing one are not written and earlier outputs are kept. Nothing is printed until every document is written; then 'Build succeeded.' and one line for each file in out, although the build can still fail at listing it.", "quantifier": "every set of documents and every processing order", "why_tests_cant": "directory order is arbitrary", "anchors": ["crates/brack-project-manager/src/project.rs::build"]}
{"id": "C57", "title": "compile finds the plugins build stored", "statement": "A plugin file stored by build under plugins/<name>_<hash>.wasm is found by compile under the same module name. True when the name consists of ASCII letters; false for names with digits, '-' or '_'.", "quantifier": "every plugin name and hash", "why_tests_cant": "regular-expression matching over all names", "anchors": ["src/main.rs::run_compile", "crates/brack-project-manager/src/project.rs::download_plugins_using_config"]}
{"id": "C58", "title": "compile output levels are stages of one pipeline", "statement": "Level n of compile prints the result of stage n and fails exactly when a stage up to n fails; level 5 equals what build writes for the same text and plugins.", "quantifier": "every document, level and plugin set", "why_tests_cant": "all documents", "anchors": ["src/main.rs::run_compile", "crates/brack-project-manager/src/project.rs::build"]}
{"id": "C59", "title": "The AST survives the JSON exchange with plugins", "statement": "Serializing an AST, Value or Type to JSON and reading it back yields the same value, so macros see the document unchanged.", "quantifier": "every AST, value and type", "why_tests_cant": "recursive data", "anchors": ["crates/brack-transformer/src/ast.rs::AST", "crates/brack-plugin/src/value.rs::Value", "crates/brack-plugin/src/types.rs::Type", "crates/brack-plugin/src/plugins.rs::call_macro_command"]}
{"id": "C60", "title": "An expression's location covers its tokens", "statement": "The location of every Expr node covers all its tokens. False when its last element is an escape, whose location is that of the backslash alone; true for every other Expr.", "quantifier": "every Expr node of the CST of every text", "why_tests_cant": "quantifies over all nodes of all trees; needs the tiling of token ranges as an invariant", "anchors": ["crates/brack-parser/src/expr.rs::parse", "crates/brack-parser/src/escaped.rs::parse"]}
{"id": "C61", "title": "Every well-formed document is understood as written, in one way", "statement": "A parsed document whose commands are all well formed (module or macro, dot, identifier or macro, non-empty arguments separated by single commas, closing bracket; valid escapes only) is transformed without errors, and the resulting tree, ids apart, is the only one the grammar allows for it.", "quantifier": "every parsed document", "why_tests_cant": "ranges over all nestings of commands and arguments", "anchors": ["crates/brack-transformer/src/transform.rs::transform", "crates/brack-transformer/src/simplify.rs::simplify"]}
{"id": "C62", "title": "Exactly the malformed places are reported", "statement": "The ModuleNotFound, DotNotFound, IdentifierNotFound, UnexpectedComma and InvalidBackslash errors are, in document order, exactly one per command whose second, third or fourth item is there but is not a module or macro, a dot, an identifier or macro; one per comma with no argument before it and one per closed command whose last argument is missing; one per backslash that escapes nothing; each with the range of the offending item.", "quantifier": "every parsed document", "why_tests_cant": "ranges over all nestings and all combinations of defects", "anchors": ["crates/brack-transformer/src/simplify.rs::simplify", "crates/brack-transformer/src/utils.rs::check_valid_arguments"]}
{"id": "C63", "title": "An argument's range starts at its first item", "statement": "The range of an argument expression of a command starts where its first item starts. False of every argument of every command: the range starts at line 0 column 0 (the range of a new expression is the default range merged with those of its items) although the first item of an argument never does.", "quantifier": "every argument of every command", "why_tests_cant": "unit tests compare trees, not ranges; the first command of a file at 0:0 looks right", "anchors": ["crates/brack-transformer/src/utils.rs::check_valid_arguments", "crates/brack-tokenizer/src/tokens.rs::merge_location"]}
{"id": "C64", "title": "Which plugins are accepted", "statement": "Plugin::new succeeds exactly when each enabled hook is exported by the plugin, and only with the type the hook must have; then the command of a given name and type is the last one with them in the plugin's metadata.", "quantifier": "every plugin name, metadata list and setting of the hook flags", "why_tests_cant": "all metadata lists and flags", "anchors": ["crates/brack-plugin/src/plugin.rs::new"]}
{"id": "C65", "title": "Compiling does not panic", "statement": "Compiling a text never panics, whatever the plugins answer, if no space, comma or dot token stands outside the brackets, every backslash escapes an escapable character, and the parameters of every command are declared in order (required, then optional or one array). All names and texts of the AST have a value, so the unwraps of the generator and of Display cannot fail.", "quantifier": "every text, every plugin behaviour, every set of plugins with such signatures", "why_tests_cant": "all texts and all plugin behaviours", "anchors": ["crates/brack-project-manager/src/project.rs::build", "crates/brack-codegen/src/generate.rs::generate", "crates/brack-expander/src/expand.rs::expander", "crates/brack-transformer/src/ast.rs::fmt"]}
{"id": "C66", "title": "Semantic token columns are the protocol's columns", "statement": "The position of every semantic token is its line and its column in UTF-16 code units, as the Language Server Protocol asks. True for ASCII text without carriage returns and without a line feed before a closing bracket; false in general, since columns count grapheme clusters.", "quantifier": "every text", "why_tests_cant": "all texts, all characters", "anchors": ["crates/brack-language-server/src/request/semantic_tokens.rs::separate", "crates/brack-tokenizer/src/dispatch.rs::dispatch"]}
{"id": "C67", "title": "Errors lie at token boundaries", "statement": "Every error the transformer reports begins and ends at the start or the end of a token of the document, so all its positions lie inside the document.", "quantifier": "every document that tokenizes, parses and transforms, all identifiers drawn", "why_tests_cant": "all documents", "anchors": ["crates/brack-transformer/src/transform.rs::transform", "crates/brack-language-server/src/notification/did_save.rs::handle_text_document_did_save"]}
{"id": "C68", "title": "Diagnostics name the document they are about", "statement": "The uri of published diagnostics is the URI the client used in didSave. False: the file path without the scheme is sent instead.", "quantifier": "every save notification", "why_tests_cant": "all documents and URIs", "anchors": ["crates/brack-language-server/src/notification/did_save.rs::handle_text_document_did_save"]}
{"id": "C69", "title": "What ends the language server", "statement": "The server goes on after a message exactly if its parameters decode, its document has a file path where one is needed, a saved document parses and has no separators outside brackets, and the project of an opened document can be loaded. It panics exactly on saving a document that parses but has a space, comma or dot outside the brackets.", "quantifier": "every message, server state and environment with absolute paths and files below 2^32 characters", "why_tests_cant": "all messages, all file contents", "anchors": ["crates/brack-language-server/src/server.rs::dispatch", "crates/brack-language-server/src/request.rs::handle_request", "crates/brack-language-server/src/notification.rs::handle_notification"]}
{"id": "C70", "title": "Completion offers exactly the commands of the plugins", "statement": "After '[' completion offers exactly the inline commands and after '{' exactly the block commands of all plugins of the project, as module.name with the closing bracket in the inserted text. After '<' no macro is ever offered.", "quantifier": "every project, all plugin metadata and all iteration orders of the hash maps", "why_tests_cant": "all plugin sets and map orders", "anchors": ["crates/brack-language-server/src/request/completion.rs::handle_completion"]}
{"id": "C71", "title": "The project of an opened document", "statement": "Opening a document loads the project of the directory two levels above it, and nothing else changes the loaded project; without a readable Brack.toml there the old project is kept. A document in a subdirectory of docs does not find its project.", "quantifier": "every absolute path, state and environment", "why_tests_cant": "all paths and histories", "anchors": ["crates/brack-language-server/src/notification/did_open.rs::handle_text_document_did_open"]}
{"id": "C72", "title": "Messages without a handler", "statement": "Responses from the client, notifications of unknown methods and textDocument/didChange have no effect and are answered by nothing; 'initialized' is logged; a message without a number and without a method gets the error -32600 with a null id.", "quantifier": "every message, state and environment", "why_tests_cant": "all messages", "anchors": ["crates/brack-language-server/src/server.rs::dispatch", "crates/brack-language-server/src/notification.rs::handle_notification", "crates/brack-language-server/src/response.rs::handle_response"]}
{"id": "C73", "title": "brack new creates exactly one project", "statement": "new fails without any effect if something of that name exists; on success it creates exactly the directories NAME and NAME/docs and the files docs/main.[] (empty), Brack.toml and .gitignore with the given texts; it succeeds for every new name without '/'. Killed in between, it cannot be run again for that name.", "quantifier": "every name, file system and crash point", "why_tests_cant": "all names and crash points", "anchors": ["src/main.rs::new_project"]}
{"id": "C74", "title": "What add downloads is used by build", "statement": "The file downloaded by add_plugin is the one build uses. False: it is stored under another name, so that the next build downloads the plugin again, from another address.", "quantifier": "every owner, repository, version and configuration", "why_tests_cant": "all names; disjointness of the two naming schemes", "anchors": ["crates/brack-project-manager/src/plugin.rs::add_plugin", "crates/brack-project-manager/src/project.rs::download_plugins_using_config"]}
{"id": "C75", "title": "Clearing the cache clears it", "statement": "clear_plugins removes everything under plugins and nothing else, empties the plugin table, and the next download asks for every configured plugin; it fails without effect if there is no such directory.", "quantifier": "every file system and configuration", "why_tests_cant": "all file systems", "anchors": ["crates/brack-project-manager/src/project.rs::clear_plugins"]}
{"id": "C76", "title": "A fresh checkout can be built", "statement": "With Brack.toml and docs but no directory plugins (new puts it into .gitignore and does not create it), build can download the plugins. False: no plugin can ever be stored, the run always fails.", "quantifier": "every configuration with a plugin and every server", "why_tests_cant": "all configurations", "anchors": ["crates/brack-project-manager/src/project.rs::download_plugins_using_config", "src/main.rs::new_project"]}
{"id": "C77", "title": "brack build as a whole", "statement": "If build succeeds, every configured plugin is loaded from its cache file with its hook flags (and no other), files that were there before downloading are unchanged by it, and out/<stem>.<backend> is the compiled text of docs/<stem>.[] for exactly the documents.", "quantifier": "every configuration, file system, server and document set", "why_tests_cant": "composition over all inputs", "anchors": ["src/main.rs::main", "crates/brack-project-manager/src/project.rs::build"]}
{"id": "C78", "title": "brack compile is read-only and never runs hooks", "statement": "compile writes nothing and makes no request at any level; the plugins it loads have all hooks switched off.", "quantifier": "every directory, file, level and plugin set", "why_tests_cant": "all file systems and plugin sets", "anchors": ["src/main.rs::run_compile"]}
{"id": "C79", "title": "What a broken document is read as", "statement": "For every document that parses, with or without errors, the AST is the one reading of the tree, up to ids: a command's children are those of its first three items that are no dots or commas, each as it is read, then one expression per non-empty run of further items between commas (dots dropped); a missing closing bracket, spaces and newlines make no difference; a backslash escaping nothing is an invalid leaf; closing brackets alone on a line are forgotten. There is a reading exactly if the transformer does not panic.", "quantifier": "all parsed token lists, well formed or not", "why_tests_cant": "errors and tree are produced together by hundreds of lines of case analysis; tests check a dozen broken inputs", "anchors": ["crates/brack-transformer/src/simplify.rs", "crates/brack-transformer/src/utils.rs::check_valid_arguments", "crates/brack-transformer/src/transform.rs", "crates/brack-transformer/src/square.rs"]}
{"id": "C80", "title": "The parser finds the one tree of the tokens", "statement": "parse yields c for the tokens exactly if c is the tree of them: it follows the grammar, its leaves are the tokens up to the EOF, its locations are those of C14 and (for statements and documents) the merge of the children's, a bracket is closed by the next closing bracket of its kind, an escape takes the next escapable token, and inside brackets no two expressions are adjacent. There is at most one such tree.", "quantifier": "all token lists and all trees", "why_tests_cant": "that no other tree qualifies is a statement about all trees; tests compare with one expected tree per input", "anchors": ["crates/brack-parser/src/parse.rs", "crates/brack-parser/src/stmt.rs", "crates/brack-parser/src/expr.rs", "crates/brack-parser/src/square.rs", "brack.cst.ebnf"]}
{"id": "C81", "title": "Spaces inside commands have no influence", "statement": "Two token lists that agree once the spaces and newlines inside brackets are left out (except one directly after a backslash that escapes nothing) give the same AST up to identifiers and ranges, or neither gives one. This holds for balanced and for broken documents.", "quantifier": "all pairs of parsed token lists, every identifier source", "why_tests_cant": "spaces can be added at any place of any document, broken ones included; a test compares a few pairs", "anchors": ["crates/brack-transformer/src/utils.rs::remove_whitespaces_and_newlines", "crates/brack-parser/src/square.rs", "crates/brack-parser/src/whitespace.rs", "crates/brack-parser/src/newline.rs"]}
{"id": "C82", "title": "A missing closing bracket changes only the error list", "statement": "Put in every missing closing bracket: before the closing bracket that ends an outer one, and before the end. The result parses whenever the original does, no bracket in it is unclosed, and both give exactly the same AST (identifiers and ranges included), or neither gives one. Excepted are documents that end in a backslash that escapes nothing.", "quantifier": "all token lists that parse, every identifier source", "why_tests_cant": "brackets can be missing in any combination at any place and depth", "anchors": ["crates/brack-parser/src/square.rs", "crates/brack-parser/src/curly.rs", "crates/brack-parser/src/angle.rs", "crates/brack-transformer/src/square.rs::simplify", "crates/brack-transformer/src/transform.rs"]}
{"id": "C83", "title": "What compile prints identifies the result", "statement": "At output levels 1 to 4 with --json, brack compile prints one line that reads back (with the serde code of the same types) as exactly the tokens, the CST or the AST, unless a tree is more than 42 nodes high, when serde_json refuses to read it. Without --json it prints one line for each token and each error, and two different token lists, CSTs, ASTs or error lists are never printed alike; a tree is never printed like a list of errors.", "quantifier": "all source texts, all tokens, trees and errors, all identifiers, every choice of characters shown unescaped", "why_tests_cant": "the printed text is made of arbitrary source text, which can imitate the punctuation of the notation", "anchors": ["src/main.rs::run_compile", "crates/brack-tokenizer/src/tokens.rs", "crates/brack-parser/src/cst.rs", "crates/brack-transformer/src/ast.rs", "crates/brack-transformer/src/error.rs"]}
{"id": "C84", "title": "Paragraphs compile independently", "statement": "If the brackets of a text are balanced and it ends with an empty line, a text appended to it is understood as if it stood alone: the tree of the whole has the statements of both texts one after the other (apart from identifiers and places), the errors of the whole are those of the first text followed by those of the second, the same number of lines further down. Without an on_document hook, if both texts compile, the whole compiles to the two outputs one after the other, with the same plugin calls in the same order.", "quantifier": "all source texts, all grapheme segmentations that keep line feeds apart, all identifiers, all plugins and histories of plugin calls", "why_tests_cant": "the state of the tokenizer, the parser and the transformer at the boundary depends on the whole of the first text", "anchors": ["crates/brack-tokenizer/src/tokenize.rs", "crates/brack-parser/src/stmt.rs", "crates/brack-transformer/src/transform.rs", "crates/brack-tokenizer/src/tokens.rs::merge_location", "crates/brack-codegen/src/generate.rs"]}
{"id": "C85", "title": "Comparison helpers", "statement": "matches_kind on CSTs holds exactly for two nodes of the same variant (for every variant), matches_kind on ASTs likewise; assert_ast_eq succeeds exactly for two trees that are equal apart from identifiers and places, and panics otherwise.", "quantifier": "all pairs of CSTs, all pairs of ASTs", "why_tests_cant": "the tests themselves rely on these functions; there are as many cases as pairs of trees", "anchors": ["crates/brack-parser/src/cst.rs::matches_kind", "crates/brack-transformer/src/ast.rs::matches_kind", "crates/brack-transformer/src/ast.rs::assert_ast_eq"]}
{"id": "C86", "title": "What Display shows", "statement": "The displayed text of an error determines the error. The displayed text of a CST determines the tree apart from identifiers, places, the contents of escapes and the values of leaves other than names and texts, and nothing more. The displayed text of an AST (it is part of an error message of the code generator) exists for every tree of a document and determines the tree apart from identifiers and places.", "quantifier": "all errors, all CSTs with identifiers without brackets and commas, all ASTs, all documents", "why_tests_cant": "that no two different values are displayed alike is a statement about all pairs of values", "anchors": ["crates/brack-parser/src/cst.rs::display_with_indent", "crates/brack-transformer/src/error.rs", "crates/brack-transformer/src/ast.rs::display_with_ident"]}
{"id": "C87", "title": "Why code generation fails", "statement": "Code generation fails with a message exactly when the first part of the tree, in document order, that cannot be rendered is one of a fixed list, and each has its own message that names it: a node in a place where it cannot stand (the message shows the node), a macro, a command without names, a command of an unknown plugin or with an unknown name, a command with too few or too many arguments (the message gives the limit in decimal), a call that fails. The calls made until then are exactly those for the parts before it. A document without errors and macros can only be refused for a command that is unknown or has the wrong number of arguments, for a name that stands where a text belongs, or for a call that fails.", "quantifier": "all trees, plugins, plugin behaviours and histories of calls; all texts for the last sentence", "why_tests_cant": "the list of reasons being complete and the order in which they are found are statements about all trees", "anchors": ["crates/brack-codegen/src/generate.rs", "crates/brack-codegen/src/square.rs", "crates/brack-codegen/src/curly.rs", "crates/brack-plugin/src/plugins.rs::argument_types"]}
{"id": "C88", "title": "Adding children to tree nodes, and the accessors", "statement": "Adding children one after the other to an inner node of a CST or AST keeps its kind (and id), appends them in order, and moves its location to the earliest start of the node and the children and to an end on their last line. `add` and `children` panic exactly on leaves, `value` exactly on inner nodes and on Invalid (and, in an AST, Ignored) leaves, with fixed messages; `children` of an AST leaf shows the leaf in the message.", "quantifier": "every node and every list of children", "why_tests_cant": "all sequences of children with all positions", "anchors": ["crates/brack-parser/src/cst.rs::add", "crates/brack-parser/src/cst.rs::value", "crates/brack-parser/src/cst.rs::children", "crates/brack-transformer/src/ast.rs::add", "crates/brack-transformer/src/ast.rs::value", "crates/brack-transformer/src/ast.rs::children"]}
{"id": "C89", "title": "The tokenizer's integers suffice", "statement": "Tokenizing with i32 nesting counters and 64-bit lines and columns, where an operation that overflows panics, gives the same result as with unbounded integers for every text with fewer than 2^31 bracket characters (and fewer than 2^64 characters); 2^31 opening brackets make it panic.", "quantifier": "every text and every lawful grapheme segmenter", "why_tests_cant": "the texts at the limit have gigabytes", "anchors": ["crates/brack-tokenizer/src/tokenizer.rs::Tokenizer", "crates/brack-tokenizer/src/dispatch.rs::dispatch", "crates/brack-tokenizer/src/square_bracket_open.rs::tokenize"]}
{"id": "C90", "title": "How deep the tokenizer recurses", "statement": "Tokenizing a text makes exactly one more nested call of dispatch than there are grapheme clusters before the first NUL: with at most that many clusters as a bound on the depth it cannot finish, with any greater bound it returns the tokens. (The stack it needs is therefore linear in the length of the document.)", "quantifier": "every text, every bound on the depth and every lawful grapheme segmenter", "why_tests_cant": "a test sees a stack overflow at one size, not the exact depth for all texts", "anchors": ["crates/brack-tokenizer/src/dispatch.rs::dispatch", "crates/brack-tokenizer/src/text.rs::tokenize"]}
{"id": "C91", "title": "The configuration of a new project", "statement": "The Brack.toml that 'brack new NAME' writes is read back as the configuration with name NAME, version 0.1.0, an empty backend, one author and no plugins, if NAME contains no quotation mark, backslash or control character other than tab. For exactly these names the name read back is NAME: the name is not escaped, so that other names give a file that cannot be read or another name.", "quantifier": "every name (any Unicode text)", "why_tests_cant": "all names; the exact set of names that survive is an equivalence over infinitely many strings", "anchors": ["src/main.rs::new_project", "crates/brack-project-manager/src/project.rs::load_brack_toml"]}
{"id": "C92", "title": "A new project can be built", "statement": "'brack build' in a project just made by 'brack new NAME' (for the names of C91) makes no request, succeeds, creates the directory out and in it exactly the empty file 'main.' (the backend is empty), and lists it.", "quantifier": "every name of C91, every grapheme segmenter, plugin behaviour, order of downloads and file system without that name", "why_tests_cant": "all names and environments; two commands composed", "anchors": ["src/main.rs::new_project", "src/main.rs::main", "crates/brack-project-manager/src/project.rs::build"]}
{"id": "C93", "title": "What the command line means", "statement": "The arguments given to brack are read as a command exactly if they spell one: the subcommand first, then its options in any order, each at most once, as --long value, --long=value, -l value, -lvalue or -l=value (a value of its own argument does not start with a hyphen unless it is one), then perhaps --. compile needs a backend and a file name; the output level is a number from 0 to 255 and 5 if not given. Every command with any values can be spelled; everything else is refused.", "quantifier": "all lists of arguments, all commands", "why_tests_cant": "infinitely many argument lists; that nothing else is accepted is a statement about all of them", "anchors": ["src/sub_commands.rs::SubCommands", "src/main.rs::Args", "src/main.rs::main"]}
{"id": "C94", "title": "The backend option of compile has an effect", "statement": "What brack compile prints depends on the backend that it is told to use. False: the option is required, but its value never has any influence on what compile does.", "quantifier": "all arguments, environments and file systems", "why_tests_cant": "a test compares two backends on a few documents", "anchors": ["src/main.rs::run_compile", "src/sub_commands.rs::SubCommands"]}
{"id": "C95", "title": "Exit status and output of the program", "statement": "brack exits with 0 exactly if the command succeeds, with 1 if it fails and with 101 if it panics; arguments that ask for help (--help or -h after options that are in order, or help with at most one command) touch nothing and give 0; all other arguments that are no command touch nothing and give 2. compile writes to stdout exactly the text of its result and does nothing else; version prints APP_VERSION or 0.2.0; brack new followed by brack build in the new directory succeeds.", "quantifier": "all arguments, environments and file systems", "why_tests_cant": "all commands in all environments", "anchors": ["src/main.rs::main", "src/main.rs::run_compile", "src/main.rs::new_project"]}
{"id": "C96", "title": "Recursion depth of the parser", "statement": "Parsing a document nests calls of expr::parse exactly one deeper than the brackets of the resulting tree are nested, which is at most the number of opening brackets; the length of the text does not matter. Every number of opening brackets is reached. A text that is rejected nests them at most one deeper than its number of opening brackets.", "quantifier": "all token lists that parse, and all texts that are rejected", "why_tests_cant": "stack use for documents of all sizes", "anchors": ["crates/brack-parser/src/expr.rs::parse", "crates/brack-parser/src/bracket.rs::parse", "crates/brack-parser/src/square.rs::parse"]}
