(** The derived serde code of the types that cross the boundary to plugins: [AST] (ast.rs 7-34),
    [Location] (tokens.rs 24-34), [Value] (value.rs), [Type] (types.rs 3-12) and [Metadata]
    (metadata.rs), with the JSON notation of [serde_json]; and the calls of plugins on the level
    of the texts exchanged. *)
From Coq Require Import String List NArith ZArith Bool Lia.
From Verif Require Import Base Tokens AST Plugin Utf8 Framing Json.
Import ListNotations.

(** * [Serialize] *)

Definition jobj (fs : list (string * json)) : json := JObj (map (fun kv => (lit (fst kv), snd kv)) fs).
(** An enum with one variant that has content *)
Definition variant (name : str) (j : json) : json := JObj [(name, j)].

Definition ser_usize (n : nat) : json := JInt (Z.of_nat n).
(** tokens.rs 24-28 *)
Definition ser_pos (p : pos) : json :=
  jobj [("line", ser_usize (pline p)); ("character", ser_usize (pchar p))]%string.
(** tokens.rs 30-34 *)
Definition ser_loc (l : loc) : json := jobj [("start", ser_pos (lstart l)); ("end", ser_pos (lend l))]%string.
Definition ser_option (o : option str) : json := match o with Some s => JStr s | None => JNull end.

(** ast.rs 22-34: the names of the variants *)
Definition inner_name (k : akind) : str :=
  match k with
  | NDocument => lit "Document" | NStmt => lit "Stmt" | NExpr => lit "Expr"
  | NAngle => lit "Angle" | NSquare => lit "Square" | NCurly => lit "Curly"
  end.
Definition leaf_name (k : alkind) : str :=
  match k with
  | FIdent => lit "Ident" | FModule => lit "Module" | FText => lit "Text"
  | FInvalid => lit "Invalid" | FIgnored => lit "Ignored"
  end.

(** ast.rs 7-34 *)
Fixpoint ser_ast (a : ast) : json :=
  match a with
  | AInner k id cs l =>
      variant (inner_name k)
        (jobj [("id", JStr id); ("children", JArr (map ser_ast cs)); ("location", ser_loc l)]%string)
  | ALeaf k id v l =>
      variant (leaf_name k)
        (jobj [("id", JStr id); ("value", ser_option v); ("location", ser_loc l)]%string)
  end.

(** value.rs 3-8 *)
Definition ser_value (v : value) : json :=
  match v with
  | VText s => variant (lit "Text") (JStr s)
  | VArray l => variant (lit "TextArray") (JArr (map JStr l))
  | VOption o => variant (lit "TextOption") (ser_option o)
  end.

(** types.rs 3-12 *)
Fixpoint ser_type (t : ptype) : json :=
  match t with
  | TInline => JStr (lit "TInline")
  | TOption t => variant (lit "TOption") (ser_type t)
  | TBlock => JStr (lit "TBlock")
  | TArray t => variant (lit "TArray") (ser_type t)
  | TInlineCmd s => variant (lit "TInlineCmd") (JStr s)
  | TBlockCmd s => variant (lit "TBlockCmd") (JStr s)
  | TAST => JStr (lit "TAST")
  end.

(** metadata.rs 5-11; a pair is an array *)
Definition ser_metadata (m : metadata) : json :=
  jobj [("command_name", JStr (command_name m)); ("call_name", JStr (call_name m));
        ("argument_types", JArr (map (fun a => JArr [JStr (fst a); ser_type (snd a)]) (argument_types m)));
        ("return_type", ser_type (return_type m))]%string.

(** * [Deserialize] *)

Fixpoint mapM {A B} (f : A -> res B) (l : list A) : res (list B) :=
  match l with
  | [] => Ok []
  | x :: l' => let! y := f x in let! ys := mapM f l' in Ok (y :: ys)
  end.

(** The value of one field of a derived struct; a second one is an error. *)
Fixpoint field_once (name : str) (fs : list (str * json)) : res (option json) :=
  match fs with
  | [] => Ok None
  | (k, v) :: fs' =>
      let! o := field_once name fs' in
      if str_eqb k name
      then match o with Some _ => Err (lit "duplicate field") | None => Ok (Some v) end
      else Ok o
  end.

(** The fields of a derived struct: by name from an object, where other fields are ignored, or by
    position from an array of that length. *)
Definition de_struct (names : list string) (j : json) : res (list (option json)) :=
  match j with
  | JObj fs => mapM (fun n => field_once (lit n) fs) names
  | JArr l => if Nat.eqb (length l) (length names) then Ok (map Some l) else Err (lit "invalid length")
  | _ => Err (lit "invalid type")
  end.

Definition de_str (j : json) : res str := match j with JStr s => Ok s | _ => Err (lit "invalid type") end.
(** [usize] on a 64-bit machine *)
Definition de_usize (j : json) : res nat :=
  match j with
  | JInt z => if (0 <=? z)%Z && (z <? 2 ^ 64)%Z then Ok (Z.to_nat z) else Err (lit "invalid value")
  | _ => Err (lit "invalid type")
  end.
Definition de_option (j : json) : res (option str) :=
  match j with JNull => Ok None | JStr s => Ok (Some s) | _ => Err (lit "invalid type") end.
Definition de_vec {A} (f : json -> res A) (j : json) : res (list A) :=
  match j with JArr l => mapM f l | _ => Err (lit "invalid type") end.

Definition field {A} (f : json -> res A) (o : option json) : res A :=
  match o with Some j => f j | None => Err (lit "missing field") end.
(** A missing [Option] is [None]. *)
Definition optional (o : option json) : res (option str) :=
  match o with Some j => de_option j | None => Ok None end.

Definition de_pos (j : json) : res pos :=
  let! fs := de_struct ["line"; "character"]%string j in
  match fs with
  | [a; b] => let! a := field de_usize a in let! b := field de_usize b in Ok (mkpos a b)
  | _ => Err []
  end.
Definition de_loc (j : json) : res loc :=
  let! fs := de_struct ["start"; "end"]%string j in
  match fs with
  | [a; b] => let! a := field de_pos a in let! b := field de_pos b in Ok (mkloc a b)
  | _ => Err []
  end.

(** An enum: the name of the variant and its content; only a name if the variant has none. (A
    variant without content may also be written with the content [null].) *)
Definition de_enum (j : json) : res (str * option json) :=
  match j with
  | JStr name => Ok (name, None)
  | JObj [(name, content)] => Ok (name, Some content)
  | _ => Err (lit "expected value")
  end.

Definition inner_of (name : str) : option akind :=
  find (fun k => str_eqb name (inner_name k)) [NDocument; NStmt; NExpr; NAngle; NSquare; NCurly].
Definition leaf_of (name : str) : option alkind :=
  find (fun k => str_eqb name (leaf_name k)) [FIdent; FModule; FText; FInvalid; FIgnored].

(** ast.rs 7-34. [fuel] bounds the recursion of the model only. *)
Fixpoint de_ast_go (fuel : nat) (j : json) : res ast :=
  match fuel with
  | O => Fuel
  | S fuel =>
      let! (name, content) := de_enum j in
      match inner_of name, leaf_of name with
      | Some k, _ =>
          let! fs := field (de_struct ["id"; "children"; "location"]%string) content in
          match fs with
          | [a; b; c] =>
              let! id := field de_str a in
              let! cs := field (de_vec (de_ast_go fuel)) b in
              let! l := field de_loc c in
              Ok (AInner k id cs l)
          | _ => Err []
          end
      | None, Some k =>
          let! fs := field (de_struct ["id"; "value"; "location"]%string) content in
          match fs with
          | [a; b; c] =>
              let! id := field de_str a in
              let! v := optional b in
              let! l := field de_loc c in
              Ok (ALeaf k id v l)
          | _ => Err []
          end
      | None, None => Err (lit "unknown variant")
      end
  end.

(** How much is nested in a JSON value: [de_ast] goes down at most so often. *)
Fixpoint jdepth (j : json) : nat :=
  match j with
  | JArr l => S (list_max (map jdepth l))
  | JObj fs => S (list_max (map (fun kv => let '(_, x) := kv in jdepth x) fs))
  | _ => 0
  end.
Definition de_ast (j : json) : res ast := de_ast_go (S (jdepth j)) j.

(** value.rs 3-8 *)
Definition de_value (j : json) : res value :=
  let! (name, content) := de_enum j in
  if str_eqb name (lit "Text") then let! s := field de_str content in Ok (VText s)
  else if str_eqb name (lit "TextArray") then let! l := field (de_vec de_str) content in Ok (VArray l)
  else if str_eqb name (lit "TextOption") then let! o := field de_option content in Ok (VOption o)
  else Err (lit "unknown variant").

(** The content of a variant without content *)
Definition de_unit (content : option json) : res unit :=
  match content with None | Some JNull => Ok tt | _ => Err (lit "invalid type") end.

(** types.rs 3-12 *)
Fixpoint de_type (j : json) : res ptype :=
  match j with
  | JStr name =>
      if str_eqb name (lit "TInline") then Ok TInline
      else if str_eqb name (lit "TBlock") then Ok TBlock
      else if str_eqb name (lit "TAST") then Ok TAST
      else Err (lit "unknown variant")
  | JObj [(name, content)] =>
      if str_eqb name (lit "TOption") then let! t := de_type content in Ok (TOption t)
      else if str_eqb name (lit "TArray") then let! t := de_type content in Ok (TArray t)
      else if str_eqb name (lit "TInlineCmd") then let! s := de_str content in Ok (TInlineCmd s)
      else if str_eqb name (lit "TBlockCmd") then let! s := de_str content in Ok (TBlockCmd s)
      else if str_eqb name (lit "TInline") then let! _ := de_unit (Some content) in Ok TInline
      else if str_eqb name (lit "TBlock") then let! _ := de_unit (Some content) in Ok TBlock
      else if str_eqb name (lit "TAST") then let! _ := de_unit (Some content) in Ok TAST
      else Err (lit "unknown variant")
  | _ => Err (lit "expected value")
  end.

(** The pair of a name and a type: an array of two *)
Definition de_argument (j : json) : res (str * ptype) :=
  match j with
  | JArr [a; b] => let! n := de_str a in let! t := de_type b in Ok (n, t)
  | _ => Err (lit "invalid length")
  end.

(** metadata.rs 5-11 *)
Definition de_metadata (j : json) : res metadata :=
  let! fs := de_struct ["command_name"; "call_name"; "argument_types"; "return_type"]%string j in
  match fs with
  | [a; b; c; d] =>
      let! name := field de_str a in
      let! call := field de_str b in
      let! args := field (de_vec de_argument) c in
      let! typ := field de_type d in
      Ok (mkMeta name call args typ)
  | _ => Err []
  end.

(** * The texts exchanged *)

(** [Json(..)] of extism_convert: [serde_json::to_vec] and [serde_json::from_slice]. (Simplification:
    the text is read as a JSON value first; [serde_json] skips ignored fields without a limit
    on their nesting.) *)
Definition to_text (j : json) : bytes := utf8 (print j).
Definition of_text {A} (f : json -> res A) (b : bytes) : res A :=
  match from_utf8 b with
  | Some s => let! j := from_str s in f j
  | None => Err (lit "invalid utf-8 sequence")
  end.

(** plugins.rs 96-141: the arguments of a call *)
Definition ser_input (i : input) : json :=
  match i with
  | IValues vs => JArr (map ser_value vs)
  | IMacro a id => JArr [ser_ast a; JStr id]
  end.

(** plugin.rs 28: the metadata of a plugin *)
Definition read_metadata (b : bytes) : res (list metadata) := of_text (de_vec de_metadata) b.

(** A plugin on the level of texts: the name of the plugin, the exported function and the text given to
    it; the bytes of the answer or a trap. It may remember all earlier calls. *)
Definition text_event : Type := str * str * bytes.
Definition text_world : Type := list text_event -> text_event -> option bytes.
Definition event_text (e : event) : text_event := (ev_plugin e, ev_function e, to_text (ser_input (ev_input e))).

(** plugins.rs 96-141: commands answer with a [String], macros with a [Json<AST>]. *)
Definition read_reply (i : input) (answer : option bytes) : reply :=
  match answer, i with
  | None, _ => RFail
  | Some b, IValues _ => match from_utf8 b with Some s => RText s | None => RFail end
  | Some b, IMacro _ _ => match of_text de_ast b with Ok a => RAst a | _ => RFail end
  end.
Definition world_of (w : text_world) : world := fun h e =>
  read_reply (ev_input e) (w (map event_text h) (event_text e)).

(** What a plugin reads that is written in Rust with the same types *)
Definition de_macro (j : json) : res (ast * str) :=
  match j with
  | JArr [a; i] => let! a := de_ast a in let! i := de_str i in Ok (a, i)
  | _ => Err (lit "invalid length")
  end.
(** A macro plugin written with these types around the function [f] on documents *)
Definition macro_plugin (f : ast -> str -> ast) : text_world := fun _ e =>
  match of_text de_macro (snd e) with
  | Ok (a, id) => Some (to_text (ser_ast (f a id)))
  | _ => None
  end.
