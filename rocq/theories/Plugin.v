(** brack-plugin: types.rs, value.rs, metadata.rs, feature_flag.rs, plugin.rs, plugins.rs. *)
From Coq Require Import String List NArith Bool.
From Verif Require Import Base Tokens AST.
Import ListNotations.

(** types.rs 3-12 *)
Inductive ptype :=
| TInline | TOption (t : ptype) | TBlock | TArray (t : ptype)
| TInlineCmd (s : str) | TBlockCmd (s : str) | TAST.

(** [#[derive(PartialEq)]], types.rs 3 *)
Fixpoint ptype_eqb (a b : ptype) : bool :=
  match a, b with
  | TInline, TInline | TBlock, TBlock | TAST, TAST => true
  | TOption a, TOption b | TArray a, TArray b => ptype_eqb a b
  | TInlineCmd a, TInlineCmd b | TBlockCmd a, TBlockCmd b => str_eqb a b
  | _, _ => false
  end.

(** value.rs 3-8 *)
Inductive value := VText (s : str) | VArray (l : list str) | VOption (o : option str).

(** metadata.rs 5-11 *)
Record metadata := mkMeta {
  command_name : str;
  call_name : str;
  argument_types : list (str * ptype);
  return_type : ptype
}.

(** feature_flag.rs 3-9 *)
Record flags := mkFlags { document_hook : bool; stmt_hook : bool; expr_hook : bool; text_hook : bool }.

(** A [HashMap], as the list of its entries; [insert] replaces. *)
Section HashMap.
  Context {K V : Type} (eqb : K -> K -> bool).
  Fixpoint hm_get (m : list (K * V)) (k : K) : option V :=
    match m with
    | [] => None
    | (k', v) :: m' => if eqb k k' then Some v else hm_get m' k
    end.
  Fixpoint hm_insert (m : list (K * V)) (k : K) (v : V) : list (K * V) :=
    match m with
    | [] => [(k, v)]
    | (k', v') :: m' => if eqb k k' then (k', v) :: m' else (k', v') :: hm_insert m' k v
    end.
End HashMap.

(** The key type of [signature_to_metadata], plugin.rs 16. *)
Definition sig_eqb (a b : str * ptype) : bool := str_eqb (fst a) (fst b) && ptype_eqb (snd a) (snd b).

(** plugin.rs 13-18. The [extism_plugin] is an oracle, see [world]. *)
Record plugin := mkPlugin {
  p_name : str;
  p_metadata : list ((str * ptype) * metadata);
  p_flags : flags
}.

(** plugin.rs 36-64: the loop over the metadata; the four booleans are [exists_*_hook]. *)
Fixpoint plugin_loop (f : flags) (metas : list metadata) (tbl : list ((str * ptype) * metadata))
    (seen : flags) : res (list ((str * ptype) * metadata) * flags) :=
  match metas with
  | [] => Ok (tbl, seen)
  | m :: metas' =>
    let n := command_name m in
    let r := return_type m in
    let doc := str_eqb n (lit "document") && document_hook f in
    let st := str_eqb n (lit "stmt") && stmt_hook f in
    let ex := str_eqb n (lit "expr") && expr_hook f in
    let te := str_eqb n (lit "text") && text_hook f in
    if doc && negb (ptype_eqb r TBlock) then Err (lit "document hook must return TBlock")
    else if st && negb (ptype_eqb r TBlock) then Err (lit "stmt hook must return TBlock")
    else if ex && negb (ptype_eqb r TInline) then Err (lit "expr hook must return TInline")
    else if te && negb (ptype_eqb r TInline) then Err (lit "text hook must return TInline")
    else plugin_loop f metas' (hm_insert sig_eqb tbl (n, r) m)
           (mkFlags (document_hook seen || doc) (stmt_hook seen || st)
                    (expr_hook seen || ex) (text_hook seen || te))
  end.

(** plugin.rs 21-85, after [get_metadata] has returned [metas]. (Reading the file and starting
    the WASM module are not modelled: if they fail, so does [Plugin::new].) *)
Definition plugin_new (name : str) (metas : list metadata) (f : flags) : res plugin :=
  let! (tbl, seen) := plugin_loop f metas [] (mkFlags false false false false) in
  if document_hook f && negb (document_hook seen) then Err (lit "document hook not found")
  else if stmt_hook f && negb (stmt_hook seen) then Err (lit "stmt hook not found")
  else if expr_hook f && negb (expr_hook seen) then Err (lit "expr hook not found")
  else if text_hook f && negb (text_hook seen) then Err (lit "text hook not found")
  else Ok (mkPlugin name tbl f).

(** plugins.rs 10-16 *)
Record plugins := mkPlugins {
  name_to_plugin : list (str * plugin);
  document_hook_plugin_name : option str;
  stmt_hook_plugin_name : option str;
  expr_hook_plugin_name : option str;
  text_hook_plugin_name : option str
}.

Definition is_some {A} (o : option A) : bool := match o with Some _ => true | None => false end.

(** plugins.rs 26-53 *)
Fixpoint plugins_loop (ps : list plugin) (acc : plugins) : res plugins :=
  match ps with
  | [] => Ok acc
  | p :: ps' =>
    let n := p_name p in
    let f := p_flags p in
    if document_hook f && is_some (document_hook_plugin_name acc) then Err (lit "only one document hook is allowed")
    else if stmt_hook f && is_some (stmt_hook_plugin_name acc) then Err (lit "only one stmt hook is allowed")
    else if expr_hook f && is_some (expr_hook_plugin_name acc) then Err (lit "only one expr hook is allowed")
    else if text_hook f && is_some (text_hook_plugin_name acc) then Err (lit "only one text hook is allowed")
    else plugins_loop ps'
           (mkPlugins (hm_insert str_eqb (name_to_plugin acc) n p)
              (if document_hook f then Some n else document_hook_plugin_name acc)
              (if stmt_hook f then Some n else stmt_hook_plugin_name acc)
              (if expr_hook f then Some n else expr_hook_plugin_name acc)
              (if text_hook f then Some n else text_hook_plugin_name acc))
  end.

(** plugins.rs 19-62 *)
Definition plugins_new (ps : list plugin) : res plugins :=
  plugins_loop ps (mkPlugins [] None None None None).

(** [opt.ok_or_else(|| anyhow!(msg))] with a message that is not constant *)
Definition ok_or_else {A} (o : option A) (msg : str) : res A := match o with Some x => Ok x | None => Err msg end.

(** plugins.rs 64-79 *)
Definition argument_types_of (ps : plugins) (module_name command_name : str) (typ : ptype)
    : res (list (str * ptype)) :=
  let! p := ok_or_else (hm_get str_eqb (name_to_plugin ps) module_name) (lit "plugin not found: " ++ module_name) in
  let! m := ok_or_else (hm_get sig_eqb (p_metadata p) (command_name, typ)) (lit "command not found: " ++ command_name) in
  Ok (argument_types m).

(** ** Calls into plugins *)
(** What a plugin is given: [Json<Vec<Value>>] or [Json<(AST, String)>]. *)
Inductive input := IValues (vs : list value) | IMacro (overall : ast) (id : str).

(** One call of an exported WASM function. *)
Record event := mkEvent { ev_plugin : str; ev_function : str; ev_input : input }.

(** What comes back: a string, an AST, or a failure (trap, bad UTF-8, bad JSON). *)
Inductive reply := RText (s : str) | RAst (a : ast) | RFail.

(** Plugins are stateful WASM modules: the reply may depend on all earlier calls. (extism's
    [Plugin::call]; nothing is assumed about it.) *)
Definition world := list event -> event -> reply.

(** Computations that may call plugins: they extend the list of calls made so far. *)
Definition M (A : Type) : Type := list event -> res A * list event.
Definition ret {A} (r : res A) : M A := fun h => (r, h).
Definition mbind {A B} (m : M A) (f : A -> M B) : M B := fun h =>
  let (r, h') := m h in
  match r with
  | Ok a => f a h'
  | Err e => (Err e, h')
  | Panic e => (Panic e, h')
  | Fuel => (Fuel, h')
  end.
Notation "'do!' x := m 'in' k" := (mbind m (fun x => k))
  (at level 200, x pattern, m at level 100, k at level 200, right associativity).

Section Calls.
  Variable w : world.
  Variable ps : plugins.

  (** plugins.rs 81-94 with plugin.rs 87-102: look up plugin and metadata, then call *)
  Definition call (plugin_name command_name : str) (return_type : ptype) (i : input) : M reply :=
    do! p := ret (ok_or_else (hm_get str_eqb (name_to_plugin ps) plugin_name) (lit "plugin not found: " ++ plugin_name)) in
    do! m := ret (ok_or_else (hm_get sig_eqb (p_metadata p) (command_name, return_type)) (lit "metadata not found: " ++ command_name)) in
    fun h => let e := mkEvent plugin_name (call_name m) i in (Ok (w h e), h ++ [e]).

  (** the result as [String]. (Simplification: the error of extism has a fixed text.) *)
  Definition text_reply (r : reply) : res str :=
    match r with RText s => Ok s | _ => Err (lit "call failed") end.
  (** the result as [Json<AST>] *)
  Definition ast_reply (r : reply) : res ast :=
    match r with RAst a => Ok a | _ => Err (lit "call failed") end.

  (** plugins.rs 96-109 *)
  Definition call_inline_command (plugin_name command_name : str) (args : list value) : M str :=
    do! r := call plugin_name command_name TInline (IValues args) in ret (text_reply r).

  (** plugins.rs 111-124 *)
  Definition call_block_command (plugin_name command_name : str) (args : list value) : M str :=
    do! r := call plugin_name command_name TBlock (IValues args) in ret (text_reply r).

  (** plugins.rs 126-141 *)
  Definition call_macro_command (plugin_name command_name : str) (a : ast) (id : str) : M ast :=
    do! r := call plugin_name command_name TAST (IMacro a id) in ret (ast_reply r).

  (** plugins.rs 143-150 *)
  Definition call_document_hook (args : list value) : M (option str) :=
    match document_hook_plugin_name ps with
    | Some n => do! r := call_block_command n (lit "document") args in ret (Ok (Some r))
    | None => ret (Ok None)
    end.

  (** plugins.rs 152-159 *)
  Definition call_stmt_hook (args : list value) : M (option str) :=
    match stmt_hook_plugin_name ps with
    | Some n => do! r := call_block_command n (lit "stmt") args in ret (Ok (Some r))
    | None => ret (Ok None)
    end.

  (** plugins.rs 161-168 *)
  Definition call_expr_hook (args : list value) : M (option str) :=
    match expr_hook_plugin_name ps with
    | Some n => do! r := call_inline_command n (lit "expr") args in ret (Ok (Some r))
    | None => ret (Ok None)
    end.

  (** plugins.rs 170-177 *)
  Definition call_text_hook (args : list value) : M (option str) :=
    match text_hook_plugin_name ps with
    | Some n => do! r := call_inline_command n (lit "text") args in ret (Ok (Some r))
    | None => ret (Ok None)
    end.
End Calls.

(** The two bounds of [arg_counter]. [usize::MAX] is symbolic: a [Vec] has fewer elements. *)
Inductive bound := Fin (n : nat) | UMax.

(** [max += 1]. With overflow checks (debug builds) [usize::MAX + 1] panics; without (release
    builds) it wraps to 0. *)
Definition bound_succ (checks : bool) (b : bound) : res bound :=
  match b with
  | Fin n => Ok (Fin (S n))
  | UMax => if checks then Panic (lit "attempt to add with overflow") else Ok (Fin 0)
  end.

(** types.rs 14-34 *)
Fixpoint arg_counter_loop (checks : bool) (ts : list ptype) (min : nat) (max : bound) : res (nat * bound) :=
  match ts with
  | [] => Ok (min, max)
  | TOption _ :: ts' => let! max' := bound_succ checks max in arg_counter_loop checks ts' min max'
  | TArray _ :: ts' => arg_counter_loop checks ts' min UMax
  | _ :: ts' => let! max' := bound_succ checks max in arg_counter_loop checks ts' (S min) max'
  end.
Definition arg_counter (checks : bool) (ts : list ptype) : res (nat * bound) :=
  arg_counter_loop checks ts 0 (Fin 0).
