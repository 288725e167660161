(** Specification vocabulary for plugins, the expander and code generation. From the model it uses
    the data types and the type of plugin behaviours only. *)
From Coq Require Import String List NArith Bool Arith.
From Verif Require Import Base Tokens AST SpecTransform Plugin.
Import ListNotations.

(** ** Tables *)
(** [m[k] = v]: the first entry for [k] in the table is [v]. *)
Definition entry {K V} (m : list (K * V)) (k : K) (v : V) : Prop :=
  exists m1 m2, m = m1 ++ (k, v) :: m2 /\ ~ In k (map fst m1).

(** The plugin [n] has a command [f] returning [t], with the metadata [md]. *)
Definition provides (ps : plugins) (n f : str) (t : ptype) (md : metadata) : Prop :=
  exists p, entry (name_to_plugin ps) n p /\ entry (p_metadata p) (f, t) md.

(** ** The expander *)
(** What the expander meets, in document order: the macros that are not inside another macro, and
    the broken leaves that are not inside a macro. *)
Definition broken (a : ast) : Prop := exists k i v l, a = ALeaf k i v l /\ In k [FInvalid; FIgnored].
Fixpoint meets (a : ast) : list ast :=
  match a with
  | AInner NAngle _ _ _ => [a]
  | AInner _ _ cs _ => flat_map meets cs
  | ALeaf (FInvalid | FIgnored) _ _ _ => [a]
  | ALeaf _ _ _ _ => []
  end.
Definition inside (a : ast) : list ast :=
  match a with AInner _ _ cs _ => flat_map meets cs | ALeaf _ _ _ _ => meets a end.

(** The name of kind [k] in a macro: its last child of that kind; without one, empty. *)
Definition names (k : alkind) (cs : list ast) : list (option str) :=
  flat_map (fun c => match c with
                     | ALeaf FModule _ v _ => match k with FModule => [v] | _ => [] end
                     | ALeaf FIdent _ v _ => match k with FIdent => [v] | _ => [] end
                     | _ => []
                     end) cs.
Definition macro_call (ps : plugins) (doc a : ast) (e : event) : Prop :=
  exists i cs l md m f, a = AInner NAngle i cs l /\
    ~ In None (names FModule cs) /\ ~ In None (names FIdent cs) /\
    last (names FModule cs) (Some []) = Some m /\ last (names FIdent cs) (Some []) = Some f /\
    provides ps m f TAST md /\ e = mkEvent m (call_name md) (IMacro doc i).

Definition has_plugin (ps : plugins) (n : str) : Prop := exists p, entry (name_to_plugin ps) n p.

(** Why a macro cannot be called. *)
Inductive uncallable (ps : plugins) : ast -> str -> Prop :=
| Uc_nameless : forall i cs l, In None (names FModule cs ++ names FIdent cs) ->
    uncallable ps (AInner NAngle i cs l) (lit "No value found")
| Uc_plugin : forall i cs l m, ~ In None (names FModule cs ++ names FIdent cs) -> last (names FModule cs) (Some []) = Some m ->
    ~ has_plugin ps m -> uncallable ps (AInner NAngle i cs l) (lit "plugin not found: " ++ m)
| Uc_command : forall i cs l m f, ~ In None (names FModule cs ++ names FIdent cs) -> last (names FModule cs) (Some []) = Some m ->
    last (names FIdent cs) (Some []) = Some f -> has_plugin ps m -> (forall md, ~ provides ps m f TAST md) ->
    uncallable ps (AInner NAngle i cs l) (lit "metadata not found: " ++ f).

(** Running through the things met: one call per macro, in order, until one fails. *)
Inductive ending := Completed | Failed (message : str) | Panicked.
Inductive run (w : world) (ps : plugins) (doc : ast) : list ast -> list event -> ending -> list event -> Prop :=
| Run_end : forall h, run w ps doc [] h Completed h
| Run_broken : forall a rest h, broken a -> run w ps doc (a :: rest) h Panicked h
| Run_unknown : forall a rest h m, uncallable ps a m -> run w ps doc (a :: rest) h (Failed m) h
| Run_rejected : forall a rest h e, macro_call ps doc a e -> (forall r, w h e <> RAst r) ->
    run w ps doc (a :: rest) h (Failed (lit "call failed")) (h ++ [e])
| Run_call : forall a rest h e r o h', macro_call ps doc a e -> w h e = RAst r ->
    run w ps doc rest (h ++ [e]) o h' -> run w ps doc (a :: rest) h o h'.

Definition ending_of {A} (r : res A) (o : ending) : Prop :=
  match r with
  | Ok _ => o = Completed | Err m => o = Failed m | Panic _ => o = Panicked | Fuel => False
  end.

(** ** Signatures *)
Definition is_array (t : ptype) : bool := match t with TArray _ => true | _ => false end.
Definition is_optional (t : ptype) : bool := match t with TOption _ => true | _ => false end.
Definition is_required (t : ptype) : bool := negb (is_array t) && negb (is_optional t).

Definition required (ts : list ptype) : nat := length (filter is_required ts).

(** A parameter that is not an array, after one that is. *)
Definition after_array (ts : list ptype) : Prop :=
  exists l1 t l2 t' l3, ts = l1 ++ t :: l2 ++ t' :: l3 /\ is_array t = true /\ is_array t' = false.

(** The declared arity: at least the required parameters, at most all of them, no limit with an array. *)
Definition arity (ts : list ptype) (n : nat) : Prop :=
  required ts <= n /\ (existsb is_array ts = false -> n <= length ts).

(** What the code accepts instead. In debug builds a parameter after an array panics; in release
    builds the maximum wraps: the [d] parameters after the last array allow [d - 1] arguments. *)
Definition accepted (checks : bool) (ts : list ptype) (n : nat) : Prop :=
  arity ts n /\
  if checks then ~ after_array ts
  else forall l1 t l2, ts = l1 ++ t :: l2 -> is_array t = true -> existsb is_array l2 = false ->
       l2 <> [] -> n < length l2.

(** With [n] arguments there is a value for the parameter [t] at position [i]. *)
Definition bindable (n i : nat) (t : ptype) : Prop :=
  if is_array t then i <= n else if is_optional t then True else i < n.
Definition unbindable (ts : list ptype) (n : nat) : Prop :=
  exists i t, nth_error ts i = Some t /\ ~ bindable n i t.

(** Required parameters first, then optional ones or one array. *)
Definition well_ordered (ts : list ptype) : Prop :=
  exists rs os, ts = rs ++ os /\ Forall (fun t => is_required t = true) rs /\
    (Forall (fun t => is_optional t = true) os \/ exists t, os = [t] /\ is_array t = true).

(** The value for the parameter [t] at position [i]. *)
Definition value_at (args : list str) (i : nat) (t : ptype) (v : value) : Prop :=
  if is_array t then i <= length args /\ v = VArray (skipn i args)
  else if is_optional t then v = VOption (nth_error args i)
  else exists s, nth_error args i = Some s /\ v = VText s.

(** One value per parameter, taken from its position. *)
Definition values_for (ts : list ptype) (args : list str) (vs : list value) : Prop :=
  length vs = length ts /\
  forall i t v, nth_error ts i = Some t -> nth_error vs i = Some v -> value_at args i t v.

(** ** Code generation *)
(** Calling the command [f] of plugin [n]. *)
Definition calls (w : world) (ps : plugins) (n f : str) (t : ptype) (vs : list value)
    (h : list event) (s : str) (h' : list event) : Prop :=
  exists md, provides ps n f t md /\
    w h (mkEvent n (call_name md) (IValues vs)) = RText s /\
    h' = h ++ [mkEvent n (call_name md) (IValues vs)].

(** The hook of each level: the plugin that has it, its name and its type. *)
Inductive level := Document | Stmt | Expr | Text.
Definition hook (ps : plugins) (lv : level) : option str * str * ptype :=
  match lv with
  | Document => (document_hook_plugin_name ps, lit "document", TBlock)
  | Stmt => (stmt_hook_plugin_name ps, lit "stmt", TBlock)
  | Expr => (expr_hook_plugin_name ps, lit "expr", TInline)
  | Text => (text_hook_plugin_name ps, lit "text", TInline)
  end.
Definition passes (w : world) (ps : plugins) (lv : level) (s : str) (h : list event) (s' : str)
    (h' : list event) : Prop :=
  match hook ps lv with
  | (Some n, f, t) => calls w ps n f t [VText s] h s' h'
  | (None, _, _) => s' = s /\ h' = h
  end.

Definition level_of (k : akind) : option level :=
  match k with NDocument => Some Document | NStmt => Some Stmt | NExpr => Some Expr | _ => None end.
Definition command_type (k : akind) : option ptype :=
  match k with NCurly => Some TBlock | NSquare => Some TInline | _ => None end.

(** Statements stand in documents only, documents and macros nowhere. *)
Definition stands_in (a : ast) (k : akind) : Prop :=
  match a with
  | AInner NStmt _ _ _ => k = NDocument
  | AInner (NDocument | NAngle) _ _ _ => False
  | AInner _ _ _ _ => True
  | ALeaf FText _ _ _ => True
  | ALeaf _ _ _ _ => False
  end.

(** What a tree renders to, and the calls this makes. *)
Section renders.
  Variable checks : bool.
  Variable w : world.
  Variable ps : plugins.
  Inductive renders : ast -> list event -> str -> list event -> Prop :=
  | Re_text : forall i s l h s' h', passes w ps Text s h s' h' ->
      renders (ALeaf FText i (Some s) l) h s' h'
  | Re_parts : forall k lv i cs l h ss h1 s h', level_of k = Some lv ->
      renders_all k cs h ss h1 -> passes w ps lv (concat ss) h1 s h' ->
      renders (AInner k i cs l) h s h'
  | Re_command : forall k t i im m lm i_f f lf args l h ss h1 md vs s h',
      command_type k = Some t ->
      renders_all k args h ss h1 ->
      provides ps m f t md ->
      accepted checks (map snd (argument_types md)) (length ss) ->
      values_for (map snd (argument_types md)) ss vs ->
      calls w ps m f t vs h1 s h' ->
      renders (AInner k i (ALeaf FModule im (Some m) lm :: ALeaf FIdent i_f (Some f) lf :: args) l) h s h'
  with renders_all : akind -> list ast -> list event -> list str -> list event -> Prop :=
  | Re_nil : forall k h, renders_all k [] h [] h
  | Re_cons : forall k c cs h s h1 ss h2, stands_in c k -> renders c h s h1 ->
      renders_all k cs h1 ss h2 -> renders_all k (c :: cs) h (s :: ss) h2.
End renders.

(** A call that generation may make: of a hook with the one text it is given, or of a command
    with a value for each of its parameters, from a number of arguments that it declares. *)
Definition justified (ps : plugins) (e : event) : Prop :=
  (exists lv n f t md s, hook ps lv = (Some n, f, t) /\ provides ps n f t md /\
     e = mkEvent n (call_name md) (IValues [VText s])) \/
  (exists n f t md args vs, In t [TInline; TBlock] /\ provides ps n f t md /\
     arity (map snd (argument_types md)) (length args) /\
     values_for (map snd (argument_types md)) args vs /\
     e = mkEvent n (call_name md) (IValues vs)).

(** Every name and text of the tree is there. *)
Definition has_values (a : ast) : Prop :=
  forall k i l, In (ALeaf k i None l) (ast_nodes a) -> In k [FInvalid; FIgnored].

(** ** Sets of plugins *)
Definition enables (lv : level) (p : plugin) : bool :=
  match lv with
  | Document => document_hook (p_flags p) | Stmt => stmt_hook (p_flags p)
  | Expr => expr_hook (p_flags p) | Text => text_hook (p_flags p)
  end.
Definition hook_owner (lv : level) (ps : list plugin) : option str :=
  match filter (enables lv) ps with p :: _ => Some (p_name p) | [] => None end.

(** The last plugin of that name. *)
Definition last_named (ps : list plugin) (n : str) (p : plugin) : Prop :=
  exists l1 l2, ps = l1 ++ p :: l2 /\ p_name p = n /\ ~ In n (map p_name l2).

(** The hooks of a plugin: the flag that enables each of them, its name and its type. *)
Definition wants (lv : level) (f : flags) : bool :=
  match lv with
  | Document => document_hook f | Stmt => stmt_hook f | Expr => expr_hook f | Text => text_hook f
  end.
Definition hook_name (lv : level) : str :=
  match lv with
  | Document => lit "document" | Stmt => lit "stmt" | Expr => lit "expr" | Text => lit "text"
  end.
Definition hook_type (lv : level) : ptype :=
  match lv with Document | Stmt => TBlock | Expr | Text => TInline end.

(** The commands [metas] contain each enabled hook, always with its type. *)
Definition hooks_exported (f : flags) (metas : list metadata) : Prop :=
  forall lv, wants lv f = true ->
    (exists m, In m metas /\ command_name m = hook_name lv) /\
    (forall m, In m metas -> command_name m = hook_name lv -> return_type m = hook_type lv).

(** The last command of that name and type. *)
Definition last_command (metas : list metadata) (n : str) (t : ptype) (m : metadata) : Prop :=
  exists l1 l2, metas = l1 ++ m :: l2 /\ command_name m = n /\ return_type m = t /\
    forall m', In m' l2 -> (command_name m', return_type m') <> (n, t).
