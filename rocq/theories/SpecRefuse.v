(** Why code generation gives up, and what it says. From the model this uses the data types, the vocabulary of SpecGen.v, and
    [ast_display] (see C86) for the node that is shown in a message. *)
From Coq Require Import String List NArith Bool Arith.
From Verif Require Import Base Tokens AST SpecTransform Plugin SpecGen SpecFraming.
Import ListNotations.

(** Decimal notation without leading zeros. *)
Definition numeral (d : str) (n : nat) : Prop := decimal d (N.of_nat n) /\ (forall r, d = 48%N :: r -> r = []).

(** The largest number of arguments that a command takes, if there is one (in release builds the parameters after the last
    array limit it, see [accepted]). *)
Definition most (ts : list ptype) (m : nat) : Prop :=
  (existsb is_array ts = false /\ m = length ts) \/
  (exists l1 t l2, ts = l1 ++ t :: l2 /\ is_array t = true /\ existsb is_array l2 = false /\ length l2 = S m).

Section refuses.
  Variable checks : bool.
  Variable w : world.
  Variable ps : plugins.

  (** A call of [f] in the plugin [n] that does not succeed. *)
  Inductive uncalled (n f : str) (t : ptype) (vs : list value) (h : list event) : str -> list event -> Prop :=
  | Un_plugin : ~ has_plugin ps n -> uncalled n f t vs h (lit "plugin not found: " ++ n) h
  | Un_command : has_plugin ps n -> (forall md, ~ provides ps n f t md) -> uncalled n f t vs h (lit "metadata not found: " ++ f) h
  | Un_failed : forall md, provides ps n f t md -> (forall s, w h (mkEvent n (call_name md) (IValues vs)) <> RText s) ->
      uncalled n f t vs h (lit "call failed") (h ++ [mkEvent n (call_name md) (IValues vs)]).
  Definition unpassed (lv : level) (s : str) (h : list event) (m : str) (h' : list event) : Prop :=
    exists n f t, hook ps lv = (Some n, f, t) /\ uncalled n f t [VText s] h m h'.

  (** What is wrong with a command that has [n] arguments. *)
  Inductive objection (t : ptype) (module ident : ast) (n : nat) : str -> Prop :=
  | Ob_module : (forall i v l, module <> ALeaf FModule i v l) -> objection t module ident n (lit "Module must be a module")
  | Ob_no_module : forall i l, module = ALeaf FModule i None l -> objection t module ident n (lit "Module name must be a string")
  | Ob_ident : forall i m l, module = ALeaf FModule i (Some m) l -> (forall j v k, ident <> ALeaf FIdent j v k) ->
      objection t module ident n (lit "Identifier must be an identifier")
  | Ob_no_ident : forall i m l j k, module = ALeaf FModule i (Some m) l -> ident = ALeaf FIdent j None k ->
      objection t module ident n (lit "Identifier name must be a string")
  | Ob_plugin : forall i m l j f k, module = ALeaf FModule i (Some m) l -> ident = ALeaf FIdent j (Some f) k -> ~ has_plugin ps m ->
      objection t module ident n (lit "plugin not found: " ++ m)
  | Ob_command : forall i m l j f k, module = ALeaf FModule i (Some m) l -> ident = ALeaf FIdent j (Some f) k -> has_plugin ps m ->
      (forall md, ~ provides ps m f t md) -> objection t module ident n (lit "command not found: " ++ f)
  | Ob_few : forall i m l j f k md d, module = ALeaf FModule i (Some m) l -> ident = ALeaf FIdent j (Some f) k -> provides ps m f t md ->
      ~ (checks = true /\ after_array (map snd (argument_types md))) -> n < required (map snd (argument_types md)) ->
      numeral d (required (map snd (argument_types md))) ->
      objection t module ident n (f ++ lit " requires at least " ++ d ++ lit " arguments")
  | Ob_many : forall i m l j f k md d x, module = ALeaf FModule i (Some m) l -> ident = ALeaf FIdent j (Some f) k -> provides ps m f t md ->
      ~ (checks = true /\ after_array (map snd (argument_types md))) -> required (map snd (argument_types md)) <= n ->
      most (map snd (argument_types md)) x -> x < n -> numeral d x ->
      objection t module ident n (f ++ lit " requires at most " ++ d ++ lit " arguments").

  Definition node_name (k : akind) : string :=
    match k with NDocument => "Document" | NStmt => "Stmt" | NExpr => "Expr" | NAngle => "Angle" | NSquare => "Square" | NCurly => "Curly" end.
  Definition nameless (k : akind) (named : bool) : string :=
    match k with
    | NCurly => if named then "Curly must contain identifier" else "Curly must contain module"
    | _ => "Square must contain module and identifier"
    end.

  Inductive refuses : ast -> list event -> str -> list event -> Prop :=
  | Rf_missing : forall i l h, refuses (ALeaf FText i None l) h (lit "No value found") h
  | Rf_text : forall i s l h m h', unpassed Text s h m h' -> refuses (ALeaf FText i (Some s) l) h m h'
  | Rf_part : forall k lv i cs l h m h', level_of k = Some lv -> refuses_one k cs h m h' -> refuses (AInner k i cs l) h m h'
  | Rf_hook : forall k lv i cs l h ss h1 m h', level_of k = Some lv -> renders_all checks w ps k cs h ss h1 ->
      unpassed lv (concat ss) h1 m h' -> refuses (AInner k i cs l) h m h'
  | Rf_empty : forall k t i l h, command_type k = Some t -> refuses (AInner k i [] l) h (lit (nameless k false)) h
  | Rf_single : forall k t i a l h, command_type k = Some t -> refuses (AInner k i [a] l) h (lit (nameless k true)) h
  | Rf_argument : forall k t i a b args l h m h', command_type k = Some t -> refuses_one k args h m h' ->
      refuses (AInner k i (a :: b :: args) l) h m h'
  | Rf_command : forall k t i a b args l h ss m h', command_type k = Some t -> renders_all checks w ps k args h ss h' ->
      objection t a b (length ss) m -> refuses (AInner k i (a :: b :: args) l) h m h'
  | Rf_call : forall k t i im n lm i_f f lf args l h ss h1 md vs m h', command_type k = Some t -> renders_all checks w ps k args h ss h1 ->
      provides ps n f t md -> accepted checks (map snd (argument_types md)) (length ss) ->
      values_for (map snd (argument_types md)) ss vs -> uncalled n f t vs h1 m h' ->
      refuses (AInner k i (ALeaf FModule im (Some n) lm :: ALeaf FIdent i_f (Some f) lf :: args) l) h m h'
  (** the first part that is refused *)
  with refuses_one : akind -> list ast -> list event -> str -> list event -> Prop :=
  | Ro_angle : forall k i ds l cs h, refuses_one k (AInner NAngle i ds l :: cs) h (lit "Angle must be expanded by the macro expander.") h
  | Ro_misplaced : forall k c cs h s, ~ stands_in c k -> (forall i ds l, c <> AInner NAngle i ds l) -> ast_display 0 c = Ok s ->
      refuses_one k (c :: cs) h (lit (node_name k) ++ lit " cannot contain the following node" ++ [10%N] ++ s) h
  | Ro_here : forall k c cs h m h', stands_in c k -> refuses c h m h' -> refuses_one k (c :: cs) h m h'
  | Ro_later : forall k c cs h s h1 m h', stands_in c k -> renders checks w ps c h s h1 -> refuses_one k cs h1 m h' ->
      refuses_one k (c :: cs) h m h'.

  (** What a document can be blamed for. *)
  Inductive blame (a : ast) : str -> Prop :=
  | Bl_command : forall k t i im n lm jf f lf args l m,
      In (AInner k i (ALeaf FModule im (Some n) lm :: ALeaf FIdent jf (Some f) lf :: args) l) (ast_nodes a) -> command_type k = Some t ->
      objection t (ALeaf FModule im (Some n) lm) (ALeaf FIdent jf (Some f) lf) (length args) m -> blame a m
  | Bl_word : forall k i v l m, In (ALeaf k i (Some v) l) (ast_nodes a) -> k <> FText -> ast_display 0 (ALeaf k i (Some v) l) = Ok m ->
      blame a (lit "Expr cannot contain the following node" ++ [10%N] ++ m)
  | Bl_call : blame a (lit "call failed").
End refuses.
