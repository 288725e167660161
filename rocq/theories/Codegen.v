(** brack-codegen: generate.rs, stmt.rs, expr.rs, curly.rs, square.rs, text.rs. *)
From Coq Require Import String List NArith Bool.
From Verif Require Import Base Tokens AST Plugin Framing.
Import ListNotations.

(** square.rs 74-88 and curly.rs 74-88: the values of the parameters [ts] from position [i] on *)
Fixpoint bind_args (ts : list ptype) (i : nat) (arguments : list str) : res (list value) :=
  match ts with
  | [] => Ok []
  | t :: ts' =>
    let! v :=
      match t with
      | TOption _ => Ok (VOption (if Nat.ltb i (length arguments) then nth_error arguments i else None))
      | TArray _ => if Nat.leb i (length arguments) then Ok (VArray (skipn i arguments))
                    else Panic (lit "range start index out of range for slice")
      | _ => match nth_error arguments i with
             | Some x => Ok (VText x)
             | None => Panic (lit "index out of bounds")
             end
      end in
    let! vs := bind_args ts' (S i) arguments in
    Ok (v :: vs)
  end.

(** [{}] of a [usize], 64 bits *)
Definition bound_text (b : bound) : str := match b with Fin m => dec (N.of_nat m) | UMax => lit "18446744073709551615" end.

(** [arguments.len() > max], square.rs 68 and curly.rs 68 *)
Definition exceeds (n : nat) (b : bound) : bool :=
  match b with Fin m => Nat.ltb m n | UMax => false end.

(** The name of the parent in the message of the [ast =>] arms. *)
Definition parent_name (k : akind) : str :=
  match k with
  | NDocument => lit "Document" | NStmt => lit "Stmt" | NExpr => lit "Expr" | NCurly => lit "Curly" | NSquare => lit "Square" | NAngle => lit "Angle"
  end.

(** What [match child] accepts in each parent: generate.rs 14-22, stmt.rs 14-21, expr.rs 14-21,
    square.rs 26-33, curly.rs 26-33. *)
Definition allowed (parent : akind) (child : ast) : res unit :=
  match parent, child with
  | NDocument, AInner (NStmt | NExpr | NCurly | NSquare) _ _ _
  | NStmt, AInner (NExpr | NCurly | NSquare) _ _ _
  | NExpr, AInner (NCurly | NSquare | NExpr) _ _ _
  | (NSquare | NCurly), AInner (NExpr | NCurly | NSquare) _ _ _
  | _, ALeaf FText _ _ _ => Ok tt
  | _, AInner NAngle _ _ _ => Err (lit "Angle must be expanded by the macro expander.")
  | _, _ => let! s := ast_display 0 child in Err (parent_name parent ++ lit " cannot contain the following node" ++ [10%N] ++ s)
  end.

Section Generate.
  Variable checks : bool.   (* overflow checks, see [bound_succ] *)
  Variable w : world.
  Variable ps : plugins.

  (** [match hook_result { Some(result) => Ok(result), None => Ok(result) }] *)
  Definition hooked (hook : list value -> M (option str)) (result : str) : M str :=
    do! r := hook [VText result] in
    ret (Ok (match r with Some result => result | None => result end)).

  (** square.rs 37-91 and curly.rs 37-91: after the arguments have been generated. The two
      functions differ in the type and the call. *)
  Definition command (k : akind) (module ident : ast) (arguments : list str) : M str :=
    do! module_name := ret (match module with
                            | ALeaf FModule _ (Some v) _ => Ok v
                            | ALeaf FModule _ None _ => Err (lit "Module name must be a string")
                            | _ => Err (lit "Module must be a module")
                            end) in
    do! ident_name := ret (match ident with
                           | ALeaf FIdent _ (Some v) _ => Ok v
                           | ALeaf FIdent _ None _ => Err (lit "Identifier name must be a string")
                           | _ => Err (lit "Identifier must be an identifier")
                           end) in
    do! arg_types := ret (argument_types_of ps module_name ident_name
                            (match k with NCurly => TBlock | _ => TInline end)) in
    do! (min, max) := ret (arg_counter checks (map snd arg_types)) in
    if Nat.ltb (length arguments) min then ret (Err (ident_name ++ lit " requires at least " ++ dec (N.of_nat min) ++ lit " arguments"))
    else if exceeds (length arguments) max then ret (Err (ident_name ++ lit " requires at most " ++ bound_text max ++ lit " arguments"))
    else
      do! args := ret (bind_args (map snd arg_types) 0 arguments) in
      match k with
      | NCurly => call_block_command w ps module_name ident_name args
      | _ => call_inline_command w ps module_name ident_name args
      end.

  (** All [generate] functions in one, by the kind of the node: document (generate.rs 12-30),
      stmt (stmt.rs 12-29), expr (expr.rs 12-29), square and curly (11-91), text (text.rs 5-15). A node is passed
      only where its parent allows it; the other nodes are rejected by every caller. *)
  Fixpoint gen (a : ast) : M str :=
    match a with
    | ALeaf FText _ v _ =>
      do! s := ret (ok_or v "No value found") in
      hooked (call_text_hook w ps) s
    | ALeaf _ _ _ _ => ret (Err (lit "cannot contain the following node"))
    | AInner k _ cs _ =>
      let go := (fix go (cs : list ast) : M (list str) :=
           match cs with
           | [] => ret (Ok [])
           | c :: cs' =>
             do! _ := ret (allowed k c) in
             do! x := gen c in
             do! xs := go cs' in
             ret (Ok (x :: xs))
           end) in
      match k with
      | NDocument => do! rs := go cs in hooked (call_document_hook w ps) (concat rs)
      | NStmt => do! rs := go cs in hooked (call_stmt_hook w ps) (concat rs)
      | NExpr => do! rs := go cs in hooked (call_expr_hook w ps) (concat rs)
      | NSquare | NCurly =>
        match cs with
        | [] => ret (Err (match k with NCurly => lit "Curly must contain module" | _ => lit "Square must contain module and identifier" end))
        | _ :: [] => ret (Err (match k with NCurly => lit "Curly must contain identifier" | _ => lit "Square must contain module and identifier" end))
        | m :: i :: rest => do! arguments := go rest in command k m i arguments
        end
      | NAngle => ret (Err (lit "Angle must be expanded by the macro expander."))
      end
    end.

  (** generate.rs 7-31 *)
  Definition generate (a : ast) : M str :=
    match a with
    | AInner NDocument _ _ _ => gen a
    | _ => ret (Err (lit "Document must be a document"))
    end.
End Generate.
