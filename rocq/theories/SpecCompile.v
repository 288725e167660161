(** Specification vocabulary from tokens to the generated text. *)
From Coq Require Import String List NArith Bool.
From Verif Require Import Base Tokens SpecTok SpecCST AST SpecTransform Plugin.
Import ListNotations.

(** The words of a token list: its names and texts, where its commands begin, the characters it
    escapes, and the backslashes that escape nothing. *)
Definition escaped_by (k : tkind) : option str :=
  option_map fst (find (fun e => if tkind_eq_dec (snd e) k then true else false) escapes).
Fixpoint tok_words (ks : list tkind) : list word :=
  match ks with
  | [] => []
  | TkModule s :: ks' => WModule s :: tok_words ks'
  | TkIdent s :: ks' => WIdent s :: tok_words ks'
  | TkText s :: ks' => WText s :: tok_words ks'
  | TkAngleOpen :: ks' => WCommand NAngle :: tok_words ks'
  | TkCurlyOpen :: ks' => WCommand NCurly :: tok_words ks'
  | TkSquareOpen :: ks' => WCommand NSquare :: tok_words ks'
  | TkBackSlash :: ks' =>
    match ks' with
    | k :: ks'' => match escaped_by k with
                   | Some s => WText s :: tok_words ks''
                   | None => WInvalid :: tok_words ks'
                   end
    | [] => [WInvalid]
    end
  | _ :: ks' => tok_words ks'
  end.

(** The text of a word. *)
Definition text_of (w : word) : option str := match w with WText s => Some s | _ => None end.

(** No plugin has a hook. *)
Definition hook_free (ps : plugins) : Prop :=
  document_hook_plugin_name ps = None /\ stmt_hook_plugin_name ps = None /\
  expr_hook_plugin_name ps = None /\ text_hook_plugin_name ps = None.
