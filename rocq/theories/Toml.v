(** TOML text as the [toml] crate (0.8, with toml_edit 0.22) writes and reads it. This is a library of brack, not
    its source: project.rs 32 and plugin.rs 223, 280 of brack-project-manager read and write Brack.toml with it.
    (Simplification: numbers, dates and arrays of tables are not read and not written; brack has none in its
    configuration. Errors have no text.) *)
From Coq Require Import String List NArith Bool.
From Verif Require Import Base Json Serde Project.
Import ListNotations.
Local Open Scope N_scope.

(** * Writing: [toml::to_string] *)

(** How a string is written: '...' and "..." on one line, triple quotes on one line, triple quotes followed by a line feed. *)
Inductive style := OneLine | Triple | TripleLines.

Definition control (c : N) : bool := (c <=? 31) || (c =? 127).

(** What is noticed of a string while its style is chosen (toml_edit, [infer_style]): whether it can be
    written between apostrophes, whether that is preferred, the line feeds, the apostrophes just read and the longest row of them. *)
Record looks := mkLooks { l_pretty : bool; l_prefer : bool; l_lines : bool; l_now : nat; l_most : nat }.
Definition look (l : looks) (c : N) : looks :=
  if l_pretty l then
    let now := if c =? 39 then S (l_now l) else O in
    let most := if c =? 39 then l_most l else Nat.max (l_most l) (l_now l) in
    mkLooks (negb (Nat.leb 3 now) && (negb (control c) || (c =? 9) || (c =? 10)))
            (l_prefer l || (c =? 34) || (c =? 92)) (l_lines l || (c =? 10)) now most
  else mkLooks false (l_prefer l) (l_lines l || (c =? 10)) (l_now l) (l_most l).

(** The style, and whether apostrophes are used. *)
Definition infer_style (s : str) : style * bool :=
  let l := fold_left look s (mkLooks true false false 0 0) in
  let ty := if l_lines l then TripleLines else OneLine in
  if l_pretty l && l_prefer l && Nat.eqb (l_now l) 0 then
    (if l_lines l then TripleLines else if Nat.eqb (l_most l) 0 then OneLine else Triple, true)
  else (ty, false).

Definition hex_upper (n : N) : N := if n <? 10 then 48 + n else 55 + n.
Definition toml_escape (lines : bool) (c : N) : str :=
  if c =? 8 then [92; 98]
  else if c =? 9 then [92; 116]
  else if c =? 10 then (if lines then [10] else [92; 110])
  else if c =? 12 then [92; 102]
  else if c =? 13 then [92; 114]
  else if c =? 34 then [92; 34]
  else if c =? 92 then [92; 92]
  else if control c then [92; 117; 48; 48; hex_upper (c / 16); hex_upper (c mod 16)]
  else [c].

(** toml_edit, [to_string_repr] *)
Definition write_str (s : str) : str :=
  match infer_style s with
  | (OneLine, true) => [39] ++ s ++ [39]
  | (Triple, true) => [39; 39; 39] ++ s ++ [39; 39; 39]
  | (TripleLines, true) => [39; 39; 39; 10] ++ s ++ [39; 39; 39]
  | (TripleLines, false) => [34; 34; 34; 10] ++ flat_map (toml_escape true) s ++ [34; 34; 34]
  | (_, false) => [34] ++ flat_map (toml_escape false) s ++ [34]
  end.

(** toml_edit, [is_unquoted_char] and [to_key_repr] *)
Definition bare_char (c : N) : bool :=
  ((65 <=? c) && (c <=? 90)) || ((97 <=? c) && (c <=? 122)) || ((48 <=? c) && (c <=? 57)) || (c =? 95) || (c =? 45).
Definition write_key (k : str) : str :=
  match k with
  | [] => [34; 34]
  | _ => if forallb bare_char k then k else [34] ++ flat_map (toml_escape false) k ++ [34]
  end.

Fixpoint sep_by (sep : str) (l : list str) : str :=
  match l with
  | [] => []
  | x :: l' => match l' with [] => x | _ => x ++ sep ++ sep_by sep l' end
  end.

(** The values that are not tables. *)
Fixpoint write_value (j : json) : res str :=
  match j with
  | JStr s => Ok (write_str s)
  | JBool true => Ok (lit "true")
  | JBool false => Ok (lit "false")
  | JArr l =>
      let! xs := (fix go (l : list json) : res (list str) :=
                    match l with [] => Ok [] | x :: l' => let! y := write_value x in let! ys := go l' in Ok (y :: ys) end) l in
      Ok ([91] ++ sep_by (lit ", ") xs ++ [93])
  | _ => Err (lit "not modelled")
  end.

Definition is_table (j : json) : bool := match j with JObj _ => true | _ => false end.

(** The lines of a table. *)
Definition write_pairs (kvs : list (str * json)) : res str :=
  let! ls := mapM (fun kv => let! v := write_value (snd kv) in Ok (write_key (fst kv) ++ lit " = " ++ v ++ [10])) kvs in
  Ok (concat ls).

(** The tables with their paths, a table before those in it; the header of one that only consists of tables is
    left out (toml, [DocumentFormatter]; toml_edit, [visit_nested_tables] and [visit_table]). *)
Fixpoint sections (path : list str) (j : json) : list (list str * list (str * json)) :=
  match j with
  | JObj kvs =>
      let own := filter (fun kv => negb (is_table (snd kv))) kvs in
      match own, kvs, path with
      | [], _ :: _, _ | [], [], [] => []
      | _, _, _ => [(path, own)]
      end ++
      (fix go (kvs : list (str * json)) : list (list str * list (str * json)) :=
         match kvs with
         | [] => []
         | (k, v) :: kvs' => sections (path ++ [k]) v ++ go kvs'
         end) kvs
  | _ => []
  end.

Definition write_header (path : list str) : str :=
  match path with
  | [] => []
  | _ => [91] ++ sep_by (lit ".") (map write_key path) ++ [93; 10]
  end.

Definition toml_text (j : json) : res str :=
  let! ts := mapM (fun s => let! b := write_pairs (snd s) in Ok (write_header (fst s) ++ b)) (sections [] j) in
  Ok (sep_by [10] ts).

(** * Reading: [toml::from_str] *)

Definition opt_bind {A B} (o : option A) (f : A -> option B) : option B := match o with Some x => f x | None => None end.
Notation "'opt!' x ':=' m 'in' k" := (opt_bind m (fun x => k)) (at level 200, x pattern, right associativity).

Definition blank (c : N) : bool := (c =? 32) || (c =? 9).
(** The characters of comments and of strings between apostrophes. *)
Definition plain (c : N) : bool := (c =? 9) || ((32 <=? c) && negb (c =? 127)).

Fixpoint skip_ws (s : str) : str := match s with c :: r => if blank c then skip_ws r else s | [] => [] end.
(** Line feed or carriage return and line feed. *)
Definition newline (s : str) : option str :=
  match s with c :: r => if c =? 10 then Some r else if c =? 13 then match r with d :: r' => if d =? 10 then Some r' else None | [] => None end else None | [] => None end.
Definition drop_newline (s : str) : str := match newline s with Some r => r | None => s end.

(** White space, newlines and comments; [note] inside a comment. *)
Fixpoint skip_blank (note : bool) (s : str) : str :=
  match s with
  | [] => []
  | c :: r =>
    if note && plain c then skip_blank true r
    else if blank c || (c =? 10) then skip_blank false r
    else if c =? 13 then match r with d :: r' => if d =? 10 then skip_blank false r' else s | [] => s end
    else if (c =? 35) && negb note then skip_blank true r
    else s
  end.

Fixpoint skip_note (s : str) : str := match s with c :: r => if plain c then skip_note r else s | [] => [] end.
(** The end of a line, perhaps after a comment. *)
Definition line_end (s : str) : option str :=
  let s := match skip_ws s with c :: r => if c =? 35 then skip_note r else c :: r | [] => [] end in
  match s with [] => Some [] | _ => newline s end.

Definition push (c : N) (o : option (str * str)) : option (str * str) :=
  match o with Some (v, r) => Some (c :: v, r) | None => None end.

Definition hex_num (ds : list N) : option N :=
  fold_left (fun acc d => opt! n := acc in opt! v := hex_value d in Some (16 * n + v)) ds (Some 0).
Definition scalar_num (ds : list N) : option N :=
  opt! n := hex_num ds in if (n <? 0xD800) || ((0xE000 <=? n) && (n <? 0x110000)) then Some n else None.

(** The escapes with one letter. *)
Definition escape_letter (e : N) : option N :=
  if e =? 98 then Some 8 else if e =? 116 then Some 9 else if e =? 110 then Some 10 else if e =? 102 then Some 12
  else if e =? 114 then Some 13 else if e =? 34 then Some 34 else if e =? 92 then Some 92 else None.

Definition unescaped (c : N) : bool := plain c && negb (c =? 34) && negb (c =? 92).

(** After the opening quotation mark. *)
Fixpoint read_basic (s : str) : option (str * str) :=
  match s with
  | [] => None
  | c :: r =>
    if c =? 34 then Some ([], r)
    else if c =? 92 then
      match r with
      | [] => None
      | e :: r1 =>
        match escape_letter e with
        | Some d => push d (read_basic r1)
        | None =>
          if e =? 117 then
            match r1 with
            | a :: b :: c :: d :: r2 => match scalar_num [a; b; c; d] with Some x => push x (read_basic r2) | None => None end
            | _ => None
            end
          else if e =? 85 then
            match r1 with
            | a :: b :: c :: d :: a' :: b' :: c' :: d' :: r2 =>
              match scalar_num [a; b; c; d; a'; b'; c'; d'] with Some x => push x (read_basic r2) | None => None end
            | _ => None
            end
          else None
        end
      end
    else if unescaped c then push c (read_basic r) else None
  end.

(** After the opening apostrophe. *)
Fixpoint read_literal (s : str) : option (str * str) :=
  match s with
  | [] => None
  | c :: r => if c =? 39 then Some ([], r) else if plain c then push c (read_literal r) else None
  end.

(** The end of a string with three quotation marks [q], of which the first two may still belong to it. *)
Definition read_close (q : N) (r : str) : str * str :=
  match r with
  | a :: r1 => if a =? q then match r1 with b :: r2 => if b =? q then ([q; q], r2) else ([q], r1) | [] => ([q], r1) end else ([], r)
  | [] => ([], r)
  end.

(** After the three opening quotation marks (and a newline); [trim] after a backslash at the end of a line. *)
Fixpoint read_lines (trim : bool) (s : str) : option (str * str) :=
  match s with
  | [] => None
  | c :: r =>
    if trim && (blank c || (c =? 10)) then read_lines true r
    else if c =? 10 then push 10 (read_lines false r)
    else if c =? 13 then
      match r with d :: r1 => if d =? 10 then (if trim then read_lines true r1 else push 10 (read_lines false r1)) else None | [] => None end
    else if c =? 34 then
      match r with
      | a :: b :: r2 => if (a =? 34) && (b =? 34) then Some (read_close 34 r2) else push 34 (read_lines false r)
      | _ => push 34 (read_lines false r)
      end
    else if c =? 92 then
      match newline (skip_ws r) with
      | Some _ => read_lines true r
      | None =>
        match r with
        | [] => None
        | e :: r1 =>
          match escape_letter e with
          | Some d => push d (read_lines false r1)
          | None =>
            if e =? 117 then
              match r1 with
              | a :: b :: c :: d :: r2 => match scalar_num [a; b; c; d] with Some x => push x (read_lines false r2) | None => None end
              | _ => None
              end
            else if e =? 85 then
              match r1 with
              | a :: b :: c :: d :: a' :: b' :: c' :: d' :: r2 =>
                match scalar_num [a; b; c; d; a'; b'; c'; d'] with Some x => push x (read_lines false r2) | None => None end
              | _ => None
              end
            else None
          end
        end
      end
    else if unescaped c then push c (read_lines false r) else None
  end.

(** After the three opening apostrophes (and a newline). *)
Fixpoint read_literal_lines (s : str) : option (str * str) :=
  match s with
  | [] => None
  | c :: r =>
    if c =? 10 then push 10 (read_literal_lines r)
    else if c =? 13 then
      match r with d :: r1 => if d =? 10 then push 10 (read_literal_lines r1) else None | [] => None end
    else if c =? 39 then
      match r with
      | a :: b :: r2 => if (a =? 39) && (b =? 39) then Some (read_close 39 r2) else push 39 (read_literal_lines r)
      | _ => push 39 (read_literal_lines r)
      end
    else if plain c then push c (read_literal_lines r) else None
  end.

Definition starts_triple (q : N) (s : str) : option str :=
  match s with a :: b :: c :: r => if (a =? q) && (b =? q) && (c =? q) then Some r else None | _ => None end.

Definition read_string (s : str) : option (str * str) :=
  match starts_triple 34 s, starts_triple 39 s, s with
  | Some r, _, _ => read_lines false (drop_newline r)
  | _, Some r, _ => read_literal_lines (drop_newline r)
  | _, _, c :: r => if c =? 34 then read_basic r else if c =? 39 then read_literal r else None
  | _, _, [] => None
  end.

Fixpoint span_bare (s : str) : str * str :=
  match s with
  | c :: r => if bare_char c then let (k, r') := span_bare r in (c :: k, r') else ([], s)
  | [] => ([], [])
  end.
Definition read_simple_key (s : str) : option (str * str) :=
  match s with
  | [] => None
  | c :: r =>
    if c =? 34 then read_basic r
    else if c =? 39 then read_literal r
    else match span_bare s with ([], _) => None | kr => Some kr end
  end.

(** A key: names separated by dots. White space after it is skipped. *)
Fixpoint read_key (fuel : nat) (s : str) : option (list str * str) :=
  match fuel with
  | O => None
  | S fuel' =>
    opt! (k, r) := read_simple_key s in
    match skip_ws r with
    | c :: r1 => if c =? 46 then opt! (ks, r2) := read_key fuel' (skip_ws r1) in Some (k :: ks, r2) else Some ([k], c :: r1)
    | [] => Some ([k], [])
    end
  end.

(** ** Tables *)

(** A value, or a table: [implicit] if no header stands for it, [dotted] if it is from a dotted key. *)
Inductive item := Value (j : json) | Table (implicit dotted : bool) (kvs : list (str * item)).

Fixpoint find_item (k : str) (kvs : list (str * item)) : option item :=
  match kvs with [] => None | (k', v) :: r => if str_eqb k k' then Some v else find_item k r end.
Fixpoint set_item (k : str) (v : item) (kvs : list (str * item)) : list (str * item) :=
  match kvs with [] => [] | (k', v') :: r => if str_eqb k k' then (k', v) :: r else (k', v') :: set_item k v r end.
Fixpoint drop_item (k : str) (kvs : list (str * item)) : list (str * item) :=
  match kvs with [] => [] | (k', v') :: r => if str_eqb k k' then r else (k', v') :: drop_item k r end.

(** A pair in a table (toml_edit, [descend_path] and [on_keyval]): a dotted key goes into tables made by dotted keys. *)
Fixpoint add_pair (path : list str) (j : json) (dotted : bool) (kvs : list (str * item)) : option (list (str * item)) :=
  match path with
  | [] => None
  | k :: path' =>
    match path' with
    | [] => match find_item k kvs with
            | Some _ => None
            | None => if dotted then Some (kvs ++ [(k, Value j)]) else None
            end
    | _ =>
      match find_item k kvs with
      | None => opt! sub := add_pair path' j true [] in Some (kvs ++ [(k, Table true true sub)])
      | Some (Table true d sub) => opt! sub' := add_pair path' j d sub in Some (set_item k (Table true d sub') kvs)
      | Some _ => None
      end
    end
  end.

(** A header and the pairs after it (toml_edit, [on_std_header] and [finalize_table]). *)
Fixpoint add_section (path : list str) (body : list (str * item) -> option (list (str * item))) (kvs : list (str * item))
  : option (list (str * item)) :=
  match path with
  | [] => None
  | k :: path' =>
    match path' with
    | [] => match find_item k kvs with
            | None => opt! b := body [] in Some (kvs ++ [(k, Table false false b)])
            | Some (Table true false sub) => opt! b := body sub in Some (drop_item k kvs ++ [(k, Table false false b)])
            | Some _ => None
            end
    | _ => match find_item k kvs with
           | None => opt! sub := add_section path' body [] in Some (kvs ++ [(k, Table true false sub)])
           | Some (Table i d sub) => opt! sub' := add_section path' body sub in Some (set_item k (Table i d sub') kvs)
           | Some (Value _) => None
           end
    end
  end.

Fixpoint add_pairs (ps : list (list str * json)) (kvs : list (str * item)) : option (list (str * item)) :=
  match ps with
  | [] => Some kvs
  | (p, j) :: ps' => opt! kvs' := add_pair p j true kvs in add_pairs ps' kvs'
  end.

Fixpoint item_json (i : item) : json :=
  match i with
  | Value j => j
  | Table _ _ kvs => JObj (map (fun kv => (fst kv, item_json (snd kv))) kvs)
  end.

(** ** Values *)
Definition read_word (w : str) (s : str) : option str := if str_eqb (firstn (length w) s) w then Some (skipn (length w) s) else None.

(** Strings, booleans, arrays and inline tables. *)
Fixpoint read_value (fuel : nat) (s : str) : option (json * str) :=
  match fuel with
  | O => None
  | S fuel' =>
    match s with
    | [] => None
    | c :: r =>
      if (c =? 34) || (c =? 39) then opt! (v, r') := read_string s in Some (JStr v, r')
      else if c =? 91 then opt! (vs, r') := read_array fuel' r in Some (JArr vs, r')
      else if c =? 123 then
        match skip_ws r with
        | d :: r' => if d =? 125 then Some (JObj [], r')
                     else opt! (ps, r2) := read_inline fuel' (d :: r') in opt! kvs := add_pairs ps [] in Some (item_json (Table true true kvs), r2)
        | [] => None
        end
      else match read_word (lit "true") s, read_word (lit "false") s with
           | Some r', _ => Some (JBool true, r')
           | _, Some r' => Some (JBool false, r')
           | _, _ => None
           end
    end
  end
(** After the opening bracket or a comma. *)
with read_array (fuel : nat) (s : str) : option (list json * str) :=
  match fuel with
  | O => None
  | S fuel' =>
    match skip_blank false s with
    | [] => None
    | c :: r =>
      if c =? 93 then Some ([], r)
      else
        opt! (v, r1) := read_value fuel' (c :: r) in
        match skip_blank false r1 with
        | d :: r2 => if d =? 44 then opt! (vs, r3) := read_array fuel' r2 in Some (v :: vs, r3)
                     else if d =? 93 then Some ([v], r2) else None
        | [] => None
        end
    end
  end
(** The pairs of an inline table. *)
with read_inline (fuel : nat) (s : str) : option (list (list str * json) * str) :=
  match fuel with
  | O => None
  | S fuel' =>
    opt! (k, r) := read_key fuel' s in
    match r with
    | c :: r1 =>
      if c =? 61 then
        opt! (v, r2) := read_value fuel' (skip_ws r1) in
        match skip_ws r2 with
        | d :: r3 => if d =? 44 then opt! (ps, r4) := read_inline fuel' (skip_ws r3) in Some ((k, v) :: ps, r4)
                     else if d =? 125 then Some ([(k, v)], r3) else None
        | [] => None
        end
      else None
    | [] => None
    end
  end.

(** ** Documents *)
Inductive line := Pair (key : list str) (j : json) | Header (path : list str).

Fixpoint read_document (fuel : nat) (s : str) : option (list line) :=
  match fuel with
  | O => None
  | S fuel' =>
    match skip_blank false s with
    | [] => Some []
    | c :: r =>
      if c =? 91 then
        opt! (p, r1) := read_key fuel' (skip_ws r) in
        match r1 with
        | d :: r2 => if d =? 93 then opt! r3 := line_end r2 in opt! ls := read_document fuel' r3 in Some (Header p :: ls) else None
        | [] => None
        end
      else
        opt! (k, r1) := read_key fuel' (c :: r) in
        match r1 with
        | d :: r2 =>
          if d =? 61 then
            opt! (v, r3) := read_value fuel' (skip_ws r2) in
            opt! r4 := line_end r3 in
            opt! ls := read_document fuel' r4 in Some (Pair k v :: ls)
          else None
        | [] => None
        end
    end
  end.

(** The pairs before the first header, and the headers with their pairs. *)
Fixpoint group (ls : list line) : list (list str * json) * list (list str * list (list str * json)) :=
  match ls with
  | [] => ([], [])
  | Pair k v :: ls' => let (ps, ss) := group ls' in ((k, v) :: ps, ss)
  | Header p :: ls' => let (ps, ss) := group ls' in ([], (p, ps) :: ss)
  end.

Fixpoint add_sections (ss : list (list str * list (list str * json))) (kvs : list (str * item)) : option (list (str * item)) :=
  match ss with
  | [] => Some kvs
  | (p, ps) :: ss' => opt! kvs' := add_section p (add_pairs ps) kvs in add_sections ss' kvs'
  end.

Definition toml_parse (s : str) : res json :=
  match (opt! ls := read_document (S (length s)) s in
         let (ps, ss) := group ls in
         opt! kvs := add_pairs ps [] in
         opt! kvs' := add_sections ss kvs in
         Some (item_json (Table false false kvs'))) with
  | Some j => Ok j
  | None => Err (lit "TOML parse error")
  end.

Definition toml_crate : toml := mkToml toml_parse toml_text.
