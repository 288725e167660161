(** JSON text as [serde_json] writes and reads it. This is a library of brack, not its
    source: the language server exchanges JSON with the editor (server.rs) and the plugin
    calls exchange JSON with the plugins ([Json(..)] in brack-plugin/src/plugins.rs). *)
From Coq Require Import String List NArith ZArith Bool Lia.
From Verif Require Import Base Framing.
Import ListNotations.

(** [serde_json::Value]; the fields of an object are kept as they are in the text, in that
    order and with duplicates ([get] sees the last one). (Simplification: a number that is
    not an integer of 64 bits is kept as its text.) *)
Inductive json :=
| JNull
| JBool (b : bool)
| JInt (z : Z)
| JFloat (text : str)
| JStr (s : str)
| JArr (l : list json)
| JObj (fields : list (str * json)).

(** * Writing: [serde_json::to_string] *)

Definition hex_digit (n : N) : N := if (n <? 10)%N then (48 + n)%N else (87 + n)%N.

Definition escape_char (c : N) : str :=
  (if c =? 34 then [92; 34]
   else if c =? 92 then [92; 92]
   else if c =? 8 then [92; 98]
   else if c =? 9 then [92; 116]
   else if c =? 10 then [92; 110]
   else if c =? 12 then [92; 102]
   else if c =? 13 then [92; 114]
   else if c <? 32 then [92; 117; 48; 48; hex_digit (c / 16); hex_digit (c mod 16)]
   else [c])%N.

Definition print_str (s : str) : str := 34%N :: concat (map escape_char s) ++ [34%N].

Definition print_int (z : Z) : str :=
  match z with
  | Zneg p => 45%N :: dec (Npos p)
  | _ => dec (Z.to_N z)
  end.

Fixpoint intercalate (sep : str) (l : list str) : str :=
  match l with
  | [] => []
  | [x] => x
  | x :: l' => x ++ sep ++ intercalate sep l'
  end.

Fixpoint print (j : json) : str :=
  match j with
  | JNull => lit "null"
  | JBool true => lit "true"
  | JBool false => lit "false"
  | JInt z => print_int z
  | JFloat t => t
  | JStr s => print_str s
  | JArr l => 91%N :: intercalate [44%N] (map print l) ++ [93%N]
  | JObj fs => 123%N :: intercalate [44%N] (map (fun kv => let '(k, v) := kv in print_str k ++ 58%N :: print v) fs)
               ++ [125%N]
  end.

(** * Reading: [serde_json::from_str] *)

Fixpoint skip_ws (s : str) : str :=
  match s with
  | c :: s' => if ((c =? 32) || (c =? 10) || (c =? 9) || (c =? 13))%N then skip_ws s' else s
  | [] => []
  end.

Definition hex_value (c : N) : option N :=
  (if is_digit c then Some (c - 48)
   else if (97 <=? c) && (c <=? 102) then Some (c - 87)
   else if (65 <=? c) && (c <=? 70) then Some (c - 55)
   else None)%N.

Definition hex4 (a b c d : N) : option N :=
  match hex_value a, hex_value b, hex_value c, hex_value d with
  | Some a, Some b, Some c, Some d => Some (4096 * a + 256 * b + 16 * c + d)%N
  | _, _, _, _ => None
  end.

Definition simple_escape (e : N) : option N :=
  (if e =? 34 then Some 34 else if e =? 92 then Some 92 else if e =? 47 then Some 47
   else if e =? 98 then Some 8 else if e =? 102 then Some 12 else if e =? 110 then Some 10
   else if e =? 114 then Some 13 else if e =? 116 then Some 9 else None)%N.

Definition cons_char (c : N) (r : res (str * str)) : res (str * str) :=
  let! (s, rest) := r in Ok (c :: s, rest).

(** The characters of a string after its opening quote, and the text after it. *)
Fixpoint parse_chars (s : str) : res (str * str) :=
  match s with
  | [] => Err (lit "EOF while parsing a string")
  | c :: r =>
      if (c =? 34)%N then Ok ([], r)
      else if (c =? 92)%N then
        match r with
        | [] => Err (lit "EOF while parsing a string")
        | e :: r1 =>
            if (e =? 117)%N then
              match r1 with
              | h1 :: h2 :: h3 :: h4 :: r2 =>
                  match hex4 h1 h2 h3 h4 with
                  | None => Err (lit "invalid escape")
                  | Some n =>
                      if ((0xDC00 <=? n) && (n <=? 0xDFFF))%N then Err (lit "lone leading surrogate in hex escape")
                      else if ((0xD800 <=? n) && (n <=? 0xDBFF))%N then
                        match r2 with
                        | b :: u :: l1 :: l2 :: l3 :: l4 :: r3 =>
                            if ((b =? 92) && (u =? 117))%N then
                              match hex4 l1 l2 l3 l4 with
                              | None => Err (lit "invalid escape")
                              | Some m =>
                                  if ((0xDC00 <=? m) && (m <=? 0xDFFF))%N
                                  then cons_char (0x10000 + (n - 0xD800) * 1024 + (m - 0xDC00))%N (parse_chars r3)
                                  else Err (lit "lone leading surrogate in hex escape")
                              end
                            else Err (lit "unexpected end of hex escape")
                        | _ => Err (lit "unexpected end of hex escape")
                        end
                      else cons_char n (parse_chars r2)
                  end
              | _ => Err (lit "EOF while parsing a string")
              end
            else match simple_escape e with
                 | Some x => cons_char x (parse_chars r1)
                 | None => Err (lit "invalid escape")
                 end
        end
      else if (c <? 32)%N then Err (lit "control character (\u0000-\u001F) found while parsing a string")
      else cons_char c (parse_chars r)
  end.

Fixpoint take_digits (s : str) : str * str :=
  match s with
  | c :: s' => if is_digit c then let (d, r) := take_digits s' in (c :: d, r) else ([], s)
  | [] => ([], [])
  end.

(** The fraction and the exponent of a number: their text and the rest. *)
Definition parse_fraction (s : str) : res (str * str) :=
  match s with
  | c :: s' =>
      if (c =? 46)%N then
        match take_digits s' with
        | ([], _) => Err (lit "invalid number")
        | (d, r) => Ok (c :: d, r)
        end
      else Ok ([], s)
  | [] => Ok ([], [])
  end.

Definition parse_exponent (s : str) : res (str * str) :=
  match s with
  | c :: s' =>
      if ((c =? 101) || (c =? 69))%N then
        let (sign, s'') := match s' with
                           | x :: t => if ((x =? 43) || (x =? 45))%N then ([x], t) else ([], s')
                           | [] => ([], [])
                           end in
        match take_digits s'' with
        | ([], _) => Err (lit "invalid number")
        | (d, r) => Ok (c :: sign ++ d, r)
        end
      else Ok ([], s)
  | [] => Ok ([], [])
  end.

(** A number after its sign. *)
Definition parse_number (negative : bool) (s : str) : res (json * str) :=
  match take_digits s with
  | ([], _) => Err (lit "invalid number")
  | (d0 :: d, r) =>
      if (d0 =? 48)%N && negb (Nat.eqb (length d) 0) then Err (lit "invalid number")
      else
        let! (f, r) := parse_fraction r in
        let! (e, r) := parse_exponent r in
        let n := digits_value (d0 :: d) in
        let text := (if negative then [45%N] else []) ++ (d0 :: d) ++ f ++ e in
        match f, e with
        | [], [] =>
            if negative
            then if ((n =? 0) || (9223372036854775808 <? n))%Z then Ok (JFloat text, r) else Ok (JInt (- n)%Z, r)
            else if (18446744073709551615 <? n)%Z then Ok (JFloat text, r) else Ok (JInt n, r)
        | _, _ => Ok (JFloat text, r)
        end
  end.

(** The rest of an identifier. *)
Definition parse_word (w : str) (j : json) (s : str) : res (json * str) :=
  if starts_with w s then Ok (j, skipn (length w) s) else Err (lit "expected ident").

(** [depth] is [remaining_depth], 128 at the start: entering an array or an object takes one,
    and it is an error if none is left then. [fuel] bounds the recursion of the model only. *)
Fixpoint parse_value (fuel : nat) (depth : nat) (s : str) : res (json * str) :=
  match fuel with
  | O => Fuel
  | S f =>
      match skip_ws s with
      | [] => Err (lit "EOF while parsing a value")
      | c :: r =>
          if (c =? 110)%N then parse_word (lit "ull") JNull r
          else if (c =? 116)%N then parse_word (lit "rue") (JBool true) r
          else if (c =? 102)%N then parse_word (lit "alse") (JBool false) r
          else if (c =? 34)%N then let! (x, r') := parse_chars r in Ok (JStr x, r')
          else if (c =? 45)%N then parse_number true r
          else if is_digit c then parse_number false (c :: r)
          else if (c =? 91)%N then
            match pred depth with
            | O => Err (lit "recursion limit exceeded")
            | d =>
                match skip_ws r with
                | [] => Err (lit "EOF while parsing a list")
                | x :: r' => if (x =? 93)%N then Ok (JArr [], r')
                             else let! (l, r'') := parse_elems f d (x :: r') in Ok (JArr l, r'')
                end
            end
          else if (c =? 123)%N then
            match pred depth with
            | O => Err (lit "recursion limit exceeded")
            | d =>
                match skip_ws r with
                | [] => Err (lit "EOF while parsing an object")
                | x :: r' => if (x =? 125)%N then Ok (JObj [], r')
                             else let! (l, r'') := parse_fields f d (x :: r') in Ok (JObj l, r'')
                end
            end
          else Err (lit "expected value")
      end
  end
with parse_elems (fuel : nat) (depth : nat) (s : str) : res (list json * str) :=
  match fuel with
  | O => Fuel
  | S f =>
      let! (v, r) := parse_value f depth s in
      match skip_ws r with
      | [] => Err (lit "EOF while parsing a list")
      | c :: r' =>
          if (c =? 44)%N then let! (l, r'') := parse_elems f depth r' in Ok (v :: l, r'')
          else if (c =? 93)%N then Ok ([v], r')
          else Err (lit "expected `,` or `]`")
      end
  end
with parse_fields (fuel : nat) (depth : nat) (s : str) : res (list (str * json) * str) :=
  match fuel with
  | O => Fuel
  | S f =>
      match skip_ws s with
      | [] => Err (lit "EOF while parsing an object")
      | q :: r0 =>
          if (q =? 34)%N then
            let! (k, r1) := parse_chars r0 in
            match skip_ws r1 with
            | [] => Err (lit "EOF while parsing an object")
            | c :: r2 =>
                if (c =? 58)%N then
                  let! (v, r3) := parse_value f depth r2 in
                  match skip_ws r3 with
                  | [] => Err (lit "EOF while parsing an object")
                  | c :: r4 =>
                      if (c =? 44)%N then let! (l, r5) := parse_fields f depth r4 in Ok ((k, v) :: l, r5)
                      else if (c =? 125)%N then Ok ([(k, v)], r4)
                      else Err (lit "expected `,` or `}`")
                  end
                else Err (lit "expected `:`")
            end
          else Err (lit "key must be a string")
      end
  end.

Definition from_str (s : str) : res json :=
  let! (v, r) := parse_value (2 * length s + 2) 128 s in
  match skip_ws r with
  | [] => Ok v
  | _ => Err (lit "trailing characters")
  end.

(** [Value::get] with a string: the last field of that name, [None] for everything that is
    not an object. *)
Fixpoint field_get (k : str) (fs : list (str * json)) : option json :=
  match fs with
  | [] => None
  | (k', v) :: fs' =>
      match field_get k fs' with
      | Some r => Some r
      | None => if str_eqb k k' then Some v else None
      end
  end.
Definition json_get (k : str) (j : json) : option json :=
  match j with JObj fs => field_get k fs | _ => None end.

(** [Value::as_i64] *)
Definition as_i64 (j : json) : option Z :=
  match j with
  | JInt z => if ((-9223372036854775808 <=? z) && (z <=? 9223372036854775807))%Z then Some z else None
  | _ => None
  end.

(** [Value::as_str] *)
Definition as_str (j : json) : option str := match j with JStr s => Some s | _ => None end.
