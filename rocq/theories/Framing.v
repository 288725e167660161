(** brack-language-server/src/server.rs: reading framed messages from stdin and writing
    them to stdout. *)
From Coq Require Import String List NArith ZArith Bool Lia.
From Verif Require Import Base Utf8.
Import ListNotations.

(** [str::starts_with] *)
Fixpoint starts_with (p s : bytes) : bool :=
  match p, s with
  | [], _ => true
  | x :: p', y :: s' => N.eqb x y && starts_with p' s'
  | _ :: _, [] => false
  end.

(** [str::contains] *)
Fixpoint contains (p s : bytes) : bool :=
  starts_with p s || match s with [] => false | _ :: s' => contains p s' end.

(** [s.split(p).collect::<Vec<&str>>()] for a non-empty [p]: leftmost, not overlapping.
    [skip] is what remains of the last occurrence found, [acc] the current piece. *)
Fixpoint split_go (p : bytes) (skip : nat) (acc s : bytes) : list bytes :=
  match s with
  | [] => [acc]
  | c :: s' =>
      match skip with
      | S k => split_go p k acc s'
      | O => if starts_with p s then acc :: split_go p (length p - 1) [] s'
             else split_go p 0 (acc ++ [c]) s'
      end
  end.
Definition split (p s : bytes) : list bytes := split_go p 0 [] s.

Definition is_digit (c : N) : bool := (48 <=? c)%N && (c <=? 57)%N.

Definition digits_value (s : bytes) : Z :=
  fold_left (fun acc c => 10 * acc + (Z.of_N c - 48))%Z s 0%Z.

Definition parse_digits (s : bytes) : option Z :=
  match s with [] => None | _ => if forallb is_digit s then Some (digits_value s) else None end.

(** [str::parse::<i32>]: an optional sign, then digits; out of range is an error. *)
Definition parse_i32 (s : bytes) : res Z :=
  let r := match s with
           | 45%N :: s' => match parse_digits s' with Some n => Some (- n)%Z | None => None end
           | 43%N :: s' => parse_digits s'
           | _ => parse_digits s
           end in
  match r with
  | Some n => if ((-2147483648 <=? n) && (n <=? 2147483647))%Z then Ok n
              else Err (lit "number out of range")
  | None => Err (lit "invalid digit found in string")
  end.

(** [n.to_string()] of an unsigned number. *)
Fixpoint dec_go (fuel : nat) (n : N) : bytes :=
  match fuel with
  | O => []
  | S f => if (n <? 10)%N then [48 + n]%N else dec_go f (n / 10)%N ++ [48 + n mod 10]%N
  end.
Definition dec (n : N) : bytes := dec_go (S (N.size_nat n)) n.

Definition crlf : bytes := [13; 10]%N.

(** server.rs 27-34, [send_message], and 17-25, [send_stdout], after its
    [serde_json::to_string]: the bytes written for a message. (Simplification: writing
    to stdout does not fail.) *)
Definition send_message (msg : str) : bytes :=
  let body := utf8 msg in
  lit "Content-Length: " ++ dec (N.of_nat (length body)) ++ crlf ++ crlf ++ body.

(** server.rs 142-149: the [for] over the header lines; [content_length] is the
    variable of that name. *)
Fixpoint header_lines (lines : list bytes) (content_length : Z) : res Z :=
  match lines with
  | [] => Ok content_length
  | line :: lines' =>
      match split (lit ": ") line with
      | key :: value :: _ =>
          if str_eqb key (lit "Content-Length")
          then let! n := parse_i32 value in header_lines lines' n
          else header_lines lines' content_length
      | _ => Panic (lit "index out of bounds")
      end
  end.

(** [n as usize] for an [i32] on a 64-bit machine. *)
Definition as_usize (n : Z) : Z := (if n <? 0 then n + 18446744073709551616 else n)%Z.

(** [a + b] on [usize] *)
Definition usize_add (checks : bool) (a b : Z) : res Z :=
  if (a + b <? 18446744073709551616)%Z then Ok (a + b)%Z
  else if checks then Panic (lit "attempt to add with overflow")
  else Ok (a + b - 18446744073709551616)%Z.

(** [&s[a..b]] *)
Definition slice (s : bytes) (a b : Z) : res bytes :=
  if ((a <=? b) && (b <=? Z.of_nat (length s)))%Z
     && is_char_boundary s (Z.to_nat a) && is_char_boundary s (Z.to_nat b)
  then Ok (firstn (Z.to_nat (b - a)) (skipn (Z.to_nat a) s))
  else Panic (lit "byte index is out of range or not a char boundary").

(** What one turn of the loop decides: wait for more input, or take a message of
    [total_length] bytes. *)
Inductive taken := More | Take (body : bytes) (total_length : nat).

(** server.rs 134-163: from the buffer after a read to the text handed to [from_str]. *)
Definition next_message (checks : bool) (buffer : bytes) : res taken :=
  match from_utf8 buffer with
  | None => Err (lit "invalid utf-8 sequence")
  | Some _ =>
      if negb (contains (crlf ++ crlf) buffer) then Ok More
      else
        let header_string := hd [] (split (crlf ++ crlf) buffer) in
        let header_length := Z.of_nat (length header_string + 4) in
        let! content_length := header_lines (split crlf header_string) (-1) in
        if (content_length =? -1)%Z then Ok More
        else
          let! total_length := usize_add checks header_length (as_usize content_length) in
          if (Z.of_nat (length buffer) <? total_length)%Z then Ok More
          else let! body := slice buffer header_length total_length in
               Ok (Take body (Z.to_nat total_length))
  end.

(** server.rs 123-171, [run], on the list of the results of [stdin.read]: an empty read or
    the end of the list is the end of input. [from_str] is [serde_json::from_str] and
    [dispatch] the method of that name, acting on the state of the server together with
    what it has written so far; both are given here and defined in Server.v. Returned
    are the final state and the [Result] of [run]. (Simplification: reading does not
    fail.) *)
Fixpoint run_loop {St V : Type} (checks : bool) (from_str : bytes -> res V)
  (dispatch : St -> V -> St * res unit)
  (buffer : bytes) (reads : list bytes) (st : St) : St * res unit :=
  match reads with
  | [] => (st, Ok tt)
  | [] :: _ => (st, Ok tt)
  | chunk :: reads' =>
      let buffer := buffer ++ chunk in
      match next_message checks buffer with
      | Ok More => run_loop checks from_str dispatch buffer reads' st
      | Ok (Take body total_length) =>
          match from_str body with
          | Ok msg =>
              match dispatch st msg with
              | (st', Ok _) =>
                  run_loop checks from_str dispatch (skipn total_length buffer) reads' st'
              | r => r
              end
          | Err e => (st, Err e)
          | Panic e => (st, Panic e)
          | Fuel => (st, Fuel)
          end
      | Err e => (st, Err e)
      | Panic e => (st, Panic e)
      | Fuel => (st, Fuel)
      end
  end.

Definition run {St V : Type} (checks : bool) (from_str : bytes -> res V)
  (dispatch : St -> V -> St * res unit) (reads : list bytes) (st : St) : St * res unit :=
  run_loop checks from_str dispatch [] reads st.
