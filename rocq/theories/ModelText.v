(* Source positions (ruruby-common/src/source_info.rs) and number literals
   (ruruby-parse/src/parser/lexer.rs). *)
From Verif Require Import Base ModelArray.

(* ---- lines ---- *)
(* Source text as its UTF-8 bytes. A newline is the single byte 10 and that
   byte occurs in no multi-byte character, so `char_indices` filtered to
   newlines gives exactly the byte positions holding 10. *)
Definition NL : Z := 10.

(* source_info.rs:15-22 *)
Record line : Set := { l_no : Z; l_top : Z; l_end : Z }.

(* source_info.rs:72-77: positions of the newlines, in order *)
Fixpoint nl_positions (pos : Z) (code : list Z) : list Z :=
  match code with
  | [] => []
  | b :: rest => if b =? NL then pos :: nl_positions (pos + 1) rest else nl_positions (pos + 1) rest
  end.
(* source_info.rs:78-83: enumerate and map, threading line_top; also answers
   the final line_top *)
Fixpoint mk_lines (idx line_top : Z) (ps : list Z) : list line * Z :=
  match ps with
  | [] => ([], line_top)
  | pos :: ps' =>
      let '(ls, t) := mk_lines (idx + 1) (pos + 1) ps' in
      ({| l_no := idx + 1; l_top := line_top; l_end := pos |} :: ls, t)
  end.
(* source_info.rs:69-89. `code_len - 1` is evaluated only when
   line_top < code_len, so it does not underflow. *)
Definition get_lines (code : list Z) (loc0 loc1 : Z) : list line :=
  let code_len := zlen code in
  let '(all, line_top) := mk_lines 0 0 (nl_positions 0 code) in
  let lines := filter (fun l => (loc0 <=? l_end l) && (l_top l <=? loc1)) all in
  if (line_top <? code_len) && (loc0 <=? code_len - 1) && (line_top <=? loc1) then
    lines ++ [{| l_no := zlen lines + 1; l_top := line_top; l_end := code_len - 1 |}]
  else lines.
(* source_info.rs:92-101, 127-131: the number printed after the file name, that
   of the first line found, or 1 when none is found (lines.last() is then
   None). The rest of the text of get_location is not modelled. *)
Definition reported_line (code : list Z) (loc0 loc1 : Z) : Z :=
  match get_lines code loc0 loc1 with l :: _ => l_no l | [] => 1 end.

(* lexer.rs:119-121 get_line (the value of __LINE__); slicing past the end of
   the text panics *)
Fixpoint count_nl (code : list Z) : Z :=
  match code with [] => 0 | b :: r => (if b =? NL then 1 else 0) + count_nl r end.
Definition get_line (code : list Z) (pos : Z) : res Z :=
  if zlen code <=? pos then Panic else Ok (count_nl (zfirst (pos + 1) code) + 1).

(* ---- number literals ---- *)
(* The characters still to be read, as code points. *)
Definition chars := list Z.
Definition ch_0 : Z := 48. Definition ch_9 : Z := 57. Definition ch_us : Z := 95.
Definition ch_dot : Z := 46. Definition ch_e : Z := 101. Definition ch_E : Z := 69.
Definition ch_plus : Z := 43. Definition ch_minus : Z := 45. Definition ch_i : Z := 105.
Definition ch_x : Z := 120. Definition ch_b : Z := 98.

(* `ch.is_ascii() && ch.is_numeric()`: the ASCII characters of general
   category Nd/Nl/No are exactly 0-9 *)
Definition is_num (c : Z) : bool := (48 <=? c) && (c <=? 57).
(* lexer.rs:1143-1151 consume *)
Definition consume (c : Z) (s : chars) : option chars :=
  match s with x :: r => if x =? c then Some r else None | [] => None end.
(* lexer.rs:1190-1198 consume_numeric *)
Definition consume_numeric (s : chars) : option (Z * chars) :=
  match s with x :: r => if is_num x then Some (x, r) else None | [] => None end.

(* num_bigint parse_bytes: a leading underscore is invalid, later ones are
   skipped, letters are digits from 10, a digit must be below the radix *)
Definition digit_of (c : Z) : Z :=
  if (48 <=? c) && (c <=? 57) then c - 48
  else if (97 <=? c) && (c <=? 122) then c - 97 + 10
  else if (65 <=? c) && (c <=? 90) then c - 65 + 10
  else 255.
Fixpoint parse_digits (radix acc : Z) (s : chars) : option Z :=
  match s with
  | [] => Some acc
  | c :: r =>
      if c =? ch_us then parse_digits radix acc r
      else if digit_of c <? radix then parse_digits radix (acc * radix + digit_of c) r
      else None
  end.
Definition parse_bytes (s : chars) (radix : Z) : option Z :=
  match s with
  | [] => None
  | c :: _ => if c =? ch_us then None else parse_digits radix 0 s
  end.

(* Tokens: an i64 literal, a big literal, a float literal (kept as the text
   handed to f64::parse, which is not modelled), an imaginary literal. *)
Inductive nreal : Set := NInt (i : Z) | NBig (n : Z) | NFloat (text : chars).
Inductive tok : Set := TNum (n : nreal) | TImag (n : nreal).
Definition to_nreal (n : Z) : nreal := if in_i64 n then NInt n else NBig n.

(* lexer.rs:614-632: the digits, underscores and at most one decimal point *)
Fixpoint dec_loop (fuel : nat) (acc : chars) (float_flag : bool) (s : chars) : option (chars * bool * chars) :=
  match fuel with
  | O => None
  | S fuel =>
    match consume_numeric s with
    | Some (c, r) => dec_loop fuel (acc ++ [c]) float_flag r
    | None =>
      match consume ch_us s with
      | Some r => dec_loop fuel acc float_flag r
      | None =>
        if negb float_flag then
          match s with
          | x :: y :: r =>
              if (x =? ch_dot) && is_num y then dec_loop fuel (acc ++ [ch_dot; y]) true r
              else Some (acc, float_flag, s)
          | _ => Some (acc, float_flag, s)
          end
        else Some (acc, float_flag, s)
      end
    end
  end.
(* lexer.rs:643-650: exponent digits *)
Fixpoint exp_loop (fuel : nat) (acc : chars) (s : chars) : option (chars * chars) :=
  match fuel with
  | O => None
  | S fuel =>
    match consume_numeric s with
    | Some (c, r) => exp_loop fuel (acc ++ [c]) r
    | None => match consume ch_us s with Some r => exp_loop fuel acc r | None => Some (acc, s) end
    end
  end.
Definition consume2 (a b : Z) (s : chars) : option chars :=
  match consume a s with Some r => Some r | None => consume b s end.

(* lexer.rs:679-694 read_hex_number, after `0x`. expect_hex fails on a
   character that is no hex digit. *)
Definition is_hex (c : Z) : bool :=
  ((48 <=? c) && (c <=? 57)) || ((97 <=? c) && (c <=? 102)) || ((65 <=? c) && (c <=? 70)).
Fixpoint span_hex (s : chars) : chars * chars :=
  match s with
  | c :: r => if is_hex c || (c =? ch_us) then let '(a, b) := span_hex r in (c :: a, b) else ([], s)
  | [] => ([], [])
  end.
Definition read_hex (s : chars) : res (tok * chars) :=
  match s with
  | [] => Err OtherErr
  | c :: _ =>
      if is_hex c then
        let '(digits, rest) := span_hex s in
        match parse_bytes digits 16 with
        | Some b => Ok (TNum (to_nreal b), rest)
        | None => Err OtherErr
        end
      else Err OtherErr
  end.
(* lexer.rs:697-715 read_bin_number, after `0b`. val is a u64: `val * 2 + d`
   overflows. The result is cast to i64. *)
Definition is_bin (c : Z) : bool := (c =? 48) || (c =? 49).
Fixpoint bin_loop (v : Z) (s : chars) : res (Z * chars) :=
  match s with
  | c :: r =>
      if is_bin c then
        let v' := v * 2 + (c - 48) in
        if in_u64 v' then bin_loop v' r else Panic
      else if c =? ch_us then bin_loop v r
      else Ok (v, s)
  | [] => Ok (v, [])
  end.
Definition read_bin (s : chars) : res (tok * chars) :=
  match s with
  | [] => Err OtherErr
  | c :: r =>
      if is_bin c then
        p <- bin_loop (c - 48) r ;;
        let '(v, rest) := p in
        Ok (TNum (NInt (i64 v)), rest)
      else Err OtherErr
  end.
(* lexer.rs:604-673 read_number_literal; [c] is the first digit, already read.
   Error kinds are not distinguished. error_unexpected at the end of the text
   unwraps None (lexer.rs:70-79): a missing exponent there panics. *)
Definition read_decimal (c : Z) (s : chars) : res (tok * chars) :=
  match dec_loop (S (length s)) [c] false s with
  | None => Panic
  | Some (acc, float_flag, r) =>
      e <- (match consume2 ch_e ch_E r with
            | None => Ok (acc, float_flag, r)
            | Some r1 =>
                let acc1 := acc ++ [ch_e] in
                let '(acc2, r2) :=
                  match consume ch_plus r1 with
                  | Some r2 => (acc1, r2)
                  | None => match consume ch_minus r1 with Some r2 => (acc1 ++ [ch_minus], r2) | None => (acc1, r1) end
                  end in
                match consume_numeric r2 with
                | None => match r2 with [] => Panic | _ => Err OtherErr end
                | Some (d, r3) =>
                    match exp_loop (S (length r3)) (acc2 ++ [d]) r3 with
                    | Some (acc3, r4) => Ok (acc3, true, r4)
                    | None => Panic
                    end
                end
            end) ;;
      let '(acc, float_flag, r) := e in
      n <- (if float_flag : bool then Ok (NFloat acc)
            else match parse_bytes acc 10 with Some b => Ok (to_nreal b) | None => Err OtherErr end) ;;
      match consume ch_i r with
      | Some r' => Ok (TImag n, r')
      | None => Ok (TNum n, r)
      end
  end.
(* lexer.rs:226-227 and 605-611. The caller's test is ch.is_numeric(), which
   also admits non-ASCII numerals; those never parse as a number (604-673 ends
   in an error) and are simplified to an immediate error. *)
Definition read_number (s : chars) : res (tok * chars) :=
  match s with
  | [] => Err OtherErr
  | c :: r =>
      if negb (is_num c) then Err OtherErr
      else if c =? ch_0 then
        match consume ch_x r with
        | Some r' => read_hex r'
        | None =>
          match consume ch_b r with
          | Some r' => read_bin r'
          | None => read_decimal c r
          end
        end
      else read_decimal c r
  end.
