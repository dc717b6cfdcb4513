(* Strings: ruruby/src/value/string.rs, ruruby/src/builtin/string.rs, and the
   reading of string literals in ruruby-parse/src/parser/lexer.rs.
   A Rust `char` is its code point (0..0x10ffff without surrogates), a `str` a
   list of chars, a byte string a list of bytes 0..255. Not modelled: regular
   expressions, upcase/downcase (Unicode tables), format strings. *)
From Verif Require Import Base ModelArray.

Definition is_char (c : Z) : bool :=
  (0 <=? c) && (c <=? 0x10ffff) && negb ((0xd800 <=? c) && (c <=? 0xdfff)).
Definition is_byte (b : Z) : bool := (0 <=? b) && (b <? 256).

(* ---- UTF-8 (Rust std, external) ---- *)
(* char::encode_utf8 *)
Definition enc1 (c : Z) : list Z :=
  if c <? 0x80 then [c]
  else if c <? 0x800 then [0xc0 + c / 64; 0x80 + c mod 64]
  else if c <? 0x10000 then [0xe0 + c / 4096; 0x80 + (c / 64) mod 64; 0x80 + c mod 64]
  else [0xf0 + c / 262144; 0x80 + (c / 4096) mod 64; 0x80 + (c / 64) mod 64; 0x80 + c mod 64].
Definition enc (cs : list Z) : list Z := flat_map enc1 cs.
(* one char off the front; None when the bytes are not well-formed UTF-8:
   stray continuation bytes, overlong forms, surrogates, > 0x10ffff *)
Definition cont (b : Z) : bool := (0x80 <=? b) && (b <? 0xc0).
Definition dec1 (bs : list Z) : option (Z * list Z) :=
  match bs with
  | [] => None
  | b0 :: r0 =>
      if b0 <? 0x80 then (if 0 <=? b0 then Some (b0, r0) else None)
      else if b0 <? 0xc0 then None
      else match r0 with
      | [] => None
      | b1 :: r1 =>
          if negb (cont b1) then None
          else if b0 <? 0xe0 then
            let c := (b0 - 0xc0) * 64 + (b1 - 0x80) in
            if 0x80 <=? c then Some (c, r1) else None
          else match r1 with
          | [] => None
          | b2 :: r2 =>
              if negb (cont b2) then None
              else if b0 <? 0xf0 then
                let c := (b0 - 0xe0) * 4096 + (b1 - 0x80) * 64 + (b2 - 0x80) in
                if (0x800 <=? c) && is_char c then Some (c, r2) else None
              else match r2 with
              | [] => None
              | b3 :: r3 =>
                  if negb (cont b3) then None
                  else
                    let c := (b0 - 0xf0) * 262144 + (b1 - 0x80) * 4096 + (b2 - 0x80) * 64 + (b3 - 0x80) in
                    if (0x10000 <=? c) && is_char c then Some (c, r3) else None
              end
          end
      end
  end.
(* std::str::from_utf8; fuel = number of bytes, never exhausted (dec1 shrinks) *)
Fixpoint dec_fuel (n : nat) (bs : list Z) : option (list Z) :=
  match bs with
  | [] => Some []
  | _ => match n with
         | O => None
         | S n' => match dec1 bs with
                   | Some (c, r) => match dec_fuel n' r with Some cs => Some (c :: cs) | None => None end
                   | None => None
                   end
         end
  end.
Definition from_utf8 (bs : list Z) : option (list Z) := dec_fuel (length bs) bs.

(* ---- representation, value/string.rs ---- *)
(* string.rs:8-13 *)
Inductive rstring : Type :=
  | Str (cs : list Z)
  | SmallStr (cs : list Z)
  | Bytes (bs : list Z).
(* string.rs:170-177 *)
Definition as_bytes (s : rstring) : list Z :=
  match s with Str cs | SmallStr cs => enc cs | Bytes bs => bs end.
(* string.rs:59-66 *)
Definition rs_from (cs : list Z) : rstring :=
  if zlen (enc cs) <=? 31 then SmallStr cs else Str cs.
(* string.rs:71-76, value.rs:1062-1067 *)
Definition rs_from_bytes (bs : list Z) : rstring :=
  match from_utf8 bs with Some cs => rs_from cs | None => Bytes bs end.
(* string.rs:78-132; [self] is replaced by the result *)
Definition rs_append (l r : rstring) : rstring :=
  match l, r with
  | Str l, Str r => Str (l ++ r)
  | Str l, SmallStr r => Str (l ++ r)
  | Str l, Bytes r => rs_from_bytes (enc l ++ r)
  | SmallStr l, Str r => Str (l ++ r)
  | SmallStr l, SmallStr r => rs_from (l ++ r)
  | SmallStr l, Bytes r => rs_from_bytes (enc l ++ r)
  | Bytes l, Str r => rs_from_bytes (l ++ enc r)
  | Bytes l, SmallStr r => rs_from_bytes (l ++ enc r)
  | Bytes l, Bytes r => Bytes (l ++ r)
  end.
(* string.rs:145-160 as_string, used by expect_string: a Bytes string that has
   become valid UTF-8 is converted in place. Result: the string as it is left
   and its chars. *)
Definition rs_as_string (s : rstring) : rstring * res (list Z) :=
  match s with
  | Str cs | SmallStr cs => (s, Ok cs)
  | Bytes bs => match from_utf8 bs with
                | Some cs => (rs_from cs, Ok cs)
                | None => (s, Err ArgErr)
                end
  end.
(* string.rs:162-168 as_str, value.rs:647-655 as_string().unwrap() *)
Definition rs_as_str (s : rstring) : res (list Z) :=
  match s with Str cs | SmallStr cs => Ok cs | Bytes _ => Panic end.
(* string.rs:203-216 replace_range on char positions start..end *)
Definition rs_replace_range (s : rstring) (b e : Z) (w : list Z) : res rstring :=
  match s with
  | Str cs => Ok (Str (zfirst b cs ++ w ++ zskip e cs))
  | SmallStr cs => Ok (rs_from (zfirst b cs ++ w ++ zskip e cs))
  | Bytes _ => Panic
  end.
(* string.rs:134-140 remove at a char position *)
Definition rs_remove (s : rstring) (i : Z) : res rstring :=
  match s with
  | Str cs => if i <? zlen cs then Ok (Str (zfirst i cs ++ zskip (i + 1) cs)) else Panic
  | SmallStr cs => if i <? zlen cs then Ok (SmallStr (zfirst i cs ++ zskip (i + 1) cs)) else Panic
  | Bytes bs => if i <? zlen bs then Ok (Bytes (zfirst i bs ++ zskip (i + 1) bs)) else Panic
  end.
Definition list_eqb (a b : list Z) : bool := if list_eq_dec Z.eq_dec a b then true else false.
(* derived PartialEq, string.rs:8: key equality of strings (rvalue.rs:419) *)
Definition rs_eql (a b : rstring) : bool :=
  match a, b with
  | Str x, Str y => list_eqb x y
  | SmallStr x, SmallStr y => list_eqb x y
  | Bytes x, Bytes y => list_eqb x y
  | _, _ => false
  end.
(* derived Hash, string.rs:8: the discriminant, then the content; what is fed
   to the hasher (external: str feeds its bytes and 0xff, a Vec its length and bytes) *)
Definition rs_feed (a : rstring) : list Z :=
  match a with
  | Str x => 0 :: enc x ++ [0xff]
  | SmallStr x => 1 :: enc x ++ [0xff]
  | Bytes x => 2 :: zlen x :: x
  end.
(* == , ops.rs:397-399 and value.rs:103-105 *)
Definition rs_eq (a b : rstring) : bool := list_eqb (as_bytes a) (as_bytes b).
(* string.rs:259-281 *)
Fixpoint cmp_prefix (l r : list Z) : option comparison :=
  match l, r with
  | x :: l', y :: r' => match x ?= y with Eq => cmp_prefix l' r' | c => Some c end
  | _, _ => None
  end.
Definition string_cmp (lhs rhs : list Z) : comparison :=
  if zlen rhs <=? zlen lhs then
    match cmp_prefix lhs rhs with
    | Some c => c
    | None => if zlen lhs =? zlen rhs then Eq else Gt
    end
  else match cmp_prefix lhs rhs with Some c => c | None => Lt end.
(* string.rs:253-257, builtin/string.rs:251-258 *)
Definition rs_cmp (a b : rstring) : comparison := string_cmp (as_bytes a) (as_bytes b).
(* builtin/string.rs:102-110 *)
Definition str_add (a b : rstring) : rstring := rs_append a b.
(* builtin/string.rs:112-126 *)
Definition str_mul (s : rstring) (n : Z) : res rstring :=
  if n <? 0 then Err ArgErr
  else Ok (match s with
           | Str cs | SmallStr cs => rs_from (concat (repeat cs (Z.to_nat n)))
           | Bytes bs => rs_from_bytes (concat (repeat bs (Z.to_nat n)))
           end).
(* builtin/string.rs:260-274 <<; an Integer argument appends one byte *)
Definition str_concat (s : rstring) (a : rstring) : rstring := rs_append s a.
Definition str_concat_int (s : rstring) (i : Z) : rstring := rs_append s (Bytes [i mod 2 ^ 8]).

(* ---- char-wise methods, builtin/string.rs; [cs] are the receiver's chars ---- *)
(* 129-142 *)
Definition conv_index (i len : Z) : option Z :=
  if 0 <=? i then (if i <? len then Some i else None)
  else (if len + i <? 0 then None else Some (len + i)).
Definition take_from (cs : list Z) (i n : Z) : list Z := zfirst n (zskip i cs).
(* 145-166; None is nil, the optional second argument is the length *)
Definition str_index (cs : list Z) (i : Z) (n : option Z) : option (list Z) :=
  match conv_index i (zlen cs) with
  | None => None
  | Some i =>
      let go (n : Z) := match take_from cs i n with [] => None | l => Some l end in
      match n with
      | Some n => if n =? 0 then Some [] else if n <? 0 then None else go n
      | None => go 1
      end
  end.
(* 167-186: the exclusive flag of the range is not consulted *)
Definition str_index_range (cs : list Z) (s e : Z) (exclude : bool) : option (list Z) :=
  match conv_index s (zlen cs), conv_index e (zlen cs) with
  | Some s, Some e => if e <? s then Some [] else Some (take_from cs s (e - s + 1))
  | _, _ => None
  end.
(* 224-249. `as usize` of a negative start is huge; `as usize - 1` of length 0
   underflows. start_pos + len + 1 overflow panics. *)
Definition str_index_assign (s : rstring) (start : Z) (n : option Z) (w : list Z) : res rstring :=
  cs <- rs_as_str s ;;
  let start_pos := u64 start in
  len <- (match n with
          | None => Ok 0
          | Some n => if u64 n =? 0 then Panic else Ok (u64 n - 1)
          end) ;;
  if zlen cs <=? start_pos then Err IndexErr
  else if 2 ^ 64 <=? start_pos + len + 1 then Panic
  else rs_replace_range s start_pos (Z.min (start_pos + len + 1) (zlen cs)) w.
(* 642-651 *)
Definition calc_idx (cs : list Z) (i : Z) : option Z :=
  if 0 <=? i then Some i else if zlen cs + i <? 0 then None else Some (zlen cs + i).
(* 657-668 slice!(i): the receiver as it is left, and nil or the removed char *)
Definition str_slice1 (s : rstring) (i : Z) : rstring * res (option (list Z)) :=
  match rs_as_string s with
  | (s, Ok cs) =>
      match calc_idx cs i with
      | None => (s, Ok None)
      | Some idx =>
          if zlen cs <=? idx then (s, Ok None)
          else match rs_remove s idx with
               | Ok s' => (s', Ok (Some (take_from cs idx 1)))
               | Err k => (s, Err k)
               | Panic => (s, Panic)
               end
      end
  | (s, Err k) => (s, Err k)
  | (s, Panic) => (s, Panic)
  end.
(* 669-698 slice!(i, n) *)
Definition str_slice2 (s : rstring) (i n : Z) : rstring * res (option (list Z)) :=
  if n <? 0 then (s, Ok None)
  else match rs_as_string s with
  | (s, Ok cs) =>
      match calc_idx cs i with
      | None => (s, Ok None)
      | Some start =>
          match take_from cs start n with
          | [] => (s, Ok None)                 (* peek() gave None *)
          | t =>
              match rs_replace_range s start (Z.min (start + n) (zlen cs)) [] with
              | Ok s' => (s', Ok (Some t))
              | Err k => (s, Err k)
              | Panic => (s, Panic)
              end
          end
      end
  | (s, Err k) => (s, Err k)
  | (s, Panic) => (s, Panic)
  end.

(* str::starts_with / ends_with / contains (std) *)
Fixpoint starts_with (cs p : list Z) : bool :=
  match p, cs with
  | [], _ => true
  | x :: p', y :: cs' => (x =? y) && starts_with cs' p'
  | _ :: _, [] => false
  end.
Definition ends_with (cs p : list Z) : bool := starts_with (rev cs) (rev p).
Fixpoint contains (cs p : list Z) : bool :=
  starts_with cs p || match cs with [] => false | _ :: r => contains r p end.
(* str::trim_end_matches(&str): removes the suffix as long as it is there; an
   empty pattern removes nothing (std). Fuel = length. *)
Fixpoint trim_end_str (fuel : nat) (p cs : list Z) : list Z :=
  match fuel with
  | O => cs
  | S f => match p with
           | [] => cs
           | _ => if ends_with cs p then trim_end_str f p (zfirst (zlen cs - zlen p) cs) else cs
           end
  end.
(* 919-933 chomp *)
Definition str_chomp (cs : list Z) (rs : list Z) : list Z := trim_end_str (length cs) rs cs.
(* 886-915 strip, lstrip, rstrip; [in_set] membership in the fixed char lists *)
Fixpoint trim_start_set (set cs : list Z) : list Z :=
  match cs with
  | c :: r => if existsb (Z.eqb c) set then trim_start_set set r else cs
  | [] => []
  end.
Definition trim_end_set (set cs : list Z) : list Z := rev (trim_start_set set (rev cs)).
Definition SP1 : list Z := [32; 10; 9; 13; 12; 11].
Definition SP2 : list Z := [32; 10; 9; 13; 12; 11; 0].
Definition str_strip (cs : list Z) : list Z := trim_start_set SP1 (trim_end_set SP2 cs).
Definition str_lstrip (cs : list Z) : list Z := trim_start_set SP1 cs.
Definition str_rstrip (cs : list Z) : list Z := trim_end_set SP2 cs.

(* 1015-1020; len / 0 cannot happen: the padding is not empty *)
Definition gen_pad (padding : list Z) (len : Z) : list Z :=
  concat (repeat padding (Z.to_nat (len / zlen padding))) ++ zfirst (len mod zlen padding) padding.
(* 1049-1068, 1070-1089, 1022-1047 *)
Definition str_ljust (cs : list Z) (width : Z) (padding : list Z) : res (list Z) :=
  match padding with
  | [] => Err ArgErr
  | _ => if (width <=? 0) || (width <=? zlen cs) then Ok cs
         else Ok (cs ++ gen_pad padding (width - zlen cs))
  end.
Definition str_rjust (cs : list Z) (width : Z) (padding : list Z) : res (list Z) :=
  match padding with
  | [] => Err ArgErr
  | _ => if (width <=? 0) || (width <=? zlen cs) then Ok cs
         else Ok (gen_pad padding (width - zlen cs) ++ cs)
  end.
Definition str_center (cs : list Z) (width : Z) (padding : list Z) : res (list Z) :=
  match padding with
  | [] => Err ArgErr
  | _ => if (width <=? 0) || (width <=? zlen cs) then Ok cs
         else let head := (width - zlen cs) / 2 in
              let tail := width - zlen cs - head in
              Ok (gen_pad padding head ++ cs ++ gen_pad padding tail)
  end.

(* str::split(&str), std: the pieces between non-overlapping matches scanned
   from the left. An empty pattern matches between all chars, giving an empty
   first and last piece. [acc] is the current piece, reversed; [skip] counts
   the chars of the match still to pass. *)
Fixpoint split_scan (p : list Z) (skip : nat) (acc : list Z) (cs : list Z) : list (list Z) :=
  match cs with
  | [] => [rev acc]
  | c :: r =>
      match skip with
      | S k => split_scan p k acc r
      | O => if starts_with cs p then rev acc :: split_scan p (length p - 1) [] r
             else split_scan p O (c :: acc) r
      end
  end.
Definition std_split (cs p : list Z) : list (list Z) :=
  match p with
  | [] => [] :: map (fun c => [c]) cs ++ [[]]
  | _ => split_scan p O [] cs
  end.
(* 473-479: trailing empty pieces dropped *)
Fixpoint drop_empty (l : list (list Z)) : list (list Z) :=
  match l with [] :: r => drop_empty r | _ => l end.
Definition is_ws (c : Z) : bool := existsb (Z.eqb c) [32; 9; 10; 12; 13].
Fixpoint trim_start_ws (cs : list Z) : list Z :=
  match cs with c :: r => if is_ws c then trim_start_ws r else cs | [] => [] end.
(* 457-480 split with a string separator and limit 0 or negative *)
Definition str_split (cs sep : list Z) (neg_limit : bool) : list (list Z) :=
  let cs := if list_eqb sep [32] then trim_start_ws cs else cs in
  let v := std_split cs sep in
  if neg_limit then v else rev (drop_empty (rev v)).
(* str::splitn(n, &str), std, for a non-empty pattern: at most n pieces, the last one the rest *)
Fixpoint splitn_scan (p : list Z) (n : nat) (skip : nat) (acc : list Z) (cs : list Z) : list (list Z) :=
  match cs with
  | [] => [rev acc]
  | c :: r =>
      match skip with
      | S k => splitn_scan p n k acc r
      | O => match n with
             | S (S n') => if starts_with cs p then rev acc :: splitn_scan p (S n') (length p - 1) [] r
                           else splitn_scan p n O (c :: acc) r
             | _ => [rev acc ++ cs]
             end
      end
  end.
(* 481-486 split with a positive limit and a non-empty separator other than one space *)
Definition str_splitn (cs sep : list Z) (lim : Z) : list (list Z) :=
  splitn_scan sep (Z.to_nat lim) O [] cs.
(* 1221-1231 lines: str::split_inclusive on newline *)
Fixpoint lines_scan (acc : list Z) (cs : list Z) : list (list Z) :=
  match cs with
  | [] => match acc with [] => [] | _ => [rev acc] end
  | c :: r => if c =? 10 then rev (c :: acc) :: lines_scan [] r else lines_scan (c :: acc) r
  end.
Definition str_lines (cs : list Z) : list (list Z) := lines_scan [] cs.
(* 1178-1188 count: every char of the argument counted separately *)
Definition str_count (cs arg : list Z) : Z :=
  fold_left (fun n ch => n + zlen (filter (Z.eqb ch) cs)) arg 0.

(* ---- succ, builtin/string.rs:1100-1176 ---- *)
(* 1100-1110; char::from_u32(..).expect(..) panics outside the char range *)
Definition succ_char (ch : Z) : res Z :=
  let u := if ch =? 0x7f then 0 else if ch =? 0xdfbf then 0xe0a080
           else if ch =? 0xefbfbf then 0xf0908080 else if ch =? 0xf48fbfbf then 0xc2800
           else ch + 1 in
  if is_char u then Ok u else Panic.
Definition between (a c b : Z) : bool := (a <=? c) && (c <=? b).
Section Succ.
  (* char::is_alphanumeric: a Unicode table, external *)
  Variable alnum : Z -> bool.
  (* 1121-1130: the last char is advanced; [r] is the reversed string *)
  Definition next_nonalnum (r : list Z) : res (list Z) :=
    match r with [] => Ok [] | c :: t => c' <- succ_char c ;; Ok (c' :: t) end.
  (* 1132-1162: over the reversed string; buf grows at the end; [last] is
     last_alnum. Returns buf, carry, last. *)
  Fixpoint next_loop (r buf : list Z) (carry : bool) (last : Z) : res (list Z * bool * Z) :=
    match r with
    | [] => Ok (buf, carry, last)
    | c :: t =>
        if carry then
          if between 48 c 56 || between 97 c 121 || between 65 c 89 || between 0xff10 c 0xff18 then
            c' <- succ_char c ;; next_loop t (buf ++ [c']) false last
          else if c =? 57 then next_loop t (buf ++ [48]) true (zlen buf)
          else if c =? 0xff19 then next_loop t (buf ++ [0xff10]) true (zlen buf)
          else if c =? 122 then next_loop t (buf ++ [97]) true (zlen buf)
          else if c =? 90 then next_loop t (buf ++ [65]) true (zlen buf)
          else if negb (alnum c) then next_loop t (buf ++ [c]) true last
          else c' <- succ_char c ;; next_loop t (buf ++ [c']) false last
        else next_loop t (buf ++ [c]) false last
    end.
  Definition insert_at (l : list Z) (i : Z) (x : Z) : list Z := zfirst i l ++ x :: zskip i l.
  (* 1112-1176 *)
  Definition str_next (cs : list Z) : res (list Z) :=
    match cs with
    | [] => Ok []
    | _ =>
        if forallb (fun c => negb (alnum c)) cs then r <- next_nonalnum (rev cs) ;; Ok (rev r)
        else
          x <- next_loop (rev cs) [] true 0 ;;
          let '(buf, carry, last) := x in
          if carry then
            c <- v_get buf last ;;
            Ok (rev (if c =? 48 then insert_at buf (last + 1) 49
                     else if c =? 0xff10 then insert_at buf (last + 1) 0xff11
                     else if c =? 97 then insert_at buf (last + 1) 97
                     else if c =? 65 then insert_at buf (last + 1) 65
                     else buf))
          else Ok (rev buf)
    end.
End Succ.

(* ---- inspect, value/string.rs:16-44, 249-251 ---- *)
Definition BSL : Z := 92.
Definition DQ : Z := 34.
Definition SQ : Z := 39.
(* 19-36, one char; {:02} of 0..6 is '0' and the digit *)
Definition esc1 (c : Z) : list Z :=
  if (c =? SQ) || (c =? DQ) || (c =? BSL) then [BSL; c]
  else if (0 <=? c) && (c <=? 6) then [BSL; 120; 48; 48 + c]
  else if c =? 7 then [BSL; 97]
  else if c =? 8 then [BSL; 98]
  else if c =? 9 then [BSL; 116]
  else if c =? 10 then [BSL; 110]
  else if c =? 11 then [BSL; 118]
  else if c =? 12 then [BSL; 102]
  else if c =? 13 then [BSL; 114]
  else if c =? 27 then [BSL; 101]
  else [c].
(* String::from_utf8_lossy (std) is a parameter: only used for Bytes *)
Definition str_inspect (lossy : list Z -> list Z) (s : rstring) : list Z :=
  DQ :: (match s with Str cs | SmallStr cs => flat_map esc1 cs | Bytes bs => lossy bs end) ++ [DQ].

(* ---- reading a double-quoted literal, lexer.rs:718-1030 ---- *)
(* lexer.rs:1218-1230 *)
Definition hex_digit (c : Z) : option Z :=
  if between 48 c 57 then Some (c - 48)
  else if between 97 c 102 then Some (c - 97 + 10)
  else if between 65 c 70 then Some (c - 65 + 10)
  else None.
(* n hex digits off the front *)
Fixpoint read_hex (n : nat) (acc : Z) (cs : list Z) : option (Z * list Z) :=
  match n with
  | O => Some (acc, cs)
  | S n' => match cs with
            | c :: r => match hex_digit c with Some d => read_hex n' (acc * 16 + d) r | None => None end
            | [] => None
            end
  end.
(* lexer.rs:1244-1253: at most two more octal digits; u8 wrapping product, and
   the addition overflows (panic) never: o*8 mod 256 is a multiple of 8 *)
Fixpoint read_octal (n : nat) (o : Z) (cs : list Z) : Z * list Z :=
  match n with
  | O => (o, cs)
  | S n' => match cs with
            | c :: r => if between 48 c 55 then read_octal n' (u8 (o * 8) + (c - 48)) r else (o, cs)
            | [] => (o, cs)
            end
  end.
(* lexer.rs:990-1030; None is a parse error *)
Definition read_escaped_char (cs : list Z) : option (Z * list Z) :=
  match cs with
  | [] => None
  | c :: r =>
      if (c =? SQ) || (c =? DQ) || (c =? 63) || (c =? BSL) then Some (c, r)
      else if c =? 97 then Some (7, r)
      else if c =? 98 then Some (8, r)
      else if c =? 101 then Some (27, r)
      else if c =? 102 then Some (12, r)
      else if c =? 110 then Some (10, r)
      else if c =? 114 then Some (13, r)
      else if c =? 115 then Some (32, r)
      else if c =? 116 then Some (9, r)
      else if c =? 118 then Some (11, r)
      else if c =? 120 then read_hex 2 0 r
      else if c =? 117 then
        match read_hex 4 0 r with Some (u, r') => if is_char u then Some (u, r') else None | None => None end
      else if between 48 c 55 then Some (read_octal 2 (c - 48) r)
      else Some (c, r)
  end.
(* lexer.rs:748-802 with open = None, term = the double quote, no pending here-document.
   SFinished: the string and the rest of the source; SInterp: an interpolation
   starts. Fuel = number of chars. *)
Inductive lit : Type := SFinished (s rest : list Z) | SInterp (s rest : list Z) | SError.
Fixpoint read_dquote (fuel : nat) (s cs : list Z) : lit :=
  match fuel with
  | O => SError
  | S f =>
      match cs with
      | [] => SError
      | c :: r =>
          if c =? DQ then SFinished s r
          else if c =? BSL then
            match r with
            | 10 :: r' => read_dquote f s r'
            | _ => match read_escaped_char r with
                   | Some (x, r') => read_dquote f (s ++ [x]) r'
                   | None => SError
                   end
            end
          else if c =? 35 then
            match r with
            | d :: _ => if (d =? 123) || (d =? 36) || (d =? 64) then SInterp s r else read_dquote f (s ++ [35]) r
            | [] => read_dquote f (s ++ [35]) r
            end
          else read_dquote f (s ++ [c]) r
      end
  end.
(* the opening quote has been seen at lexer.rs:231 *)
Definition read_string_literal (cs : list Z) : lit :=
  match cs with
  | c :: r => if c =? DQ then read_dquote (S (length r)) [] r else SError
  | [] => SError
  end.
