(** The parts of Go's unicode/utf8, encoding/json and encoding/base64 the JSON protocols call. *)
From Coq Require Import ZArith List Bool Lia.
From Verif Require Import Base Arith Strconv.
Import ListNotations.
Open Scope Z_scope.

(** ** unicode/utf8 *)

(** utf8.DecodeRune: the rune and its width; U+FFFD with width 1 for anything invalid (surrogates
    included, as since Go 1.1). *)
Definition cont (b : Z) : bool := (0x80 <=? b) && (b <? 0xC0).
Definition utf8_decode (s : bytes) : Z * nat :=
  let bad := (0xFFFD, 1%nat) in
  match s with
  | [] => (0xFFFD, 0%nat)
  | a :: s1 =>
    if a <? 0x80 then (a, 1%nat)
    else if a <? 0xC2 then bad
    else if a <? 0xE0 then
      match s1 with
      | b :: _ => if cont b then ((a - 0xC0) * 64 + (b - 0x80), 2%nat) else bad
      | _ => bad
      end
    else if a <? 0xF0 then
      match s1 with
      | b :: c :: _ =>
        let r := (a - 0xE0) * 4096 + (b - 0x80) * 64 + (c - 0x80) in
        if cont b && cont c && (0x800 <=? r) && negb ((0xD800 <=? r) && (r <=? 0xDFFF))
        then (r, 3%nat) else bad
      | _ => bad
      end
    else if a <? 0xF8 then
      match s1 with
      | b :: c :: d :: _ =>
        let r := (a - 0xF0) * 262144 + (b - 0x80) * 4096 + (c - 0x80) * 64 + (d - 0x80) in
        if cont b && cont c && cont d && (0x10000 <=? r) && (r <=? 0x10FFFF)
        then (r, 4%nat) else bad
      | _ => bad
      end
    else bad
  end.

(** ** encoding/json: strings *)

(** What differs between releases of encoding/json: which of the characters < > & DEL and of the
    non-ASCII runes are written as \uXXXX, which control characters have a short escape, and
    whether invalid UTF-8 is replaced or an error. *)
Record jstyle : Type := MkStyle {
  js_esc : Z -> bool;
  js_short : Z -> bool;
  js_lossy : bool
}.

Definition hex_digit (d : Z) : Z := if d <? 10 then 48 + d else 87 + d.
Definition u_escape (r : Z) : bytes :=
  [92; 117; hex_digit (r / 4096 mod 16); hex_digit (r / 256 mod 16); hex_digit (r / 16 mod 16);
   hex_digit (r mod 16)].
Definition short_escape (c : Z) : option Z :=
  if c =? 8 then Some 98 else if c =? 9 then Some 116 else if c =? 10 then Some 110
  else if c =? 12 then Some 102 else if c =? 13 then Some 114 else None.

(** encodeState.string for one ASCII character and for one rune above *)
Definition escape_ascii (st : jstyle) (c : Z) : bytes :=
  if (c =? 34) || (c =? 92) then [92; c]
  else if c <? 32 then
    match short_escape c with
    | Some x => if js_short st c then [92; x] else u_escape c
    | None => u_escape c
    end
  else if ((c =? 60) || (c =? 62) || (c =? 38) || (c =? 127)) && js_esc st c then u_escape c
  else [c].
Definition escape_rune (st : jstyle) (r : Z) : bytes :=
  if (r <? 0x10000) && js_esc st r then u_escape r else utf8_encode r.

Fixpoint marshal_body (fuel : nat) (st : jstyle) (s : bytes) : option bytes :=
  match fuel with
  | O => Some []
  | S f =>
    match s with
    | [] => Some []
    | c :: s' =>
      if c <? 0x80 then option_map (app (escape_ascii st c)) (marshal_body f st s')
      else
        let '(r, n) := utf8_decode s in
        if (r =? 0xFFFD) && (n =? 1)%nat then
          if js_lossy st then option_map (app (u_escape 0xFFFD)) (marshal_body f st s') else None
        else option_map (app (escape_rune st r)) (marshal_body f st (skipn n s))
    end
  end.

(** JsonQuote, tsimple_json_protocol.go:156-160: the Marshal error is dropped. *)
Definition json_quote (st : jstyle) (s : bytes) : bytes :=
  match marshal_body (length s) st s with
  | Some b => [34] ++ b ++ [34]
  | None => []
  end.

Definition hex_val (c : Z) : option Z :=
  if (48 <=? c) && (c <=? 57) then Some (c - 48)
  else if (97 <=? c) && (c <=? 102) then Some (c - 87)
  else if (65 <=? c) && (c <=? 70) then Some (c - 55)
  else None.
Definition hex4 (s : bytes) : option (Z * bytes) :=
  match s with
  | a :: b :: c :: d :: s' =>
    match hex_val a, hex_val b, hex_val c, hex_val d with
    | Some a, Some b, Some c, Some d => Some (a * 4096 + b * 256 + c * 16 + d, s')
    | _, _, _, _ => None
    end
  | _ => None
  end.
Definition is_ws (c : Z) : bool := (c =? 32) || (c =? 9) || (c =? 10) || (c =? 13).

(** The scanner's check and unquoteBytes in one: the rest of a string literal after its opening
    quote; nothing but white space may follow the closing quote. *)
Fixpoint unquote_body (fuel : nat) (s : bytes) : option bytes :=
  match fuel with
  | O => None
  | S f =>
    match s with
    | [] => None
    | c :: s1 =>
      if c =? 34 then (if forallb is_ws s1 then Some [] else None)
      else if c =? 92 then
        match s1 with
        | [] => None
        | e :: s2 =>
          let one x := option_map (cons x) (unquote_body f s2) in
          if (e =? 34) || (e =? 92) || (e =? 47) then one e
          else if e =? 98 then one 8 else if e =? 102 then one 12 else if e =? 110 then one 10
          else if e =? 114 then one 13 else if e =? 116 then one 9
          else if e =? 117 then
            match hex4 s2 with
            | None => None
            | Some (r, s3) =>
              if (0xD800 <=? r) && (r <=? 0xDFFF) then
                let alone := option_map (app (utf8_encode 0xFFFD)) (unquote_body f s3) in
                match s3 with
                | 92 :: 117 :: s4 =>
                  match hex4 s4 with
                  | Some (r2, s5) =>
                    if (r <=? 0xDBFF) && (0xDC00 <=? r2) && (r2 <=? 0xDFFF)
                    then option_map (app (utf8_encode (0x10000 + (r - 0xD800) * 1024 + (r2 - 0xDC00))))
                                    (unquote_body f s5)
                    else alone
                  | None => alone
                  end
                | _ => alone
                end
              else option_map (app (utf8_encode r)) (unquote_body f s3)
            end
          else None
        end
      else if c <? 32 then None
      else if c <? 0x80 then option_map (cons c) (unquote_body f s1)
      else let '(r, n) := utf8_decode s in
           option_map (app (utf8_encode r)) (unquote_body f (skipn n s))
    end
  end.
(** JsonUnquote, tsimple_json_protocol.go:162-166, of a text that starts with a quote. *)
Definition json_unquote (s : bytes) : option bytes :=
  match s with
  | 34 :: t => unquote_body (S (length t)) t
  | _ => None
  end.

(** ** encoding/base64, StdEncoding *)
Definition b64_char (d : Z) : Z :=
  if d <? 26 then 65 + d
  else if d <? 52 then 97 + (d - 26)
  else if d <? 62 then 48 + (d - 52)
  else if d =? 62 then 43 else 47.
Definition b64_val (c : Z) : option Z :=
  if (65 <=? c) && (c <=? 90) then Some (c - 65)
  else if (97 <=? c) && (c <=? 122) then Some (c - 97 + 26)
  else if (48 <=? c) && (c <=? 57) then Some (c - 48 + 52)
  else if c =? 43 then Some 62 else if c =? 47 then Some 63 else None.

Fixpoint b64_encode (s : bytes) : bytes :=
  match s with
  | [] => []
  | [a] => [b64_char (a / 4); b64_char (a mod 4 * 16); 61; 61]
  | [a; b] => [b64_char (a / 4); b64_char (a mod 4 * 16 + b / 16); b64_char (b mod 16 * 4); 61]
  | a :: b :: c :: s' =>
    b64_char (a / 4) :: b64_char (a mod 4 * 16 + b / 16) :: b64_char (b mod 16 * 4 + c / 64)
      :: b64_char (c mod 64) :: b64_encode s'
  end.

(** Decode: the bytes decoded before an error, and whether there was one.  [q] are the digits of
    the current quantum (at most 3).  Carriage returns and newlines are skipped; a '=' in third or
    fourth place with fewer than four bytes behind it is taken for the end. *)
Definition b64_tail (q : list Z) : bytes :=
  match q with
  | [x; y] => [x * 4 + y / 16]
  | [x; y; z] => [x * 4 + y / 16; y mod 16 * 16 + z / 4]
  | _ => []
  end.
Fixpoint b64_decode (s : bytes) (q : list Z) : bytes * bool :=
  match s with
  | [] => ([], match q with [] => true | _ => false end)
  | c :: s' =>
    if (c =? 13) || (c =? 10) then b64_decode s' q
    else if (c =? 61) && (2 <=? length q)%nat && (length s' <? 4)%nat then
      if (length s' =? 0)%nat && (length q =? 2)%nat then ([], false)
      else match s' with
           | d :: _ => if d =? 61 then (b64_tail q, true) else ([], false)
           | [] => (b64_tail q, true)
           end
    else match b64_val c with
         | None => ([], false)
         | Some v =>
           match q with
           | [x; y; z] =>
             let '(d, ok) := b64_decode s' [] in
             (x * 4 + y / 16 :: y mod 16 * 16 + z / 4 :: z mod 4 * 64 + v :: d, ok)
           | _ => b64_decode s' (q ++ [v])
           end
         end
  end.
