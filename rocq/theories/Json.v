(** TSimpleJSONProtocol (tsimple_json_protocol.go) and TJSONProtocol (tjson_protocol.go). *)
From Coq Require Import ZArith List Bool Lia String Ascii.
From Verif Require Import Base Arith Errors Transport Proto BufRead JsonText Strconv F64 GoVal Names.
Import ListNotations.
Local Open Scope list_scope.
Local Notation length := List.length.
Open Scope Z_scope.

(** tsimple_json_protocol.go:36-43 *)
Inductive ctx : Type := TopLevel | ListFirst | InList | ObjFirst | NextKey | NextValue.

(** What the protocols take from the outside: float formatting and parsing, JSON style. *)
Record jenv : Type := MkJenv { j_ext : ext; j_style : jstyle }.

(** ** Writing *)

(** The transport and dumpContext, top first. *)
Definition jw := (wt * list ctx)%type.
(** tsimple_json_protocol.go:94-102, tjson_protocol.go:48-53: TOPLEVEL is pushed twice in TJSON. *)
Definition simple_w (w : wt) : jw := (w, [TopLevel]).
Definition json_w (w : wt) : jw := (w, [TopLevel; TopLevel]).

(** p.writer.Write(bs) *)
Definition out_raw (bs : bytes) : wop jw :=
  fun '(w, c) => let '(_, e, w') := twrite bs w in Ok (protocol_exc_from_os e, (w', c)).
(** tsimple_json_protocol.go:671-674 *)
Definition OutputStringData (s : bytes) : wop jw :=
  fun '(w, c) => let '(e, w') := copy_n s w in Ok (protocol_exc_from_os e, (w', c)).
(** The current context; an empty stack panics. *)
Definition with_ctx {A} (k : ctx -> jw -> outcome A) : jw -> outcome A :=
  fun s => match snd s with [] => Panic | c :: _ => k c s end.
Definition set_ctx (c : ctx) (l : list ctx) : list ctx := match l with [] => [] | _ :: l' => c :: l' end.
(** What becomes of a context when a value in it is complete. *)
Definition after_value (c : ctx) : ctx :=
  match c with
  | ListFirst => InList
  | ObjFirst | NextKey => NextValue
  | NextValue => NextKey
  | TopLevel => TopLevel | InList => InList
  end.
(** tsimple_json_protocol.go:549-564 *)
Definition OutputPreValue : wop jw :=
  with_ctx (fun c => match c with
                     | InList | NextKey => out_raw [44]
                     | NextValue => out_raw [58]
                     | _ => nop
                     end).
(** tsimple_json_protocol.go:566-587 *)
Definition OutputPostValue : wop jw :=
  with_ctx (fun c '(w, l) => Ok (None, (w, set_ctx (after_value c) l))).
Definition is_key (c : ctx) : bool := match c with ObjFirst | NextKey => true | _ => false end.
Definition quoted (s : bytes) : bytes := [34] ++ s ++ [34].
(** tsimple_json_protocol.go:589-608 *)
Definition OutputBool (J : jenv) (b : bool) : wop jw :=
  OutputPreValue >>>
  with_ctx (fun c => let v := lit (if b then "true" else "false") in
                     OutputStringData (if is_key c then json_quote (j_style J) v else v)) >>>
  OutputPostValue.
(** math.IsInf *)
Definition INF : Z := 2047 * 2 ^ 52.
Definition NEG_INF : Z := 4095 * 2 ^ 52.
(** math.NaN() *)
Definition GO_NAN : Z := 2047 * 2 ^ 52 + 2 ^ 51 + 1.
(** tsimple_json_protocol.go:620-643 *)
Definition OutputF64 (J : jenv) (d : Z) : wop jw :=
  OutputPreValue >>>
  with_ctx (fun c => OutputStringData
    (if f64_is_nan d then quoted (lit "NaN")
     else if d =? INF then quoted (lit "Infinity")
     else if d =? NEG_INF then quoted (lit "-Infinity")
     else let v := x_fmt64 (j_ext J) d in if is_key c then quoted v else v)) >>>
  OutputPostValue.
(** tsimple_json_protocol.go:645-659 *)
Definition OutputI64 (J : jenv) (z : Z) : wop jw :=
  OutputPreValue >>>
  with_ctx (fun c => let v := FormatInt z in
                     OutputStringData (if is_key c then json_quote (j_style J) v else v)) >>>
  OutputPostValue.
(** tsimple_json_protocol.go:661-669 *)
Definition OutputString (J : jenv) (s : bytes) : wop jw :=
  OutputPreValue >>> OutputStringData (json_quote (j_style J) s) >>> OutputPostValue.
Definition push (c : ctx) : wop jw := fun '(w, l) => Ok (None, (w, c :: l)).
Definition pop : wop jw := fun '(w, l) => match l with [] => Panic | _ :: l' => Ok (None, (w, l')) end.
(** tsimple_json_protocol.go:676-718 *)
Definition OutputObjectBegin : wop jw := OutputPreValue >>> out_raw [123] >>> push ObjFirst.
Definition OutputObjectEnd : wop jw := out_raw [125] >>> pop >>> OutputPostValue.
Definition OutputListBegin : wop jw := OutputPreValue >>> out_raw [91] >>> push ListFirst.
Definition OutputListEnd : wop jw := out_raw [93] >>> pop >>> OutputPostValue.

(** tsimple_json_protocol.go:253-267: int32(b) and int64(v) keep the value. *)
Definition WriteI32 := OutputI64.
Definition WriteByte := WriteI32.
Definition WriteI16 := WriteI32.
Definition WriteI64 := OutputI64.
(** tsimple_json_protocol.go:720-731: WriteByte(byte(elemType)), WriteI64(int64(size)) *)
Definition OutputElemListBegin (J : jenv) (et n : Z) : wop jw :=
  OutputListBegin >>> WriteByte J (wrapu 8 et) >>> WriteI64 J n.

(** base64.NewEncoder: Write encodes blocks of 768 bytes, Close the last one or two bytes. *)
Definition b64_block : nat := 768.
Fixpoint b64_write (fuel : nat) (v : bytes) (w : wt) : option err * wt :=
  match fuel with
  | O => (None, w)
  | S f =>
    if (length v <? 3)%nat then (None, w)
    else
      let n := if (length v <? b64_block)%nat then (length v / 3 * 3)%nat else b64_block in
      let '(_, e, w') := twrite (b64_encode (firstn n v)) w in
      match e with Some _ => (e, w') | None => b64_write f (skipn n v) w' end
  end.
Definition b64_rest (v : bytes) : bytes := skipn (length v / 3 * 3) v.
Definition b64_close (v : bytes) (w : wt) : option err * wt :=
  match b64_rest v with
  | [] => (None, w)
  | r => let '(_, e, w') := twrite (b64_encode r) w in (e, w')
  end.
Definition out_op (f : wt -> option err * wt) : wop jw :=
  fun '(w, c) => let '(e, w') := f w in Ok (protocol_exc_from_os e, (w', c)).
(** tsimple_json_protocol.go:277-299 *)
Definition sWriteBinary (v : bytes) : wop jw :=
  OutputPreValue >>> out_raw [34] >>> out_op (b64_write (length v) v) >>> out_op (b64_close v) >>>
  out_raw [34] >>> OutputPostValue.
(** A step whose error is not looked at. *)
Definition ignoring (m : wop jw) : wop jw := fun s => '(_, s') <- m s ;; Ok (None, s').
(** tjson_protocol.go:182-198: only the error of writer.Write is looked at. *)
Definition jWriteBinary (v : bytes) : wop jw :=
  OutputPreValue >>> ignoring (out_raw [34]) >>> out_op (b64_write (length v) v) >>>
  ignoring (out_op (b64_close v)) >>> ignoring (out_raw [34]) >>> OutputPostValue.

(** tsimple_json_protocol.go:171-299 *)
Definition simpleW (J : jenv) : wproto jw := MkWproto jw
  (fun name t id => OutputListBegin >>> OutputString J name >>> WriteByte J (wrapu 8 t) >>> WriteI32 J id)
  OutputListEnd
  (fun _ => OutputObjectBegin)
  OutputObjectEnd
  (fun name _ _ => OutputString J name)
  nop
  nop
  (fun kt vt n => OutputListBegin >>> WriteByte J (wrapu 8 kt) >>> WriteByte J (wrapu 8 vt) >>>
                  WriteI32 J (wraps 32 n))
  OutputListEnd
  (OutputElemListBegin J)
  OutputListEnd
  (OutputElemListBegin J)
  OutputListEnd
  (OutputBool J) (WriteByte J) (WriteI16 J) (WriteI32 J) (WriteI64 J) (OutputF64 J) (OutputString J)
  sWriteBinary.

(** tjson_protocol.go:462-498 and 500-536 *)
Definition type_names : list (Z * string) :=
  [(STOP, "stp"); (VOID, "v"); (BOOL, "tf"); (BYTE, "i8"); (DOUBLE, "dbl"); (I16, "i16");
   (I32, "i32"); (I64, "i64"); (STRING, "str"); (STRUCT, "rec"); (MAP, "map"); (SET, "set");
   (LIST, "lst"); (ENUM, "i32"); (UTF16, "str"); (GENERIC, "gen")]%string.
Definition name_types : list (string * Z) :=
  [("stp", STOP); ("v", VOID); ("tf", BOOL); ("i8", BYTE); ("dbl", DOUBLE); ("16", I16);
   ("i32", I32); ("i64", I64); ("str", STRING); ("rec", STRUCT); ("map", MAP); ("set", SET);
   ("lst", LIST); ("enm", ENUM); ("u16", UTF16); ("gen", GENERIC)]%string.
Fixpoint lookup_type (t : Z) (l : list (Z * string)) : bytes :=
  match l with [] => [] | (u, s) :: l' => if wrapu 8 t =? u then lit s else lookup_type t l' end.
Definition TypeIdToString (t : Z) : bytes := lookup_type t type_names.
Fixpoint lookup_name (s : bytes) (l : list (string * Z)) : Z :=
  match l with [] => STOP | (u, t) :: l' => if beq s (lit u) then t else lookup_name s l' end.
Definition StringToTypeId (s : bytes) : Z := lookup_name s name_types.

(** tjson_protocol.go:68-198 *)
Definition jsonW (J : jenv) : wproto jw := MkWproto jw
  (fun name t id => OutputListBegin >>> WriteI32 J 1 >>> OutputString J name >>>
                    WriteByte J (wrapu 8 t) >>> WriteI32 J id)
  OutputListEnd
  (fun _ => OutputObjectBegin)
  OutputObjectEnd
  (fun _ t id => WriteI16 J id >>> OutputObjectBegin >>> OutputString J (TypeIdToString t))
  OutputObjectEnd
  nop
  (fun kt vt n => OutputListBegin >>> OutputString J (TypeIdToString kt) >>>
                  OutputString J (TypeIdToString vt) >>> WriteI64 J n)
  OutputListEnd
  (OutputElemListBegin J)
  OutputListEnd
  (OutputElemListBegin J)
  OutputListEnd
  (OutputBool J) (WriteByte J) (WriteI16 J) (WriteI32 J) (WriteI64 J) (OutputF64 J) (OutputString J)
  jWriteBinary.

(** ** Reading *)

(** The bufio.Reader and parseContextStack, top first. *)
Definition jr := (breader * list ctx)%type.
Definition simple_r (r : rt) : jr := (new_breader r, [TopLevel]).
Definition json_r (r : rt) : jr := (new_breader r, [TopLevel; TopLevel]).

Definition bad_data {A} (a : A) (s : jr) : outcome (A * option err * jr) :=
  Ok (a, Some (EProtocol INVALID_DATA), s).

(** readNonSignificantWhitespace, tsimple_json_protocol.go:815-831: only what is buffered is looked at. *)
Fixpoint ws_prefix (s : bytes) : nat :=
  match s with c :: s' => if is_ws c then S (ws_prefix s') else O | [] => O end.
Definition skip_ws (b : breader) : breader := b_advance (ws_prefix (b_un b)) b.

(** ParsePreValue, tsimple_json_protocol.go:733-791 *)
Definition ParsePreValue : wop jr :=
  fun '(b, l) =>
    let b1 := skip_ws b in
    match l with
    | [] => Panic
    | c :: _ =>
      match b_un b1 with
      | [] => Ok (None, (b1, l))
      | x :: _ =>
        let eat := Ok (None, (skip_ws (b_advance 1 b1), l)) in
        let bad := Ok (Some (EProtocol INVALID_DATA), (b1, l)) in
        match c with
        | InList => if x =? 93 then Ok (None, (b1, l)) else if x =? 44 then eat else bad
        | NextKey => if x =? 125 then Ok (None, (b1, l)) else if x =? 44 then eat else bad
        | NextValue => if x =? 58 then eat else bad
        | _ => Ok (None, (b1, l))
        end
      end
    end.
(** ParsePostValue, tsimple_json_protocol.go:793-813 *)
Definition ParsePostValue : wop jr :=
  fun '(b, l) =>
    match l with
    | [] => Panic
    | c :: _ => Ok (None, (skip_ws b, set_ctx (after_value c) l))
    end.

(** A step of a reading method: on an error return it with the result so far. *)
Definition pre {A} (a : A) (k : rop jr A) : rop jr A :=
  fun s => '(e, s1) <- ParsePreValue s ;;
           match e with Some _ => Ok (a, e, s1) | None => k s1 end.
Definition post {A} (a : A) : rop jr A :=
  fun s => '(e, s1) <- ParsePostValue s ;; Ok (a, e, s1).

(** The number of backslashes before the last byte; the loop of 841-846 counts one more. *)
Fixpoint count_while (c : Z) (s : bytes) : nat :=
  match s with x :: s' => if x =? c then S (count_while c s') else O | [] => O end.
Definition backslashes (line : bytes) : nat := count_while 92 (tl (rev line)).

(** ParseQuotedStringBody, tsimple_json_protocol.go:865-887 *)
Fixpoint ParseQuotedStringBody (fuel : nat) (b : breader) : outcome ((bytes + option err) * breader) :=
  match fuel with
  | O => OutOfFuel
  | S f =>
    match b_until 34 b with
    | (_, Some e, b1) => Ok (inr (protocol_exc_from_os (Some e)), b1)
    | (line, None, b1) =>
      if Nat.even (backslashes line) then Ok (inl line, b1)
      else '(r, b2) <- ParseQuotedStringBody f b1 ;;
           match r with
           | inl s => Ok (inl (line ++ s), b2)
           | inr e => Ok (inr (protocol_exc_from_os e), b2)
           end
    end
  end.
Definition str_fuel (b : breader) : nat := S (length (b_un b ++ List.concat (map fst (b_rt b)))).
(** ParseStringBody, tsimple_json_protocol.go:833-863: a literal that JsonUnquote rejects is reported with the error of the
    ReadString that succeeded, that is with none. *)
Definition ParseStringBody (b : breader) : outcome (bytes * option err * breader) :=
  match b_until 34 b with
  | (_, Some e, b1) => Ok ([], protocol_exc_from_os (Some e), b1)
  | (line, None, b1) =>
    if Nat.even (backslashes line) then
      match json_unquote ([34] ++ line) with
      | Some v => Ok (v, None, b1)
      | None => Ok ([], None, b1)
      end
    else
      '(r, b2) <- ParseQuotedStringBody (str_fuel b1) b1 ;;
      match r with
      | inr e => Ok ([], protocol_exc_from_os e, b2)
      | inl s =>
        match json_unquote ([34] ++ line ++ s) with
        | Some v => Ok (v, None, b2)
        | None => Ok ([], Some (EProtocol INVALID_DATA), b2)
        end
      end
  end.
(** ParseBase64EncodedBody, tsimple_json_protocol.go:889-899 *)
Definition ParseBase64EncodedBody (b : breader) : outcome (bytes * option err * breader) :=
  match b_until 34 b with
  | (line, Some e, b1) => Ok (line, protocol_exc_from_os (Some e), b1)
  | (line, None, b1) =>
    let '(v, ok) := b64_decode (removelast line) [] in
    Ok (v, protocol_exc_from_os (if ok then None else Some EBase64), b1)
  end.

(** readIfNull, tsimple_json_protocol.go:1112-1139 *)
Definition readIfNull (b : breader) : bool * breader :=
  let b1 := skip_ws b in
  match b_un b1 with
  | [] => (false, b1)
  | x :: _ =>
    if x =? 110 then
      let '(p, _, b2) := b_peek 4 b1 in
      if beq p (lit "null") then (true, snd (b_read 4 b2)) else (false, b2)
    else (false, b1)
  end.
(** readQuoteIfNext, tsimple_json_protocol.go:1141-1149 *)
Definition readQuoteIfNext (b : breader) : breader :=
  match b_un b with
  | 34 :: _ => b_advance 1 b
  | _ => b
  end.

(** tnumeric.go: the int64 and the float64 of a Numeric; the errors of ParseInt and ParseFloat are
    dropped. *)
Definition num := (Z * Z)%type.
Definition NUMERIC_NULL : num := (0, 0).
Definition NewNumericFromJSONString (J : jenv) (s : bytes) : num :=
  if beq s (lit "Infinity") then (0, INF)
  else if beq s (lit "-Infinity") then (0, NEG_INF)
  else if beq s (lit "NaN") then (0, GO_NAN)
  else (fst (ParseInt s 64), fst (x_parse_float (j_ext J) s)).

(** readNumeric, tsimple_json_protocol.go:1151-1267: [buf] the characters so far, [pt] hasDecimalPoint, [sg] nextCanBeSign,
    [ex] hasE, [q] inQuotes.  A closing quote does not end the number. *)
Definition is_term (c : Z) : bool :=
  is_ws c || (c =? 0) || (c =? 125) || (c =? 93) || (c =? 44) || (c =? 58).
(** A literal whose first characters [got] have been read: one Read for the others, which may be
    short (the buffer keeps zeros then). *)
Definition read_literal (got word : bytes) (v : num) (q : bool) (b : breader) : (num * option err) * breader :=
  let n := (length word - length got)%nat in
  match b_read n b with
  | (_, Some e, b1) => ((NUMERIC_NULL, protocol_exc_from_os (Some e)), b1)
  | (d, None, b1) =>
    if beq (got ++ pad n d) word then ((v, None), if q then readQuoteIfNext b1 else b1)
    else ((NUMERIC_NULL, Some (EProtocol INVALID_DATA)), b1)
  end.
Fixpoint numeric_loop (J : jenv) (fuel : nat) (buf : bytes) (pt sg ex q : bool) (b : breader)
  : outcome ((num * option err) * breader) :=
  match fuel with
  | O => OutOfFuel
  | S f =>
    let bad b := Ok ((NUMERIC_NULL, Some (EProtocol INVALID_DATA)), b) in
    let finish b :=
      match buf with
      | [] => bad b
      | _ => Ok ((NewNumericFromJSONString J buf, None), b)
      end in
    match b_byte b with
    | (inr EEof, b1) => finish b1
    | (inr e, b1) => Ok ((NUMERIC_NULL, protocol_exc_from_os (Some e)), b1)
    | (inl c, b1) =>
      if is_digit c then numeric_loop J f (buf ++ [c]) pt false ex q b1
      else if c =? 46 then
        if pt then bad b1 else if ex then bad b1 else numeric_loop J f (buf ++ [c]) true false ex q b1
      else if (c =? 101) || (c =? 69) then
        if ex then bad b1 else numeric_loop J f (buf ++ [c]) pt true true q b1
      else if (c =? 45) || (c =? 43) then
        if sg then numeric_loop J f (buf ++ [c]) pt false ex q b1 else bad b1
      else if is_term c then finish (b_unread c b1)
      else if c =? 78 then
        match buf with
        | [] => Ok (read_literal [c] (lit "NaN") (0, GO_NAN) q b1)
        | _ => bad b1
        end
      else if c =? 73 then
        if beq buf [] || beq buf [43] then Ok (read_literal [c] (lit "Infinity") (0, INF) q b1)
        else if beq buf [45] then Ok (read_literal [45; c] (lit "-Infinity") (0, NEG_INF) q b1)
        else bad b1
      else if c =? 34 then numeric_loop J f buf pt sg ex true b1
      else bad b1
    end
  end.
Definition readNumeric (J : jenv) (b : breader) : outcome ((num * option err) * breader) :=
  let '(isnull, b1) := readIfNull b in
  if isnull then Ok ((NUMERIC_NULL, None), b1)
  else numeric_loop J (str_fuel b1) [] false true false false b1.

(** ParseI64 and ParseF64, tsimple_json_protocol.go:901-945; [pick] is Int64() or Float64(). *)
Definition ParseNum (J : jenv) (pick : num -> Z) : rop jr Z :=
  pre 0 (fun '(b, l) =>
    let '(p, _, b1) := b_peek 4 b in
    if beq p (lit "null") then post 0 (snd (b_read 4 b1), l)
    else '(v, e, b2) <- readNumeric J b1 ;;
         match e with
         | Some _ => Ok (pick v, e, (b2, l))
         | None => post (pick v) (b2, l)
         end).
Definition ReadI64 (J : jenv) : rop jr Z := ParseNum J fst.
Definition ReadDouble (J : jenv) : rop jr Z := ParseNum J snd.
Definition rconv (f : Z -> Z) (m : rop jr Z) : rop jr Z := fun s => '(v, e, s') <- m s ;; Ok (f v, e, s').
Definition ReadByte (J : jenv) := rconv (wrapu 8) (ReadI64 J).
Definition ReadI16 (J : jenv) := rconv (wraps 16) (ReadI64 J).
Definition ReadI32 (J : jenv) := rconv (wraps 32) (ReadI64 J).

(** ReadBool, tsimple_json_protocol.go:426-462 and tjson_protocol.go:312-348: [b[0:4]] and [b[0:5]] may reach behind the
    peeked bytes, into the old contents of the buffer; behind its end they panic.
    Reading into the peeked slice copies the bytes onto themselves. *)
Definition ReadBool : rop jr bool :=
  pre false (fun '(b, l) =>
    let '(p, _, b1) := b_peek 5 b in
    let word w v :=
      if (length (b_un b1 ++ b_after b1) <? length w)%nat then Panic
      else if beq (firstn (length w) (b_un b1 ++ b_after b1)) w
           then post v (snd (b_read (length w) b1), l)
           else bad_data false (b1, l) in
    match p with
    | [] => post false (b1, l)
    | c :: _ =>
      if c =? 116 then word (lit "true") true
      else if c =? 102 then word (lit "false") false
      else if c =? 110 then word (lit "null") false
      else bad_data false (b1, l)
    end).

(** ReadString, ReadBinary, tsimple_json_protocol.go:489-535 *)
Definition read_quoted (body : breader -> outcome (bytes * option err * breader)) : rop jr bytes :=
  pre [] (fun '(b, l) =>
    let '(p, _, b1) := b_peek 4 b in
    match p with
    | 34 :: _ =>
      '(v, e, b2) <- body (snd (b_byte b1)) ;;
      match e with
      | Some _ => Ok (v, e, (b2, l))
      | None => post v (b2, l)
      end
    | _ =>
      if beq p (lit "null") then
        match b_read 4 b1 with
        | (_, Some e, b2) => Ok ([], protocol_exc_from_os (Some e), (b2, l))
        | (_, None, b2) => post [] (b2, l)
        end
      else bad_data [] (b1, l)
    end).
Definition ReadString : rop jr bytes := read_quoted ParseStringBody.
Definition ReadBinary : rop jr bytes := read_quoted ParseBase64EncodedBody.

(** ParseObjectStart, tsimple_json_protocol.go:947-960: a null is left where it is. *)
Definition ParseObjectStart : rop jr bool :=
  pre false (fun '(b, l) =>
    let '(p, _, b1) := b_peek 4 b in
    match p with
    | 123 :: _ => Ok (false, None, (snd (b_byte b1), ObjFirst :: l))
    | _ => if beq p (lit "null") then Ok (true, None, (b1, l)) else bad_data false (b1, l)
    end).
(** ParseListBegin, tsimple_json_protocol.go:986-999 *)
Definition ParseListBegin : rop jr bool :=
  pre false (fun '(b, l) =>
    let '(p, ok, b1) := b_peek 4 b in
    match p with
    | 91 :: _ => if ok then Ok (false, None, (snd (b_byte b1), ListFirst :: l)) else bad_data false (b1, l)
    | _ => if ok && beq p (lit "null") then Ok (true, None, (b1, l)) else bad_data false (b1, l)
    end).
(** ParseObjectEnd, tsimple_json_protocol.go:962-984, and ParseListEnd, 1015-1036 *)
Definition parse_end (inside : ctx -> bool) (close : Z) : wop jr :=
  fun '(b, l) =>
    let '(isnull, b1) := readIfNull b in
    if isnull then Ok (None, (b1, l))
    else match l with
         | [] => Panic
         | c :: l' =>
           if inside c then
             match b_until close b1 with
             | (_, Some e, b2) => Ok (protocol_exc_from_os (Some e), (b2, l))
             | (line, None, b2) =>
               if forallb (fun c => is_ws c || (c =? close)) line then ParsePostValue (b2, l')
               else Ok (Some (EProtocol INVALID_DATA), (b2, l))
             end
           else Ok (Some (EProtocol INVALID_DATA), (b1, l))
         end.
Definition ParseObjectEnd : wop jr := parse_end is_key 125.
Definition ParseListEnd : wop jr := parse_end (fun c => match c with InList => true | _ => false end) 93.

(** ParseElemListBegin, tsimple_json_protocol.go:1001-1013 *)
Definition ParseElemListBegin (J : jenv) : rop jr (Z * Z) :=
  fun s =>
    '(isnull, e, s1) <- ParseListBegin s ;;
    match isnull, e with
    | false, None =>
      '(t, e, s2) <- ReadByte J s1 ;;
      match e with
      | Some _ => Ok ((t, 0), e, s2)
      | None => '(n, e, s3) <- ReadI64 J s2 ;; Ok ((t, n), e, s3)
      end
    | _, _ => Ok ((VOID, 0), e, s1)
    end.

(** The part of ReadMessageBegin common to both protocols. *)
Definition read_envelope (J : jenv) : rop jr (bytes * Z * Z) :=
  fun s =>
    '(name, e, s1) <- ReadString s ;;
    match e with
    | Some _ => Ok ((name, 0, 0), e, s1)
    | None =>
      '(t, e, s2) <- ReadByte J s1 ;;
      match e with
      | Some _ => Ok ((name, t, 0), e, s2)
      | None => '(id, e, s3) <- ReadI32 J s2 ;; Ok ((name, t, id), e, s3)
      end
    end.
(** tsimple_json_protocol.go:305-321 *)
Definition sReadMessageBegin (J : jenv) : rop jr (bytes * Z * Z) :=
  fun s =>
    '(isnull, e, s1) <- ParseListBegin s ;;
    match isnull, e with
    | false, None => read_envelope J s1
    | _, _ => Ok (([], 0, 0), e, s1)
    end.
Definition ReadStructBegin : rop jr bytes := fun s => '(_, e, s1) <- ParseObjectStart s ;; Ok ([], e, s1).
(** tsimple_json_protocol.go:336-374 *)
Definition sReadFieldBegin : rop jr (bytes * Z * Z) :=
  pre ([], STOP, 0) (fun '(b, l) =>
    match b_un b with
    | [] => Ok (([], STOP, 0), None, (b, l))
    | 125 :: _ => Ok (([], STOP, 0), None, (b, l))
    | 34 :: _ =>
      '(name, e, b2) <- ParseStringBody (b_advance 1 b) ;;
      match e with
      | Some _ => Ok ((name, STOP, 0), e, (b2, l))
      | None => post (name, GENERIC, -1) (b2, l)
      end
    | _ => bad_data ([], STOP, 0) (b, l)
    end).
(** tsimple_json_protocol.go:381-404 *)
Definition sReadMapBegin (J : jenv) : rop jr (Z * Z * Z) :=
  fun s =>
    '(isnull, e, s1) <- ParseListBegin s ;;
    match isnull, e with
    | false, None =>
      '(kt, e, s2) <- ReadByte J s1 ;;
      match e with
      | Some _ => Ok ((kt, 0, 0), e, s2)
      | None =>
        '(vt, e, s3) <- ReadByte J s2 ;;
        match e with
        | Some _ => Ok ((kt, vt, 0), e, s3)
        | None => '(n, e, s4) <- ReadI64 J s3 ;; Ok ((kt, vt, n), e, s4)
        end
      end
    | _, _ => Ok ((VOID, VOID, 0), e, s1)
    end.
Definition simpleR (J : jenv) : rproto jr := MkRproto jr
  (sReadMessageBegin J) ParseListEnd ReadStructBegin ParseObjectEnd
  sReadFieldBegin nop (sReadMapBegin J) ParseListEnd
  (ParseElemListBegin J) ParseListEnd (ParseElemListBegin J) ParseListEnd
  ReadBool (ReadByte J) (ReadI16 J) (ReadI32 J) (ReadI64 J) (ReadDouble J) ReadString ReadBinary.

(** tjson_protocol.go:204-227 *)
Definition jReadMessageBegin (J : jenv) : rop jr (bytes * Z * Z) :=
  fun s =>
    '(isnull, e, s1) <- ParseListBegin s ;;
    match isnull, e with
    | false, None =>
      '(version, e, s2) <- ReadI32 J s1 ;;
      match e with
      | Some _ => Ok (([], 0, 0), e, s2)
      | None => if version =? 1 then read_envelope J s2 else bad_data ([], 0, 0) s2
      end
    | _, _ => Ok (([], 0, 0), e, s1)
    end.
(** tjson_protocol.go:243-261 *)
Definition jReadFieldBegin (J : jenv) : rop jr (bytes * Z * Z) :=
  fun s =>
    match b_un (fst s) with
    | [] => Ok (([], STOP, -1), None, s)
    | x :: _ =>
      if (x =? 125) || (x =? 93) then Ok (([], STOP, -1), None, s)
      else
        '(id, e, s1) <- ReadI16 J s ;;
        match e with
        | Some _ => Ok (([], STOP, id), e, s1)
        | None =>
          '(_, e, s2) <- ParseObjectStart s1 ;;
          match e with
          | Some _ => Ok (([], STOP, id), e, s2)
          | None => '(ty, e, s3) <- ReadString s2 ;; Ok (([], StringToTypeId ty, id), e, s3)
          end
        end
    end.
(** tjson_protocol.go:267-290 *)
Definition jReadMapBegin (J : jenv) : rop jr (Z * Z * Z) :=
  fun s =>
    '(isnull, e, s1) <- ParseListBegin s ;;
    match isnull, e with
    | false, None =>
      '(kt, e, s2) <- ReadString s1 ;;
      match e with
      | Some _ => Ok ((StringToTypeId kt, 0, 0), e, s2)
      | None =>
        '(vt, e, s3) <- ReadString s2 ;;
        match e with
        | Some _ => Ok ((StringToTypeId kt, StringToTypeId vt, 0), e, s3)
        | None => '(n, e, s4) <- ReadI64 J s3 ;; Ok ((StringToTypeId kt, StringToTypeId vt, n), e, s4)
        end
      end
    | _, _ => Ok ((VOID, VOID, 0), e, s1)
    end.
Definition jsonR (J : jenv) : rproto jr := MkRproto jr
  (jReadMessageBegin J) ParseListEnd ReadStructBegin ParseObjectEnd
  (jReadFieldBegin J) ParseObjectEnd (jReadMapBegin J) ParseListEnd
  (ParseElemListBegin J) ParseListEnd (ParseElemListBegin J) ParseListEnd
  ReadBool (ReadByte J) (ReadI16 J) (ReadI32 J) (ReadI64 J) (ReadDouble J) ReadString ReadBinary.

(** Test runs. *)
Definition st10 : jstyle := MkStyle (fun c => (c =? 60) || (c =? 62)) (fun c => (c =? 10) || (c =? 13)) false.
