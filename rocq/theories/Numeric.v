(** tnumeric.go, tmessage.go, texception.go: small values of the library. *)
From Coq Require Import ZArith List Bool String.
From Verif Require Import Base Arith F64 Strconv TField GoVal Names Json.
Import ListNotations.
Open Scope Z_scope.
Open Scope list_scope.

(** ** tnumeric.go *)

(** numeric, :39-44 *)
Record numeric : Type := MkNumeric { nu_i : Z; nu_d : Z; nu_s : bytes; nu_null : bool }.

(** init, :158-164 *)
Definition INFINITY : numeric := MkNumeric 0 INF (lit "Infinity") false.
Definition NEGATIVE_INFINITY : numeric := MkNumeric 0 NEG_INF (lit "-Infinity") false.
Definition NAN : numeric := MkNumeric 0 GO_NAN (lit "NaN") false.

(** NewNumericFromDouble, :54-68.  [fmt] is strconv.FormatFloat(_, 'g', 10, 64). *)
Definition NewNumericFromDouble (x : ext) (fmt : Z -> bytes) (d : Z) : numeric :=
  if d =? INF then INFINITY
  else if d =? NEG_INF then NEGATIVE_INFINITY
  else if f64_is_nan d then NAN
  else MkNumeric (i64_of_f64 (x_f2i x) d) d (fmt d) false.

(** NewNumericFromI64 and NewNumericFromI32, :70-82: string(iValue) is the character of that
    code point. *)
Definition NewNumericFromI64 (z : Z) : numeric := MkNumeric z (f64_of_Z z) (utf8_encode z) false.

(** NewNumericFromString, :84-98 *)
Definition NewNumericFromString (x : ext) (s : bytes) : numeric :=
  if beq s (nu_s INFINITY) then INFINITY
  else if beq s (nu_s NEGATIVE_INFINITY) then NEGATIVE_INFINITY
  else if beq s (nu_s NAN) then NAN
  else MkNumeric (fst (ParseInt s 64)) (fst (x_parse_float x s)) s (match s with [] => true | _ => false end).

(** NewNullNumeric, :117-119; NewNumericFromJSONString, :100-115 (the constants JSON_INFINITY, ... are
    those of tsimple_json_protocol.go:150-152). *)
Definition NewNullNumeric : numeric := MkNumeric 0 0 [] true.
Definition NumericFromJSON (x : ext) (s : bytes) (isNull : bool) : numeric :=
  if isNull then NewNullNumeric
  else if beq s (lit "Infinity") then INFINITY
  else if beq s (lit "-Infinity") then NEGATIVE_INFINITY
  else if beq s (lit "NaN") then NAN
  else MkNumeric (fst (ParseInt s 64)) (fst (x_parse_float x s)) s isNull.

(** The accessors, :121-156; int is 64 bits wide.  Float32 rounds and is left out. *)
Definition Int64 (n : numeric) : Z := nu_i n.
Definition Int32 (n : numeric) : Z := wraps 32 (nu_i n).
Definition Int16 (n : numeric) : Z := wraps 16 (nu_i n).
Definition Byte (n : numeric) : Z := wrapu 8 (nu_i n).
Definition Int (n : numeric) : Z := nu_i n.
Definition Float64 (n : numeric) : Z := nu_d n.
Definition Num_String (n : numeric) : bytes := nu_s n.
Definition isNull (n : numeric) : bool := nu_null n.

(** ** tmessage.go *)

(** tMessage, :32-56; Equals, :62-64; String, :58-60, where string(i) is again a character. *)
Record tmessage : Type := MkTMessage { tm_name : bytes; tm_type : Z; tm_seq : Z }.
Definition msg_Equals (p other : tmessage) : bool :=
  str_eq (tm_name p) (tm_name other) && (tm_type p =? tm_type other) && (tm_seq p =? tm_seq other).
Definition msg_String (p : tmessage) : bytes :=
  lit "<TMessage name:'" ++ tm_name p ++ lit "' type: " ++ utf8_encode (tm_type p) ++ lit " seqid:" ++
  utf8_encode (tm_seq p) ++ lit ">".
