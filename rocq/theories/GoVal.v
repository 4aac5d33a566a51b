(** Dynamic Go values (interface{}) as the library inspects them. *)
From Coq Require Import ZArith List Bool Lia.
From Verif Require Import Base Arith F64 Strconv TField.
Import ListNotations.
Open Scope Z_scope.

(** Kinds of values no case of the library's type switches accepts, apart from
    TypeFromValue, which knows the first two. *)
Inductive okind : Type :=
| OSlice      (* []interface{}: not comparable *)
| OListPtr    (* *list.List *)
| OValue.     (* any other comparable value *)

(** The first argument [a] of pointer-like values is their address; equality of interfaces
    compares addresses ([same_obj]).  Integers carry their Go type; floats are bit patterns; [int] and
    [uint] are 64 bits wide.  Containers reached through a pointer are snapshots of the
    pointed-to object: aliasing between containers is not modelled. *)
Inductive any : Type :=
| ANil
| ABool (b : bool)
| AInt (z : Z) | AByte (z : Z) | AInt8 (z : Z) | AInt16 (z : Z) | AInt32 (z : Z) | AInt64 (z : Z)
| AUint (z : Z) | AUint16 (z : Z) | AUint32 (z : Z) | AUint64 (z : Z)
| AF32 (bits : Z) | AF64 (bits : Z)
| AStr (s : bytes)
| ABytes (s : bytes)
| ANum (a iv dv : Z) (sv : bytes)          (* *numeric, tnumeric.go:38-43 *)
| AEnum (ty v : Z) (str : bytes)           (* a generated enum: Enumer, ttype.go:516-520 *)
| AStringer (a : Z) (str : bytes)          (* pointer to any other type with String() *)
| ATType (t : Z)                           (* TType, which has String(): ttype.go:66-104 *)
| AList (a et : Z) (l : list any)                              (* *tList *)
| ASet (a et size : Z) (l : list any)                          (* *tSet *)
| AMap (a kt vt size : Z) (l b : list (any * any))             (* *tMap: list part, Go map part *)
| AStruct (a : Z) (name : bytes) (fields : fcont) (attrs : list (Z * any))  (* TStruct *)
| AOther (k : okind) (a : Z).

(** TType.String, ttype.go:66-104 (as bytes). *)
Definition TType_String (t : Z) : bytes :=
  if t =? STOP then [83; 84; 79; 80]
  else if t =? VOID then [86; 79; 73; 68]
  else if t =? BOOL then [66; 79; 79; 76]
  else if t =? BYTE then [66; 89; 84; 69]
  else if t =? DOUBLE then [68; 79; 85; 66; 76; 69]
  else if t =? I16 then [73; 49; 54]
  else if t =? I32 then [73; 51; 50]
  else if t =? I64 then [73; 54; 52]
  else if t =? STRING then [83; 84; 82; 73; 78; 71]
  else if t =? STRUCT then [83; 84; 82; 85; 67; 84]
  else if t =? MAP then [77; 65; 80]
  else if t =? SET then [83; 69; 84]
  else if t =? LIST then [76; 73; 83; 84]
  else if t =? ENUM then [69; 78; 85; 77]
  else if t =? UTF16 then [85; 84; 70; 49; 54]
  else if t =? GENERIC then [71; 69; 78; 69; 82; 73; 67]
  else if t =? BINARY then [66; 73; 78; 65; 82; 89]
  else [85; 110; 107; 110; 111; 119; 110].

(** data.(Stringer), with its String(): Numeric (tnumeric.go:152), enums, TType, TStruct
    (tstruct.go:67-69 returns the name; generated structs print themselves, [name] here). *)
Definition as_stringer (d : any) : option bytes :=
  match d with
  | ANum _ _ _ s => Some s
  | AEnum _ _ s => Some s
  | AStringer _ s => Some s
  | ATType t => Some (TType_String t)
  | AStruct _ n _ _ => Some n
  | _ => None
  end.

(** == on interface{} values.  Different dynamic types are unequal; two values of the same
    non-comparable type make the comparison panic. *)
Definition go_eq (i j : any) : outcome bool :=
  match i, j with
  | ANil, ANil => Ok true
  | ABool a, ABool b => Ok (eqb a b)
  | AInt a, AInt b | AByte a, AByte b | AInt8 a, AInt8 b | AInt16 a, AInt16 b
  | AInt32 a, AInt32 b | AInt64 a, AInt64 b | AUint a, AUint b | AUint16 a, AUint16 b
  | AUint32 a, AUint32 b | AUint64 a, AUint64 b | ATType a, ATType b => Ok (a =? b)
  | AF32 a, AF32 b => Ok (f32_eq a b)
  | AF64 a, AF64 b => Ok (f64_eq a b)
  | AStr a, AStr b => Ok (str_eq a b)
  | ABytes _, ABytes _ => Panic
  | ANum a _ _ _, ANum b _ _ _ => Ok (a =? b)
  | AEnum t a _, AEnum u b _ => Ok ((t =? u) && (a =? b))
  | AStringer a _, AStringer b _ => Ok (a =? b)
  | AList a _ _, AList b _ _ => Ok (same_obj a b)
  | ASet a _ _ _, ASet b _ _ _ => Ok (same_obj a b)
  | AMap a _ _ _ _ _, AMap b _ _ _ _ _ => Ok (same_obj a b)
  | AStruct a _ _ _, AStruct b _ _ _ => Ok (same_obj a b)
  | AOther OSlice _, AOther OSlice _ => Panic
  | AOther OListPtr a, AOther OListPtr b => Ok (a =? b)
  | AOther OValue a, AOther OValue b => Ok (a =? b)
  | _, _ => Ok false
  end.

Definition is_nil (d : any) : bool := match d with ANil => true | _ => false end.

(** Library routines whose results are not computed here: shortest 'g' formatting and
    parsing of floats (strconv), out-of-range float to integer conversion (implementation
    defined in Go), the iteration order of Go maps (any function; theorems that need it
    assume it permutes), and reflect.DeepEqual. *)
Record ext : Type := MkExt {
  x_fmt32 : Z -> bytes;
  x_fmt64 : Z -> bytes;
  x_parse_float : bytes -> Z * option numerr;
  x_f2i : Z -> Z;
  x_order : Z -> list (any * any) -> list (any * any);
  x_deep_eq : any -> any -> bool
}.

(** ** Type predicates, ttype.go:106-214 *)
Definition mem (t : Z) (l : list Z) : bool := existsb (Z.eqb t) l.
Definition IsBaseType (p : Z) : bool :=
  mem p [BOOL; BYTE; DOUBLE; I16; I32; I64; STRING; UTF8; UTF16; BINARY].
Definition IsEmptyType (p : Z) : bool := mem p [STOP; VOID].
Definition IsEnum (p : Z) : bool := mem p [ENUM].
Definition IsNumericType (p : Z) : bool := mem p [ENUM; BOOL; BYTE; DOUBLE; I16; I32; I64].
Definition IsStringType (p : Z) : bool := mem p [STRING; UTF8; UTF16; BINARY].
Definition IsContainer (p : Z) : bool := mem p [MAP; SET; LIST].
Definition IsStruct (p : Z) : bool := mem p [STRUCT].
Definition IsMap (p : Z) : bool := mem p [MAP].
Definition IsList (p : Z) : bool := mem p [LIST].
Definition IsSet (p : Z) : bool := mem p [SET].
Definition IsInt (p : Z) : bool := mem p [BYTE; I16; I32; I64].

(** TType.ThriftTypeId, ttype.go:56-64. *)
Definition ThriftTypeId (p : Z) : Z := if p =? BINARY then STRING else p.

(** TypeFromValue, ttype.go:520-554. *)
Definition TypeFromValue (d : any) : Z :=
  match d with
  | ANil => VOID
  | ABool _ => BOOL
  | AF32 _ | AF64 _ => DOUBLE
  | AInt _ | AInt32 _ => I32
  | AByte _ => BYTE
  | AInt8 _ => BYTE
  | AInt16 _ => I16
  | AInt64 _ => I64
  | AStr _ => STRING
  | ABytes _ => BINARY
  | AStruct _ _ _ _ => STRUCT
  | AMap _ _ _ _ _ _ => MAP
  | ASet _ _ _ _ => SET
  | AOther OSlice _ | AOther OListPtr _ | AList _ _ _ => LIST
  | _ => STOP
  end.

(** Values new objects get from NewTStructEmpty(""), NewTMapDefault, NewTListDefault and
    NewTSetDefault (tstruct.go:41-46, tmap.go:89-91, tlist.go:56-58, tset.go:53-55).  A fresh
    object has an address of its own; here [fresh]. *)
Definition fresh : Z := -1.
Definition NewTStructEmpty : any := AStruct fresh [] (NewTFieldContainer fresh []) [].
Definition NewTMapDefault : any := AMap fresh STOP STOP 0 [] [].
Definition NewTListDefault : any := AList fresh STOP [].
Definition NewTSetDefault : any := ASet fresh STOP 0 [].

(** ** CoerceData, ttype.go:556-1097 *)

(** data == nil, ttype.go:557-590. *)
Definition coerce_nil (p : Z) : outcome (any * bool) :=
  if p =? STOP then Ok (ANil, true)
  else if p =? VOID then Ok (ANil, true)
  else if p =? BOOL then Ok (ABool false, true)
  else if p =? BYTE then Ok (AByte 0, true)
  else if p =? DOUBLE then Ok (AF64 0, true)
  else if p =? I16 then Ok (AInt16 0, true)
  else if p =? I32 then Ok (AInt32 0, true)
  else if p =? I64 then Ok (AInt64 0, true)
  else if (p =? STRING) || (p =? UTF8) || (p =? UTF16) then Ok (AStr [], true)
  else if p =? BINARY then Ok (ANil, true)
  else if p =? STRUCT then Ok (NewTStructEmpty, true)
  else if p =? MAP then Ok (NewTMapDefault, true)
  else if p =? LIST then Ok (NewTListDefault, true)
  else if p =? SET then Ok (NewTSetDefault, true)
  else Panic.

Definition s_false : bytes := [102; 97; 108; 115; 101].
Definition s_true : bytes := [116; 114; 117; 101].
Definition str_bool (v : bytes) : bool :=
  negb (str_eq v s_false || str_eq v [48] || (length v =? 0)%nat).

(** BOOL, ttype.go:597-644. *)
Definition coerce_bool (d : any) : any * bool :=
  match d with
  | ABool b => (ABool b, true)
  | ANum _ iv _ _ => (ABool (negb (iv =? 0)), true)
  | AInt z | AByte z | AInt8 z | AInt16 z | AInt32 z | AInt64 z
  | AUint z | AUint16 z | AUint32 z | AUint64 z => (ABool (negb (z =? 0)), true)
  | AF32 b => (ABool (f32_nonzero b), true)
  | AF64 b => (ABool (f64_nonzero b), true)
  | ABytes b =>
    (ABool ((1 <? length b)%nat || ((length b =? 1)%nat && negb (nth 0 b 0 =? 0))), true)
  | AStr s => (ABool (str_bool s), true)
  | _ => match as_stringer d with
         | Some s => (ABool (str_bool s), true)
         | None => (ABool false, false)
         end
  end.

(** The integer a value of one of Go's integer or boolean types holds. *)
Definition as_integer (d : any) : option Z :=
  match d with
  | ABool b => Some (if b then 1 else 0)
  | AInt z | AByte z | AInt8 z | AInt16 z | AInt32 z | AInt64 z
  | AUint z | AUint16 z | AUint32 z | AUint64 z => Some z
  | _ => None
  end.

(** The string cases shared by the numeric targets, e.g. ttype.go:705-714: a Stringer is
    replaced by its text; the parse result is used when there IS an error. *)
Definition coerce_text (conv : Z -> any) (zero : any) (d : any) : any * bool :=
  match (match d with AStr s => Some s | _ => as_stringer d end) with
  | Some s =>
    match ParseInt s 64 with
    | (i, Some _) => (conv i, true)
    | (_, None) => (zero, false)
    end
  | None => (zero, false)
  end.

Section Coerce.
Variable x : ext.

Definition f_to_int (b : Z) : Z := i64_of_f64 (x_f2i x) b.

(** BYTE, ttype.go:645-714. *)
Definition coerce_byte (d : any) : any * bool :=
  let conv z := AByte (wrapu 8 z) in
  match d with
  | ANum _ iv _ _ => (conv iv, true)
  | AF32 b => (conv (f_to_int (f64_of_f32 b)), true)
  | AF64 b => (conv (f_to_int b), true)
  | ABytes b => (AByte (nth 0 b 0), true)
  | _ => match as_integer d with
         | Some z => (conv z, true)
         | None => coerce_text conv (AByte 0) d
         end
  end.

(** DOUBLE, ttype.go:715-785. *)
Definition coerce_double (d : any) : any * bool :=
  match d with
  | AF32 b => (AF64 (f64_of_f32 b), true)
  | AF64 b => (AF64 b, true)
  | ANum _ _ dv _ => (ABool (f64_nonzero dv), true)
  | ABytes b => (AF64 (f64_of_Z (nth 0 b 0)), true)
  | _ => match as_integer d with
         | Some z => (AF64 (f64_of_Z z), true)
         | None =>
           match (match d with AStr s => Some s | _ => as_stringer d end) with
           | Some s => match x_parse_float x s with
                       | (v, Some _) => (AF64 v, true)
                       | (_, None) => (AF64 0, false)
                       end
           | None => (AF64 0, false)
           end
         end
  end.

(** I16, I32, I64: ttype.go:786-985.  A Numeric becomes a bool. *)
Definition coerce_int (bits : Z) (conv : Z -> any) (d : any) : any * bool :=
  let cv z := conv (wraps bits z) in
  match d with
  | ANum _ iv _ _ => (ABool (negb (wraps bits iv =? 0)), true)
  | AF32 b => (cv (f_to_int (f64_of_f32 b)), true)
  | AF64 b => (cv (f_to_int b), true)
  | _ => match as_integer d with
         | Some z => (cv z, true)
         | None => coerce_text cv (conv 0) d
         end
  end.

(** The text a value becomes under STRING, UTF8, UTF16 (ttype.go:986-1036) and BINARY
    (1037-1088); integers go through string(i), i.e. a code point. *)
Definition text_of (d : any) : option bytes :=
  match d with
  | ABytes b => Some b
  | AStr s => Some s
  | ABool b => Some (if b then s_true else s_false)
  | AInt z | AByte z | AInt8 z | AInt16 z | AInt32 z | AInt64 z
  | AUint z | AUint16 z | AUint32 z | AUint64 z => Some (utf8_encode z)
  | AF32 b => Some (x_fmt32 x b)
  | AF64 b => Some (x_fmt64 x b)
  | _ => as_stringer d
  end.

Definition CoerceData (p : Z) (d : any) : outcome (any * bool) :=
  match d with
  | ANil => coerce_nil p
  | _ =>
    if p =? STOP then Ok (ANil, true)
    else if p =? VOID then Ok (ANil, true)
    else if p =? BOOL then Ok (coerce_bool d)
    else if p =? BYTE then Ok (coerce_byte d)
    else if p =? DOUBLE then Ok (coerce_double d)
    else if p =? I16 then Ok (coerce_int 16 AInt16 d)
    else if p =? I32 then Ok (coerce_int 32 AInt32 d)
    else if p =? I64 then Ok (coerce_int 64 AInt64 d)
    else if (p =? STRING) || (p =? UTF8) || (p =? UTF16) then
      Ok (match text_of d with Some s => (AStr s, true) | None => (AStr [], false) end)
    else if p =? BINARY then
      Ok (match text_of d with Some s => (ABytes s, true) | None => (AStr [], false) end)
    else if p =? STRUCT then
      Ok (match d with AStruct _ _ _ _ => d | _ => NewTStructEmpty end, true)
    else if p =? MAP then
      Ok (match d with AMap _ _ _ _ _ _ => (d, true) | _ => (NewTMapDefault, false) end)
    else if p =? LIST then
      Ok (match d with AList _ _ _ => (d, true) | _ => (NewTListDefault, false) end)
    else if p =? SET then
      Ok (match d with ASet _ _ _ _ => (d, true) | _ => (NewTSetDefault, false) end)
    else Panic
  end.

End Coerce.

(** TType.Coerce, ttype.go:216-249: a value as a type id.  int16, uint16 and strings have no
    case and give STOP. *)
Definition TType_Coerce (x : ext) (d : any) : Z :=
  match d with
  | ATType t => t
  | AByte z => z
  | AInt z | AInt8 z | AInt32 z | AInt64 z | AUint z | AUint32 z | AUint64 z => wrapu 8 z
  | AF32 b => wrapu 8 (f_to_int x (f64_of_f32 b))
  | AF64 b => wrapu 8 (f_to_int x b)
  | _ => STOP
  end.
(** LessType, Equals: ttype.go:251-253, 507-509. *)
Definition TType_LessType (x : ext) (p : Z) (d : any) : bool := p <? TType_Coerce x d.
Definition TType_Equals (x : ext) (p : Z) (d : any) : bool := p =? TType_Coerce x d.
