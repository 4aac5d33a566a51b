(** The Go code t_go_generator.cc emits for IDL constants and for default values of members,
    and what that code does. *)
From Coq Require Import ZArith List Bool Lia.
From Verif Require Import Base Errors Proto Arith F64 Strconv TField GoVal Compare TList TSet TMap Gen Names.
Import ListNotations.
Open Scope Z_scope.

(** ** Input of the generator *)

(** IDL types with their typedefs (t_type and get_true_type); enums and structs as in Gen.v. *)
Inductive cty : Type :=
| KBool | KByte | KI16 | KI32 | KI64 | KDouble | KString | KBinary
| KEnum (tag : Z) (name : bytes) (cs : list (bytes * Z))
| KList (t : cty)
| KSet (t : cty)
| KMap (k v : cty)
| KStruct (name : bytes) (ms : list (Z * bytes * cty))     (* key, name, type of the members *)
| KTypedef (symbolic : bytes) (t : cty).

(** t_const_value: CV_INTEGER, CV_DOUBLE (bits), CV_STRING, CV_LIST, CV_MAP.  A CV_MAP is a
    std::map ordered by the addresses of the keys, so the pairs may come in any order. *)
Inductive cval : Type :=
| CInt (z : Z) | CDbl (b : Z) | CStr (s : bytes)
| CList (l : list cval) | CMap (l : list (cval * cval)).

Fixpoint true_type (t : cty) : cty := match t with KTypedef _ t' => true_type t' | _ => t end.
(** is_base_type() || is_enum(), false of a typedef. *)
Definition direct (t : cty) : bool :=
  match t with
  | KList _ | KSet _ | KMap _ _ | KStruct _ _ | KTypedef _ _ => false
  | _ => true
  end.
(** type_to_enum, t_go_generator.cc:3203-3252. *)
Definition enum_of (t : cty) : Z :=
  match true_type t with
  | KBool => BOOL | KByte => BYTE | KI16 => I16 | KI32 => I32 | KI64 => I64
  | KDouble => DOUBLE | KString => STRING | KBinary => BINARY
  | KEnum _ _ _ => I32
  | KStruct _ _ => STRUCT | KMap _ _ => MAP | KSet _ => SET | KList _ => LIST
  | KTypedef _ _ => STOP
  end.

(** ** Output of the generator *)

(** The expressions and statements rendered, as syntax trees; layout is left out. *)
Inductive gexpr : Type :=
| GInt (z : Z)                    (* an integer literal *)
| GFloat (m e : Z)                (* a floating-point literal of value m * 10^e *)
| GStr (body : bytes)             (* "body" *)
| GByteStr (body : bytes)         (* []byte("body") *)
| GBool (b : bool)
| GNewStruct (go : bytes)         (* New<go>() *)
| GNewMap (kt vt n : Z) | GNewList (et n : Z) | GNewSet (et n : Z).
Inductive gstmt : Type :=
| SDecl (x : bytes) (e : gexpr)           (* x := e *)
| SAssign (x : bytes) (e : gexpr)         (* x = e *)
| SField (x f : bytes) (e : gexpr)        (* x.f = e *)
| SFieldVar (x f v : bytes)               (* x.f = v *)
| SSet (x k v : bytes)                    (* x.Set(k, v) *)
| SPush (x v : bytes)                     (* x.Push(v) *)
| SAddTo (x v : bytes)                      (* x.Add(v) *)
| SBlock (b : list gstmt).                (* { b } *)

(** Parts of the compiler that are not in this repository: the names tmp() makes out of a
    prefix and a counter; the literal the C++ stream prints for a double (integer or float);
    get_escaped_string (t_generator.h). *)
Record cpp : Type := MkCpp {
  cx_tmp : Z -> nat -> bytes;
  cx_double : Z -> Z + Z * Z;
  cx_escape : bytes -> bytes
}.

Section Render.
Variable X : cpp.

Definition tmp_k (n : nat) : bytes := cx_tmp X 107 n.
Definition tmp_v (n : nat) : bytes := cx_tmp X 118 n.

(** The members of the Go struct, t_go_generator.cc:894-917: (Go name, (key, type)).  When some
    key is negative the members are declared with the name of a wire type in place of a Go type
    (912-916), which does not compile: None.  Go ignores the order; fillers are left out. *)
Definition declare (ms : list (Z * bytes * cty)) : option (list (bytes * (Z * cty))) :=
  if forallb (fun m => 0 <=? fst (fst m)) ms
  then Some (map (fun m => (member_name (snd (fst m)), (fst (fst m), snd m))) ms)
  else None.

(** The type of the last member of that name: the search has no break, 731-735. *)
Fixpoint field_type (ms : list (Z * bytes * cty)) (n : bytes) : option cty :=
  match ms with
  | [] => None
  | (_, n', t) :: ms' =>
    match field_type ms' n with
    | Some t' => Some t'
    | None => if beq n' n then Some t else None
    end
  end.

(** "x = " << render_const_value(...): an expression, then the block that fills the object. *)
Definition with_block (s : gstmt) (b : option (list gstmt)) : list gstmt :=
  s :: match b with Some l => [SBlock l] | None => [] end.

(** render_const_value, t_go_generator.cc:675-821: the expression, the block after it (none
    for base types and enums) and the counter of tmp().  None stands for the throws and for
    values the parser's type check would have refused. *)
Fixpoint render (c : cval) (t : cty) (name : bytes) (n : nat) {struct c}
  : option (gexpr * option (list gstmt) * nat) :=
  match true_type t, c with
  | KString, CStr s => Some (GStr (cx_escape X s), None, n)
  | KBinary, CStr s => Some (GByteStr (cx_escape X s), None, n)
  | KBool, CInt z => Some (GBool (0 <? z), None, n)
  | KByte, CInt z | KI16, CInt z | KI32, CInt z | KI64, CInt z => Some (GInt z, None, n)
  | KDouble, CInt z => Some (GInt z, None, n)
  | KDouble, CDbl b =>
    Some (match cx_double X b with inl z => GInt z | inr (m, e) => GFloat m e end, None, n)
  | KEnum _ _ _, CInt z => Some (GInt z, None, n)
  | KStruct sn ms, CMap kvs =>
    match
      (fix go (l : list (cval * cval)) (n : nat) : option (list gstmt * nat) :=
         match l with
         | [] => Some ([], n)
         | (CStr f, c') :: l' =>
           match field_type ms f with
           | None => None
           | Some ft =>
             if direct ft then
               match render c' ft name n with
               | Some (e, _, n1) =>
                 match go l' n1 with
                 | Some (ss, n2) => Some (SField name (publicize f) e :: ss, n2)
                 | None => None
                 end
               | None => None
               end
             else
               let v := tmp_v (S n) in
               match render c' ft v (S (S n)) with
               | Some (e, b, n1) =>
                 match go l' n1 with
                 | Some (ss, n2) =>
                   Some (with_block (SDecl v e) b ++ SFieldVar name (publicize f) v :: ss, n2)
                 | None => None
                 end
               | None => None
               end
           end
         | _ => None
         end) kvs n
    with
    | Some (ss, n') => Some (GNewStruct (publicize sn), Some ss, n')
    | None => None
    end
  | KMap kt vt, CMap kvs =>
    match
      (fix go (l : list (cval * cval)) (n : nat) : option (list gstmt * nat) :=
         match l with
         | [] => Some ([], n)
         | (ck, cv) :: l' =>
           let k := tmp_k n in
           let v := tmp_v (S n) in
           match render ck kt k (S (S n)) with
           | Some (ek, bk, n1) =>
             match render cv vt v n1 with
             | Some (ev, bv, n2) =>
               match go l' n2 with
               | Some (ss, n3) =>
                 Some (with_block (SDecl k ek) bk ++ with_block (SDecl v ev) bv ++
                       SSet name k v :: ss, n3)
               | None => None
               end
             | None => None
             end
           | None => None
           end
         end) kvs n
    with
    | Some (ss, n') =>
      Some (GNewMap (enum_of kt) (enum_of vt) (Z.of_nat (length kvs)), Some ss, n')
    | None => None
    end
  | KList et, CList cs =>
    match
      (fix go (l : list cval) (n : nat) : option (list gstmt * nat) :=
         match l with
         | [] => Some ([], n)
         | c' :: l' =>
           let v := tmp_v n in
           match render c' et v (S n) with
           | Some (e, b, n1) =>
             match go l' n1 with
             | Some (ss, n2) => Some (with_block (SDecl v e) b ++ SPush name v :: ss, n2)
             | None => None
             end
           | None => None
           end
         end) cs n
    with
    | Some (ss, n') => Some (GNewList (enum_of et) (Z.of_nat (length cs)), Some ss, n')
    | None => None
    end
  | KSet et, CList cs =>
    match
      (fix go (l : list cval) (n : nat) : option (list gstmt * nat) :=
         match l with
         | [] => Some ([], n)
         | c' :: l' =>
           let v := tmp_v n in
           match render c' et v (S n) with
           | Some (e, b, n1) =>
             match go l' n1 with
             | Some (ss, n2) => Some (with_block (SDecl v e) b ++ SAddTo name v :: ss, n2)
             | None => None
             end
           | None => None
           end
         end) cs n
    with
    | Some (ss, n') => Some (GNewSet (enum_of et) (Z.of_nat (length cs)), Some ss, n')
    | None => None
    end
  | _, _ => None
  end.

(** generate_const, t_go_generator.cc:652-669: a Go constant for base types and enums, else a
    variable assigned in init().  [name] is the Go name. *)
Inductive gdecl : Type :=
| DConst (name : bytes) (e : gexpr)
| DVar (name : bytes) (t : cty) (init : list gstmt).
Definition const_name (tname cname : bytes) : bytes := publicize tname ++ [95] ++ publicize cname.
Definition generate_const (t : cty) (name : bytes) (c : cval) (n : nat) : option (gdecl * nat) :=
  match render c t name n with
  | Some (e, b, n') =>
    Some (if direct t then DConst name e else DVar name t (with_block (SAssign name e) b), n')
  | None => None
  end.

(** The body of the constructor, t_go_generator.cc:935-960, for members given as (key, name,
    type, default): a default is rendered under the IDL name of the member (956, 3093-3102),
    an enum without one gets math.MinInt32 - 1. *)
Definition output_name : bytes := [111; 117; 116; 112; 117; 116].     (* output *)
Fixpoint ctor_body (ms : list (Z * bytes * cty * option cval)) (n : nat)
  : option (list gstmt * nat) :=
  match ms with
  | [] => Some ([], n)
  | (_, name, t, d) :: ms' =>
    let full := member_name name in
    match d with
    | Some c =>
      match render c (true_type t) name n with
      | Some (e, b, n1) =>
        match ctor_body ms' n1 with
        | Some (ss, n2) => Some (with_block (SField output_name full e) b ++ ss, n2)
        | None => None
        end
      | None => None
      end
    | None =>
      match ctor_body ms' n with
      | Some (ss, n2) =>
        Some (match true_type t with
              | KEnum _ _ _ => SField output_name full (GInt enum_unset) :: ss
              | _ => ss
              end, n2)
      | None => None
      end
    end
  end.

End Render.

(** ** Go *)

(** Go types that occur: predeclared ones, []byte, pointers to generated structs, enums, the
    interfaces of the library, and typedefs (a named type and what it stands for). *)
Inductive gt : Type :=
| GtBool | GtInt | GtByte | GtI16 | GtI32 | GtI64 | GtF64 | GtString | GtBytes
| GtEnum (tag : Z) (name : bytes) (cs : list (bytes * Z))
| GtPtr (go : bytes)
| GtTMap | GtTList | GtTSet
| GtNamed (go : bytes) (t : gt).

(** type_to_go_type, t_go_generator.cc:3257-3317, and generate_typedef, 570-582. *)
Fixpoint go_type (t : cty) : gt :=
  match t with
  | KBool => GtBool | KByte => GtByte | KI16 => GtI16 | KI32 => GtI32 | KI64 => GtI64
  | KDouble => GtF64 | KString => GtString | KBinary => GtBytes
  | KEnum tag n cs => GtEnum tag n cs
  | KStruct n _ => GtPtr (publicize n)
  | KMap _ _ => GtTMap | KList _ => GtTList | KSet _ => GtTSet
  | KTypedef s t' => GtNamed (publicize s) (go_type t')
  end.
Fixpoint under (g : gt) : gt := match g with GtNamed _ g' => under g' | _ => g end.

(** Whether a value of Go type [g] (not a typedef) may be assigned to a variable of type [d]:
    the types are the same, or [g] has no name, or [d] is an interface with the same methods. *)
Definition assignable (g d : gt) : bool :=
  match g, d with
  | GtBool, GtBool | GtInt, GtInt | GtByte, GtByte | GtI16, GtI16 | GtI32, GtI32
  | GtI64, GtI64 | GtF64, GtF64 | GtString, GtString => true
  | GtEnum t _ _, GtEnum t' _ _ => t =? t'
  | _, _ =>
    match g, under d with
    | GtBytes, GtBytes | GtTMap, GtTMap | GtTList, GtTList | GtTSet, GtTSet => true
    | GtPtr a, GtPtr b => beq a b
    | _, _ => false
    end
  end.

(** The bytes of an interpreted string literal; escapes the generator has no use for (octal,
    hexadecimal, \u) are refused.  Go's demand that source text be UTF-8 is left out. *)
Definition go_escape (c : Z) : option Z :=
  if c =? 97 then Some 7 else if c =? 98 then Some 8 else if c =? 102 then Some 12
  else if c =? 110 then Some 10 else if c =? 114 then Some 13 else if c =? 116 then Some 9
  else if c =? 118 then Some 11 else if c =? 92 then Some 92 else if c =? 34 then Some 34
  else None.
Fixpoint go_literal (s : bytes) : option bytes :=
  match s with
  | [] => Some []
  | c :: s' =>
    if c =? 92 then
      match s' with
      | d :: s'' =>
        match go_escape d, go_literal s'' with
        | Some b, Some r => Some (b :: r)
        | _, _ => None
        end
      | [] => None
      end
    else if (c =? 34) || (c =? 10) then None
    else option_map (cons c) (go_literal s')
  end.

(** Values of expressions: untyped constants and typed values. *)
Inductive gres : Type :=
| RInt (z : Z) | RFloat (m e : Z) | RStr (s : bytes) | RBool (b : bool)
| RVal (g : gt) (v : any).

Section Exec.
Variable x : ext.
Variable fuel : nat.
(** The double nearest to m * 10^e. *)
Variable round10 : Z -> Z -> Z.
(** The structs of the package by Go name: members as declared (Go name, key, type), [declare] above,
    and the object New<Name>() returns. *)
Variable structs : bytes -> option (list (bytes * (Z * cty)) * any).

Definition eval (e : gexpr) : option gres :=
  match e with
  | GInt z => Some (RInt z)
  | GFloat m e => Some (RFloat m e)
  | GStr b => option_map RStr (go_literal b)
  | GByteStr b => option_map (fun s => RVal GtBytes (ABytes s)) (go_literal b)
  | GBool b => Some (RBool b)
  | GNewStruct go =>
    match structs go with Some (_, v) => Some (RVal (GtPtr go) v) | None => None end
  | GNewMap kt vt n => Some (RVal GtTMap (AMap 0 kt vt n [] []))
  | GNewList et n => Some (RVal GtTList (AList 0 et []))
  | GNewSet et n => Some (RVal GtTSet (ASet 0 et n []))
  end.

Definition guard {A} (b : bool) (a : A) : option A := if b then Some a else None.
Definition fits (bits z : Z) : bool := (- 2 ^ (bits - 1) <=? z) && (z <? 2 ^ (bits - 1)).

(** Assignment of a result to a variable or member of type [d]; None: does not compile. *)
Definition convert (d : gt) (r : gres) : option any :=
  match r with
  | RVal g v => guard (assignable g d) v
  | RBool b => match under d with GtBool => Some (ABool b) | _ => None end
  | RStr s => match under d with GtString => Some (AStr s) | _ => None end
  | RFloat m e => match under d with GtF64 => Some (AF64 (round10 m e)) | _ => None end
  | RInt z =>
    match under d with
    | GtInt => guard (fits 64 z) (AInt z)
    | GtByte => guard ((0 <=? z) && (z <? 256)) (AByte z)
    | GtI16 => guard (fits 16 z) (AInt16 z)
    | GtI32 => guard (fits 32 z) (AInt32 z)
    | GtI64 => guard (fits 64 z) (AInt64 z)
    | GtF64 => Some (AF64 (f64_of_Z z))
    | GtEnum tag n cs => guard (fits 64 z) (mk_enum tag n cs z)
    | _ => None
    end
  end.
(** x := e gives an untyped constant its default type. *)
Definition declared (r : gres) : option (gt * any) :=
  match r with
  | RVal g v => Some (g, v)
  | RBool b => Some (GtBool, ABool b)
  | RStr s => Some (GtString, AStr s)
  | RFloat m e => Some (GtF64, AF64 (round10 m e))
  | RInt z => guard (fits 64 z) (GtInt, AInt z)
  end.

(** Scopes, innermost first. *)
Definition scope : Type := list (bytes * (gt * any)).
Fixpoint sfind (s : scope) (y : bytes) : option (gt * any) :=
  match s with
  | [] => None
  | (z, b) :: s' => if beq z y then Some b else sfind s' y
  end.
Fixpoint supd (s : scope) (y : bytes) (v : any) : scope :=
  match s with
  | [] => []
  | (z, (g, w)) :: s' => if beq z y then (z, (g, v)) :: s' else (z, (g, w)) :: supd s' y v
  end.
Fixpoint find (E : list scope) (y : bytes) : option (gt * any) :=
  match E with
  | [] => None
  | s :: E' => match sfind s y with Some b => Some b | None => find E' y end
  end.
Fixpoint update (E : list scope) (y : bytes) (v : any) : list scope :=
  match E with
  | [] => []
  | s :: E' => match sfind s y with Some _ => supd s y v :: E' | None => s :: update E' y v end
  end.

Fixpoint mfind (l : list (bytes * (Z * cty))) (f : bytes) : option (Z * cty) :=
  match l with
  | [] => None
  | (n, b) :: l' => if beq n f then Some b else mfind l' f
  end.
Definition run_out {A B} (o : outcome A) (k : A -> option B) : option B :=
  match o with Ok a => k a | _ => None end.

(** x.f = r: the static type of x names the struct. *)
Definition set_field (E : list scope) (y f : bytes) (r : gres) : option (list scope) :=
  match find E y with
  | Some (g, AStruct a nm fc attrs) =>
    match under g with
    | GtPtr go =>
      match structs go with
      | Some (ms, _) =>
        match mfind ms f with
        | Some (id, t) =>
          option_map (fun v => update E y (AStruct a nm fc (attr_set attrs id v)))
                     (convert (go_type t) r)
        | None => None
        end
      | None => None
      end
    | _ => None
    end
  | _ => None
  end.

(** One statement; None: does not compile, or panics.  Go also refuses variables that are
    declared and not used; every variable declared here is used. *)
Fixpoint exec1 (s : gstmt) (E : list scope) {struct s} : option (list scope) :=
  match s with
  | SDecl y e =>
    match eval e with
    | Some r =>
      match declared r, E with
      | Some b, sc :: E' =>
        match sfind sc y with Some _ => None | None => Some (((y, b) :: sc) :: E') end
      | _, _ => None
      end
    | None => None
    end
  | SAssign y e =>
    match eval e, find E y with
    | Some r, Some (g, _) => option_map (update E y) (convert g r)
    | _, _ => None
    end
  | SField y f e => match eval e with Some r => set_field E y f r | None => None end
  | SFieldVar y f v =>
    match find E v with Some (g, w) => set_field E y f (RVal g w) | None => None end
  | SSet y k v =>
    match find E y, find E k, find E v with
    | Some (g, AMap a kt vt n l b), Some (_, wk), Some (_, wv) =>
      match under g with
      | GtTMap => run_out (tm_Set x fuel (MkTm kt vt n l b) wk wv)
          (fun p => Some (update E y (AMap a (tm_kt p) (tm_vt p) (tm_size p) (tm_l p) (tm_b p))))
      | _ => None
      end
    | _, _, _ => None
    end
  | SPush y v =>
    match find E y, find E v with
    | Some (g, AList a et l), Some (_, w) =>
      match under g with
      | GtTList => run_out (tl_Push x (MkTl et l) w)
          (fun p => Some (update E y (AList a (tl_et p) (tl_l p))))
      | _ => None
      end
    | _, _ => None
    end
  | SAddTo y v =>
    match find E y, find E v with
    | Some (g, ASet a et n l), Some (_, w) =>
      match under g with
      | GtTSet => run_out (ts_Add x fuel (MkTs et n l) w)
          (fun p => Some (update E y (ASet a (ts_et p) (ts_size p) (ts_l p))))
      | _ => None
      end
    | _, _ => None
    end
  | SBlock b =>
    match (fix go (l : list gstmt) (E : list scope) : option (list scope) :=
             match l with
             | [] => Some E
             | s' :: l' => match exec1 s' E with Some E' => go l' E' | None => None end
             end) b ([] :: E) with
    | Some E' => Some (tl E')
    | None => None
    end
  end.
Fixpoint exec (l : list gstmt) (E : list scope) : option (list scope) :=
  match l with
  | [] => Some E
  | s :: l' => match exec1 s E with Some E' => exec l' E' | None => None end
  end.

(** A constant must have a constant initialiser; a variable starts at its zero value and is
    assigned in init(), with the package scope around. *)
Inductive gconst : Type := VConst (r : gres) | VVar (v : any).
Definition run_decl (d : gdecl) : option gconst :=
  match d with
  | DConst _ e =>
    match eval e with
    | Some (RVal _ _) => None
    | Some r => Some (VConst r)
    | None => None
    end
  | DVar name t ss =>
    match exec ss [[(name, (go_type t, ANil))]] with
    | Some E => match find E name with Some (_, v) => Some (VVar v) | None => None end
    | None => None
    end
  end.

End Exec.
