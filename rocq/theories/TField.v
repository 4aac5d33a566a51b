(** tfield.go: field metadata and field containers.  tcompare.go: three-way comparisons. *)
From Coq Require Import ZArith List Bool Lia.
From Verif Require Import Base Arith.
Import ListNotations.
Open Scope Z_scope.

(** ** tcompare.go *)

(** CompareInt, CompareInt16, CompareInt32, CompareInt64 (which takes int32 arguments),
    CompareByte: tcompare.go:22-60, 105-113.  All have this body on their integer type. *)
Definition CompareInt (i j : Z) : Z :=
  if j <? i then 1 else if i <? j then -1 else 0.
Definition CompareByte := CompareInt.

(** Go's < on strings: lexicographic on bytes. *)
Fixpoint str_lt (a b : bytes) : bool :=
  match a, b with
  | _, [] => false
  | [], _ :: _ => true
  | x :: a', y :: b' => (x <? y) || ((x =? y) && str_lt a' b')
  end.
Fixpoint str_eq (a b : bytes) : bool :=
  match a, b with
  | [], [] => true
  | x :: a', y :: b' => (x =? y) && str_eq a' b'
  | _, _ => false
  end.

(** CompareString, tcompare.go:75-83. *)
Definition CompareString (i j : bytes) : Z :=
  if str_lt j i then 1 else if str_lt i j then -1 else 0.

(** CompareStringArray, tcompare.go:62-73. *)
Fixpoint CompareStringArray_loop (i j : list bytes) : Z :=
  match i, j with
  | a :: i', b :: j' =>
    let cmp := CompareString a b in if negb (cmp =? 0) then cmp else CompareStringArray_loop i' j'
  | _, _ => 0
  end.
Definition CompareStringArray (i j : list bytes) : Z :=
  let cmp := CompareInt (Z.of_nat (length i)) (Z.of_nat (length j)) in
  if negb (cmp =? 0) then cmp else CompareStringArray_loop i j.

(** CompareBool, tcompare.go:115-126. *)
Definition CompareBool (i j : bool) : Z :=
  if i then (if j then 0 else 1) else if j then -1 else 0.

(** bytes.Compare: -1, 0, 1, lexicographic. *)
Definition bytes_Compare (a b : bytes) : Z :=
  if str_lt a b then -1 else if str_lt b a then 1 else 0.

(** ** tfield.go *)

(** A TField is a *tField: a nil pointer or a record (tfield.go:39-43). *)
Inductive tfield : Type :=
| FNil
| F (name : bytes) (typeId id : Z).

(** tfield.go:53-72 *)
Definition f_name (f : tfield) : bytes := match f with FNil => [] | F n _ _ => n end.
Definition f_type (f : tfield) : Z := match f with FNil => VOID | F _ t _ => t end.
Definition f_id (f : tfield) : Z := match f with FNil => -1 | F _ _ i => i end.

(** ANONYMOUS_FIELD, tfield.go:279-281. *)
Definition ANONYMOUS_FIELD := F [] STOP 0.

(** The argument of CompareTo and Equals: nil, a TField, or anything else. *)
Inductive fother : Type :=
| ONil
| OField (f : tfield)
| ONot.

(** tField.CompareTo, tfield.go:81-95. *)
Definition field_CompareTo (p : tfield) (other : fother) : Z * bool :=
  match other with
  | ONil => (1, true)
  | OField d =>
    if negb (f_id p =? f_id d) then (CompareInt (f_id p) (f_id d), true)
    else if negb (f_type p =? f_type d) then (CompareByte (f_type p) (f_type d), true)
    else (CompareString (f_name p) (f_name d), true)
  | ONot => (0, false)
  end.

(** tField.Equals, tfield.go:97-108. *)
Definition field_Equals (p : tfield) (other : fother) : bool :=
  match p with
  | FNil => match other with ONil => true | _ => false end
  | _ =>
    match other with
    | ONil => false
    | OField d => (f_type p =? f_type d) && (f_id p =? f_id d)
    | ONot => false
    end
  end.

(** ** tFieldContainer, tfield.go:136-277 *)

(** Go maps, most recent binding first. *)
Fixpoint lookup_z {A} (m : list (Z * A)) (k : Z) : option A :=
  match m with [] => None | (k', v) :: m' => if k =? k' then Some v else lookup_z m' k end.
Fixpoint lookup_s {A} (m : list (bytes * A)) (k : bytes) : option A :=
  match m with [] => None | (k', v) :: m' => if str_eq k k' then Some v else lookup_s m' k end.

(** == on pointers.  An address that is not positive stands for an object that has an address
    of its own, as objects built by the library and by generated code have. *)
Definition same_obj (a b : Z) : bool := (0 <? a) && (a =? b).

(** [fc_addr] is the pointer identity, which CompareTo tests. *)
Record fcont : Type := MkFc {
  fc_addr : Z;
  fc_fields : list tfield;
  fc_name : list (bytes * tfield);
  fc_id : list (Z * tfield)
}.

(** NewTFieldContainer, tfield.go:142-159.  The sorted copy is computed and dropped by the
    code (the given slice is kept), so it is not modelled. *)
Definition NewTFieldContainer (addr : Z) (fields : list tfield) : fcont :=
  fold_left (fun c f =>
      MkFc (fc_addr c) (fc_fields c)
           (match f_name f with [] => fc_name c | _ => (f_name f, f) :: fc_name c end)
           ((f_id f, f) :: fc_id c))
    fields (MkFc addr fields [] []).

(** tfield.go:161-195 *)
Definition FieldNameFromFieldId (c : fcont) (id : Z) : bytes :=
  match lookup_z (fc_id c) id with Some f => f_name f | None => [] end.
Definition FieldIdFromFieldName (c : fcont) (name : bytes) : Z :=
  match lookup_s (fc_name c) name with Some f => f_id f | None => -1 end.
Definition FieldFromFieldId (c : fcont) (id : Z) : tfield :=
  match lookup_z (fc_id c) id with Some f => f | None => ANONYMOUS_FIELD end.
Definition FieldFromFieldName (c : fcont) (name : bytes) : tfield :=
  match lookup_s (fc_name c) name with Some f => f | None => ANONYMOUS_FIELD end.
Definition fc_Len (c : fcont) : Z := Z.of_nat (length (fc_fields c)).
Definition fc_At (c : fcont) (i : Z) : tfield := FieldFromFieldId c i.

(** The argument of Contains: an int or int16, a string, a TField, or anything else. *)
Inductive fkey : Type :=
| KInt (i : Z)
| KStr (s : bytes)
| KField (f : tfield)
| KOther.

(** tFieldContainer.Contains, tfield.go:197-224. *)
Definition fc_Contains (c : fcont) (k : fkey) : bool :=
  match k with
  | KInt i => existsb (fun f => f_id f =? i) (fc_fields c)
  | KStr s => existsb (fun f => str_eq (f_name f) s) (fc_fields c)
  | KField g => existsb (fun f => field_Equals f (OField g)) (fc_fields c)
  | KOther => false
  end.

(** The argument of the container's Equals/CompareTo. *)
Inductive fcother : Type :=
| CNil
| CCont (c : fcont)
| CNot.

(** tFieldContainer.Equals, tfield.go:226-242. *)
Definition fc_Equals (p : fcont) (other : fcother) : bool :=
  match other with
  | CCont d =>
    (fc_Len p =? fc_Len d) && forallb (fun f => fc_Contains d (KField f)) (fc_fields p)
  | _ => false
  end.

(** tFieldContainer.CompareTo, tfield.go:244-264. *)
Fixpoint fc_cmp_loop (fs : list tfield) (d : fcont) : Z * bool :=
  match fs with
  | [] => (0, true)
  | f :: fs' =>
    let '(cmp, ok) := field_CompareTo f (OField (fc_At d (f_id f))) in
    if negb ok || negb (cmp =? 0) then (cmp, ok) else fc_cmp_loop fs' d
  end.
Definition fc_CompareTo (p : fcont) (other : fcother) : Z * bool :=
  match other with
  | CNil => (1, true)
  | CCont d =>
    if same_obj (fc_addr p) (fc_addr d) then (0, true)
    else
      let cmp := CompareInt (fc_Len p) (fc_Len d) in
      if negb (cmp =? 0) then (cmp, true) else fc_cmp_loop (fc_fields p) d
  | CNot => (0, false)
  end.
