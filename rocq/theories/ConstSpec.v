(** What IDL constants mean, without reference to the code rendered for them, and the constants
    that code handles. *)
From Coq Require Import ZArith List Bool Lia.
From Verif Require Import Base Errors Proto Arith F64 Strconv TField GoVal Compare CompareProofs TList TSet TMap.
From Verif Require Import Values Gen Names Consts.
Import ListNotations.
Open Scope Z_scope.

Section Spec.
(** New<Name>() by Go name of the struct. *)
Variable structs : bytes -> option (list (bytes * (Z * cty)) * any).

(** The Go value a constant of a type stands for, as an element of a container ([elem]) or as a
    variable or member of its own.  Containers keep enums as int32.  An IDL byte is signed, a Go
    byte is not. *)
Inductive denotes : bool -> cty -> cval -> any -> Prop :=
| d_typedef elem s t c v : denotes elem t c v -> denotes elem (KTypedef s t) c v
| d_bool elem (b : bool) : denotes elem KBool (CInt (if b then 1 else 0)) (ABool b)
| d_byte elem z : in_s 8 z -> denotes elem KByte (CInt z) (AByte (z mod 256))
| d_i16 elem z : in_s 16 z -> denotes elem KI16 (CInt z) (AInt16 z)
| d_i32 elem z : in_s 32 z -> denotes elem KI32 (CInt z) (AInt32 z)
| d_i64 elem z : in_s 64 z -> denotes elem KI64 (CInt z) (AInt64 z)
| d_double elem b : denotes elem KDouble (CDbl b) (AF64 b)
| d_double_int elem z : denotes elem KDouble (CInt z) (AF64 (f64_of_Z z))
| d_string elem s : denotes elem KString (CStr s) (AStr s)
| d_binary elem s : denotes elem KBinary (CStr s) (ABytes s)
| d_enum tag n cs z : in_s 32 z -> denotes false (KEnum tag n cs) (CInt z) (mk_enum tag n cs z)
| d_enum_elem tag n cs z : in_s 32 z -> denotes true (KEnum tag n cs) (CInt z) (AInt32 z)
(** The elements in order. *)
| d_list elem t cs vs :
    Forall2 (denotes true t) cs vs ->
    denotes elem (KList t) (CList cs) (AList 0 (enum_of t) vs)
(** Each element once. *)
| d_set elem t cs vs n l :
    Forall2 (denotes true t) cs vs ->
    (forall v, In v l -> In v vs) ->
    (forall v, In v vs -> exists v', In v' l /\ scalar_eq v' v) ->
    ForallOrdPairs (fun a b => ~ scalar_eq a b) l ->
    denotes elem (KSet t) (CList cs) (ASet 0 (enum_of t) n l)
(** Each key once, with its last value. *)
| d_map elem kt vt kvs ps n l b :
    Forall2 (fun c p => denotes true kt (fst c) (fst p) /\ denotes true vt (snd c) (snd p)) kvs ps ->
    (forall k v, In (k, v) (l ++ b) -> last_set ps k v) ->
    (forall k v, In k (map fst ps) -> last_set ps k v -> exists k', In (k', v) (l ++ b) /\ scalar_eq k' k) ->
    ForallOrdPairs (fun a b => ~ scalar_eq (fst a) (fst b)) (l ++ b) ->
    denotes elem (KMap kt vt) (CMap kvs) (AMap 0 (enum_of kt) (enum_of vt) n l b)
(** The members listed hold their constants, all others what the constructor gives them. *)
| d_struct elem sn ms kvs dms fc attrs0 attrs :
    structs (publicize sn) = Some (dms, AStruct 0 sn fc attrs0) ->
    map fst attrs = map fst attrs0 ->
    (forall id f ft c, In (id, f, ft) ms -> In (CStr f, c) kvs ->
       denotes false ft c (attribute attrs id)) ->
    (forall id f ft, In (id, f, ft) ms -> (forall c, ~ In (CStr f, c) kvs) ->
       attribute attrs id = attribute attrs0 id) ->
    denotes elem (KStruct sn ms) (CMap kvs) (AStruct 0 sn fc attrs).

(** ** The constants handled *)

Variable X : cpp.
Variable round10 : Z -> Z -> Z.

(** Go literals of these types have the type itself when declared with :=. *)
Definition kept (t : cty) (c : cval) : Prop :=
  match true_type t, c with
  | KByte, _ | KI16, _ | KI32, _ | KI64, _ | KEnum _ _ _, _ => False
  | KDouble, CDbl b => match cx_double X b with inl _ => False | inr _ => True end
  | KDouble, _ => False
  | _, _ => True
  end.

(** A member the code for struct constants can assign: it is named as in the IDL, and a typedef
    of a predeclared Go type or enum is out. *)
Definition settable (f : bytes) (ft : cty) : Prop :=
  member_name f = publicize f /\
  (direct ft = true \/
   match true_type ft with
   | KBinary | KList _ | KSet _ | KMap _ _ | KStruct _ _ => True
   | _ => False
   end).

(** A struct of the package: keys, and Go names, all different; the constructor gives every
    member a value. *)
Definition known (sn : bytes) (ms : list (Z * bytes * cty)) : Prop :=
  NoDup (map (fun m => fst (fst m)) ms) /\
  NoDup (map (fun m => member_name (snd (fst m))) ms) /\
  exists dms fc attrs, declare ms = Some dms /\
    structs (publicize sn) = Some (dms, AStruct 0 sn fc attrs) /\
    map fst attrs = map (fun m => fst (fst m)) ms.

(** Constants the rendered code gives their meaning. *)
Fixpoint good (elem : bool) (c : cval) (t : cty) {struct c} : Prop :=
  match true_type t, c with
  | KBool, CInt z => z = 0 \/ z = 1
  | KByte, CInt z => in_s 8 z /\ (elem = false -> 0 <= z)
  | KI16, CInt z => in_s 16 z
  | KI32, CInt z => in_s 32 z
  | KI64, CInt z => in_s 64 z
  | KDouble, CInt z => in_s 64 z
  | KDouble, CDbl b =>
    match cx_double X b with
    | inl z => in_s 64 z /\ f64_of_Z z = b
    | inr (m, e) => round10 m e = b
    end
  | KString, CStr s | KBinary, CStr s => is_bytes s
  | KEnum _ _ _, CInt z => in_s 32 z
  | KList et, CList cs => all (fun c' => good true c' et) cs
  | KSet et, CList cs =>
    all (fun c' => good true c' et) cs /\
    exists vs, Forall2 (denotes true et) cs vs /\ Forall (native (enum_of et)) vs /\
      no_new_minimum (enum_of et) (map SAdd vs)
  | KMap kt vt, CMap kvs =>
    all (fun kv => good true (fst kv) kt /\ good true (snd kv) vt /\
                   (enum_of kt = BINARY \/ kept vt (snd kv))) kvs /\
    exists ks, Forall2 (fun kv k => denotes true kt (fst kv) k) kvs ks /\
      Forall (native (enum_of kt)) ks /\ scalar_type (enum_of kt) = true
  | KStruct sn ms, CMap kvs =>
    known sn ms /\ NoDup (map fst kvs) /\
    all (fun kv => exists f id ft, fst kv = CStr f /\ In (id, f, ft) ms /\ settable f ft /\
                     good false (snd kv) ft) kvs
  | _, _ => False
  end.

End Spec.

(** tmp() never gives a name twice, and its names start with the prefix; an escaped string reads
    back as the string. *)
Definition cpp_ok (X : cpp) : Prop :=
  (forall c n c' n', cx_tmp X c n = cx_tmp X c' n' -> c = c' /\ n = n') /\
  (forall c n, hd_error (cx_tmp X c n) = Some c) /\
  (forall s, is_bytes s -> go_literal (cx_escape X s) = Some s).
