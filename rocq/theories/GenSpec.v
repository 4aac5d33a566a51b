(** What generated readers and writers should do, without reference to their code: how a Go
    value of an IDL type and a wire value correspond. *)
From Coq Require Import ZArith List Bool Lia Permutation.
From Verif Require Import Base Errors Transport Proto Arith Values.
From Verif Require Export Access.
From Verif Require Import F64 Strconv TField GoVal Compare TList TSet TMap Gen.
Import ListNotations.
Open Scope Z_scope.

(** ** The wire form of a Go value *)

Definition wt_of (t : ty) : Z :=
  match t with
  | TyBinary => STRING
  | t => type_to_enum t
  end.

Section Wire.
Variable x : ext.

(** The wire value a Go value of type [t] stands for.  A member is present when it is set:
    nil pointers, and optional members or enums equal to their unset value, are left out. *)
Inductive wireof : ty -> any -> tval -> Prop :=
| wo_bool b : wireof TyBool (ABool b) (VBool b)
| wo_byte z : in_u 8 z -> wireof TyByte (AByte z) (VByte z)
| wo_i16 z : in_s 16 z -> wireof TyI16 (AInt16 z) (VI16 z)
| wo_i32 z : in_s 32 z -> wireof TyI32 (AInt32 z) (VI32 z)
| wo_i64 z : in_s 64 z -> wireof TyI64 (AInt64 z) (VI64 z)
| wo_double z : in_u 64 z -> wireof TyDouble (AF64 z) (VDouble z)
| wo_string s : is_bytes s -> Z.of_nat (length s) < 2 ^ 31 -> wireof TyString (AStr s) (VStr s)
| wo_binary s : is_bytes s -> Z.of_nat (length s) < 2 ^ 31 -> wireof TyBinary (ABytes s) (VStr s)
| wo_enum tag n cs z : in_s 32 z ->
    wireof (TyEnum tag n cs) (AEnum tag z (enum_String n cs z)) (VI32 z)
| wo_list t a et l ws : Z.of_nat (length l) < 2 ^ 31 ->
    wireofs t l ws -> wireof (TyList t) (AList a et l) (VList (wt_of t) ws)
| wo_set t a et size l ws : l <> [] \/ size = 0 -> Z.of_nat (length l) < 2 ^ 31 ->
    wireofs t l ws -> wireof (TySet t) (ASet a et size l) (VSet (wt_of t) ws)
| wo_map k v a kt vt size l b es ws :
    map_entries x (2 * a) kt l b = Ok es ->
    map_Len kt size l b = Z.of_nat (length es) -> Z.of_nat (length es) < 2 ^ 31 ->
    wireofm k v es ws ->
    wireof (TyMap k v) (AMap a kt vt size l b) (VMap (wt_of k) (wt_of v) ws)
| wo_struct name ms a fc attrs fs :
    wireoff attrs (sorted_members ms) fs ->
    wireof (TyStruct name ms) (AStruct a name fc attrs) (VStruct fs)
with wireofs : ty -> list any -> list tval -> Prop :=
| wos_nil t : wireofs t [] []
| wos_cons t v w l ws : wireof t v w -> wireofs t l ws -> wireofs t (v :: l) (w :: ws)
with wireofm : ty -> ty -> list (any * any) -> list (tval * tval) -> Prop :=
| wom_nil k v : wireofm k v [] []
| wom_cons k v a b wa wb l ws : wireof k a wa -> wireof v b wb -> wireofm k v l ws ->
    wireofm k v ((a, b) :: l) ((wa, wb) :: ws)
with wireoff : list (Z * any) -> list member -> list (Z * tval) -> Prop :=
| wof_nil attrs : wireoff attrs [] []
| wof_skip attrs m ms fs : gemits m (attribute attrs (m_id m)) = false ->
    wireoff attrs ms fs -> wireoff attrs (m :: ms) fs
| wof_take attrs m ms w fs : gemits m (attribute attrs (m_id m)) = true ->
    in_s 16 (m_id m) ->
    wireof (m_ty m) (attribute attrs (m_id m)) w ->
    wireoff attrs ms fs -> wireoff attrs (m :: ms) ((m_id m, w) :: fs).

(** ** The Go value a reader should build from a wire value *)

Variable cfuel : nat.

Fixpoint fills {A B} (put : A -> B -> outcome A) (p : A) (vs : list B) : outcome A :=
  match vs with [] => Ok p | v :: vs' => q <- put p v ;; fills put q vs' end.
Definition pushes : tlist -> list any -> outcome tlist := fills (tl_Push x).
Definition adds : tset -> list any -> outcome tset := fills (ts_Add x cfuel).
Definition sets : tmap -> list (any * any) -> outcome tmap :=
  fills (fun p kv => tm_Set x cfuel p (fst kv) (snd kv)).

(** Containers are filled by Push, Add and Set of the library.  A struct starts with every
    member at its default; each field whose id is a member's sets that member; fields with
    other ids are passed over. *)
Inductive reads : ty -> tval -> any -> Prop :=
| re_bool b : reads TyBool (VBool b) (ABool b)
| re_byte z : reads TyByte (VByte z) (AByte z)
| re_i16 z : reads TyI16 (VI16 z) (AInt16 z)
| re_i32 z : reads TyI32 (VI32 z) (AInt32 z)
| re_i64 z : reads TyI64 (VI64 z) (AInt64 z)
| re_double z : reads TyDouble (VDouble z) (AF64 z)
| re_string s : reads TyString (VStr s) (AStr s)
| re_binary s : reads TyBinary (VStr s) (ABytes s)
| re_enum tag n cs z : reads (TyEnum tag n cs) (VI32 z) (AEnum tag z (enum_String n cs z))
| re_list t et ws vs p : readss t ws vs ->
    pushes (NewTList et (Z.of_nat (length ws))) vs = Ok p ->
    reads (TyList t) (VList et ws) (AList 0 (tl_et p) (tl_l p))
| re_set t et ws vs p : readss t ws vs ->
    adds (NewTSet et (Z.of_nat (length ws))) vs = Ok p ->
    reads (TySet t) (VSet et ws) (ASet 0 (ts_et p) (ts_size p) (ts_l p))
| re_map k v kt vt ws kvs p : readsm k v ws kvs ->
    sets (NewTMap kt vt (Z.of_nat (length ws))) kvs = Ok p ->
    reads (TyMap k v) (VMap kt vt ws)
          (AMap 0 (tm_kt p) (tm_vt p) (tm_size p) (tm_l p) (tm_b p))
| re_struct name ms fs attrs :
    readsf ms (map (fun m => (m_id m, m_init m)) ms) fs attrs ->
    reads (TyStruct name ms) (VStruct fs) (AStruct 0 name (fc_of ms) attrs)
with readss : ty -> list tval -> list any -> Prop :=
| res_nil t : readss t [] []
| res_cons t w v ws vs : reads t w v -> readss t ws vs -> readss t (w :: ws) (v :: vs)
with readsm : ty -> ty -> list (tval * tval) -> list (any * any) -> Prop :=
| rem_nil k v : readsm k v [] []
| rem_cons k v wa wb a b ws vs : reads k wa a -> reads v wb b -> readsm k v ws vs ->
    readsm k v ((wa, wb) :: ws) ((a, b) :: vs)
with readsf : list member -> list (Z * any) -> list (Z * tval) -> list (Z * any) -> Prop :=
| ref_nil ms attrs : readsf ms attrs [] attrs
| ref_known ms attrs id w fs m v attrs' :
    In m ms -> m_id m = id -> reads (m_ty m) w v ->
    readsf ms (attr_set attrs id v) fs attrs' ->
    readsf ms attrs ((id, w) :: fs) attrs'
| ref_unknown ms attrs id w fs attrs' :
    (forall m, In m ms -> m_id m <> id) ->
    readsf ms attrs fs attrs' ->
    readsf ms attrs ((id, w) :: fs) attrs'.
End Wire.

(** Schemas as IDL allows them: distinct ids, distinct non-empty names; ids are not negative
    (negative ones are what the IDL compiler gives to members without one). *)
Definition members_ok (ms : list member) : Prop :=
  NoDup (map m_id ms) /\ NoDup (map m_name ms) /\
  forall m, In m ms -> m_name m <> [] /\ 0 <= m_id m < 2 ^ 15.
Inductive schema_ok : ty -> Prop :=
| so_bool : schema_ok TyBool | so_byte : schema_ok TyByte | so_i16 : schema_ok TyI16
| so_i32 : schema_ok TyI32 | so_i64 : schema_ok TyI64 | so_double : schema_ok TyDouble
| so_string : schema_ok TyString | so_binary : schema_ok TyBinary
| so_enum tag n cs : schema_ok (TyEnum tag n cs)
| so_list t : schema_ok t -> schema_ok (TyList t)
| so_set t : schema_ok t -> schema_ok (TySet t)
| so_map k v : schema_ok k -> schema_ok v -> schema_ok (TyMap k v)
| so_struct name ms : members_ok ms -> (forall m, In m ms -> schema_ok (m_ty m)) ->
    schema_ok (TyStruct name ms).
