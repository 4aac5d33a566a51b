(** The code t_go_generator.cc emits for members and elements whose type is a typedef.

    Gen.v has the generated code for types after get_true_type.  The generator does not resolve
    typedefs everywhere: WriteFieldK asks the type itself whether it is an enum
    (t_go_generator.cc:1350, 1375), and values of a typedef of a base type or an enum have a Go
    type of their own (generate_typedef, 570-582; type_to_go_type, 3257-3317), without methods,
    which the containers of the library do not know.

    Simplification.  A typedef of a struct is a named pointer type: it has no methods, and the
    code that reads and writes a member or element of it (prefix.Read, prefix.Write) does not
    compile.  Nothing below is meant for such types. *)
From Coq Require Import ZArith List Bool.
From Verif Require Import Base Errors Transport Proto Skip Values.
From Verif Require Import Arith F64 Strconv TField GoVal Compare TList TSet TMap Gen.
Import ListNotations.
Open Scope Z_scope.

(** Types as they are written: [DTy] is a type in which there is no typedef. *)
Inductive dty : Type :=
| DTy (t : ty)
| DList (e : dty)
| DSet (e : dty)
| DMap (k v : dty)
| DStruct (name : bytes) (ms : list dmember)
| DTypedef (alias : bytes) (t : dty)
with dmember : Type :=
| DMem (id : Z) (name : bytes) (opt : bool) (def : option any) (t : dty).
Definition dm_id (m : dmember) : Z := let 'DMem i _ _ _ _ := m in i.
Definition dm_ty (m : dmember) : dty := let 'DMem _ _ _ _ t := m in t.
Definition dm_opt (m : dmember) : bool := let 'DMem _ _ o _ _ := m in o.

(** get_true_type (t_generator.h, not part of the repository). *)
Fixpoint get_true_type (t : dty) : dty := match t with DTypedef _ t' => get_true_type t' | _ => t end.
(** The type without any typedef, at the head or inside. *)
Fixpoint resolve (t : dty) : ty :=
  match t with
  | DTy t => t
  | DList e => TyList (resolve e)
  | DSet e => TySet (resolve e)
  | DMap k v => TyMap (resolve k) (resolve v)
  | DStruct name ms => TyStruct name (map resolve_m ms)
  | DTypedef _ t => resolve t
  end
with resolve_m (m : dmember) : member :=
  match m with DMem i n o d t => Mem i n o d (resolve t) end.

(** type->is_base_type() || type->is_enum() of a resolved type. *)
Definition is_scalar (t : ty) : bool :=
  match t with TyList _ | TySet _ | TyMap _ _ | TyStruct _ _ => false | _ => true end.
(** get_type()->is_enum() of the member, t_go_generator.cc:1350, 1375: false of a typedef. *)
Definition is_enum_here (t : dty) : bool := match t with DTy (TyEnum _ _ _) => true | _ => false end.

(** ** Values of named Go types *)

(** [nm_conv a v] is A(v) as an interface{}, for a typedef A of a base type or an enum; its type
    is known to no case of the library's type switches.  [nm_assert a i] is i.(A), [None] where
    it panics. *)
Record naming : Type := MkNaming {
  nm_conv : bytes -> any -> any;
  nm_assert : bytes -> any -> option any
}.
(** A value of a type of its own: [AOther].  (A typedef of binary is not comparable, [OSlice];
    the others are, [OValue].)  Only such a value can pass the assertion. *)
Definition naming_ok (N : naming) : Prop :=
  (forall a v, exists k i, k <> OListPtr /\ nm_conv N a v = AOther k i) /\
  (forall a v w, nm_assert N a v = Some w -> exists k i, v = AOther k i).

Section Typedef.
Variable N : naming.
(** A(v) in generate_deserialize_field, t_go_generator.cc:2548-2558, handed to Push, Add or Set:
    A is the typedef, not what it stands for.  A typedef of a container is an interface type; the
    conversion leaves the object as it is. *)
Definition elem_value (t : dty) (v : any) : any :=
  match t with
  | DTypedef a _ => if is_scalar (resolve t) then nm_conv N a v else v
  | _ => v
  end.
(** x.(A) in generate_serialize_container, t_go_generator.cc:2882-2940. *)
Definition elem_assert (t : dty) (v : any) : option any :=
  match t with
  | DTypedef a _ => if is_scalar (resolve t) then nm_assert N a v else Some v
  | _ => Some v
  end.

Section Reader.
Context {S : Type}.
Variable R : rproto S.
Variable x : ext.
Variable MaxSkipDepth : Z.
Variable cfuel : nat.

(** generate_deserialize_field and its helpers, t_go_generator.cc:2452-2772. *)
Fixpoint dread (fuel : nat) (t : dty) : hop S any :=
  match fuel with
  | O => fun _ => OutOfFuel
  | Datatypes.S f =>
    match get_true_type t with
    | DTy u => gread R x MaxSkipDepth cfuel (Datatypes.S f) u
    | DList e =>
      '(t, n) <-- hwrap (hlift (rListBegin R)) ;;
      l <-- gfill (Z.to_nat n) (v <-- dread f e ;; hret (elem_value e v)) (tl_Push x) (NewTList t n) ;;
      _ <-- hwrap (hdo (rListEnd R)) ;;
      hret (AList 0 (tl_et l) (tl_l l))
    | DSet e =>
      '(t, n) <-- hwrap (hlift (rSetBegin R)) ;;
      l <-- gfill (Z.to_nat n) (v <-- dread f e ;; hret (elem_value e v)) (ts_Add x cfuel) (NewTSet t n) ;;
      _ <-- hwrap (hdo (rSetEnd R)) ;;
      hret (ASet 0 (ts_et l) (ts_size l) (ts_l l))
    | DMap k v =>
      '(kt, vt, n) <-- hwrap (hlift (rMapBegin R)) ;;
      l <-- gfill (Z.to_nat n) (a <-- dread f k ;; b <-- dread f v ;; hret (elem_value k a, elem_value v b))
              (fun p kv => tm_Set x cfuel p (fst kv) (snd kv)) (NewTMap kt vt n) ;;
      _ <-- hwrap (hdo (rMapEnd R)) ;;
      hret (AMap 0 (tm_kt l) (tm_vt l) (tm_size l) (tm_l l) (tm_b l))
    | DStruct name ms =>
      let rms := map resolve_m ms in
      _ <-- hwrap (hlift (rStructBegin R)) ;;
      attrs <-- dread_fields f ms (map (fun m => (m_id m, m_init m)) rms) ;;
      _ <-- hwrap (hdo (rStructEnd R)) ;;
      hret (AStruct 0 name (fc_of rms) attrs)
    | DTypedef _ _ => fun _ => Panic            (* not a true type *)
    end
  end
(** The field loop, t_go_generator.cc:1158-1231. *)
with dread_fields (fuel : nat) (ms : list dmember) (attrs : list (Z * any)) : hop S (list (Z * any)) :=
  match fuel with
  | O => fun _ => OutOfFuel
  | Datatypes.S f =>
    let c := fc_of (map resolve_m ms) in
    '(fieldName, fieldTypeId, fieldId) <-- hwrap (hlift (rFieldBegin R)) ;;
    let id := if fieldId <? 0 then wraps 16 (FieldIdFromFieldName c fieldName) else fieldId in
    let name := if fieldId <? 0 then fieldName
                else match fieldName with
                     | [] => FieldNameFromFieldId c fieldId
                     | _ => fieldName
                     end in
    let tid := if fieldTypeId =? GENERIC then f_type (FieldFromFieldId c id) else fieldTypeId in
    if tid =? STOP then hret attrs
    else
      attrs' <--
        match find (fun m => (id =? dm_id m) || str_eq name (m_name (resolve_m m))) ms with
        | Some m =>
          if negb (tid =? ThriftTypeId (type_to_enum (resolve (dm_ty m)))) && (tid =? VOID)
          then _ <-- hwrap (hdo (skip_default R MaxSkipDepth f tid)) ;; hret attrs
          else v <-- hwrap (dread f (dm_ty m)) ;; hret (attr_set attrs (dm_id m) v)
        | None => _ <-- hwrap (hdo (skip_default R MaxSkipDepth f tid)) ;; hret attrs
        end ;;
      _ <-- hwrap (hdo (rFieldEnd R)) ;;
      dread_fields f ms attrs'
  end.
End Reader.

Section Writer.
Context {S : Type}.
Variable W : wproto S.
Variable x : ext.

(** Whether WriteFieldK emits the field, t_go_generator.cc:1335-1355: can_be_nil and IsSet go by
    the true type, the question whether to call IsSet by the type as written. *)
Definition demits (m : dmember) (v : any) : bool :=
  (negb (can_be_nil (resolve (dm_ty m))) || negb (is_nil v)) &&
  (negb (dm_opt m || is_enum_here (dm_ty m)) || gisset (resolve_m m) v).

(** get_sorted_members, as in Gen.v. *)
Fixpoint insert_dm (m : dmember) (l : list dmember) : list dmember :=
  match l with
  | [] => [m]
  | n :: l' => if dm_id m <? dm_id n then m :: l else n :: insert_dm m l'
  end.
Fixpoint sorted_dmembers (ms : list dmember) : list dmember :=
  match ms with [] => [] | m :: ms' => insert_dm m (sorted_dmembers ms') end.

(** generate_serialize_field and its helpers, t_go_generator.cc:2754-2990, and WriteFieldK. *)
Fixpoint dwrite (fuel : nat) (t : dty) (v : any) : wop S :=
  match fuel with
  | O => fun _ => OutOfFuel
  | Datatypes.S f =>
    let elem e u := match elem_assert e u with Some w => dwrite f e w | None => panic_w end in
    match get_true_type t, v with
    | DTy u, _ => gwrite W x (Datatypes.S f) u v
    | DList e, AList _ _ l =>
      wwrap (wListBegin W (type_to_enum (resolve e)) (any_len v)) >>>
      wseqs (map (elem e) l) >>> wwrap (wListEnd W)
    | DSet e, ASet _ _ _ l =>
      wwrap (wSetBegin W (type_to_enum (resolve e)) (any_len v)) >>>
      wseqs (map (elem e) l) >>> wwrap (wSetEnd W)
    | DMap k w, AMap a kt _ _ l b =>
      wwrap (wMapBegin W (type_to_enum (resolve k)) (type_to_enum (resolve w)) (any_len v)) >>>
      (fun s => es <- map_entries x (2 * a) kt l b ;;
                wseqs (map (fun kv =>
                  match elem_assert k (fst kv), elem_assert w (snd kv) with
                  | Some ka, Some wa => dwrite f k ka >>> dwrite f w wa
                  | _, _ => panic_w
                  end) es) s) >>>
      wwrap (wMapEnd W)
    | DStruct name ms, AStruct _ name' _ attrs =>
      if str_eq name name' then
        wwrap (wStructBegin W name) >>>
        wseqs (map (fun m => dwrite_field f m (attribute attrs (dm_id m))) (sorted_dmembers ms)) >>>
        wwrap (wFieldStop W) >>> wwrap (wStructEnd W)
      else panic_w
    | _, _ => panic_w
    end
  end
with dwrite_field (fuel : nat) (m : dmember) (v : any) : wop S :=
  match fuel with
  | O => fun _ => OutOfFuel
  | Datatypes.S f =>
    if demits m v then
      wwrap (wFieldBegin W (m_name (resolve_m m)) (type_to_enum (resolve (dm_ty m))) (dm_id m)) >>>
      wwrap (dwrite f (dm_ty m) v) >>>
      wwrap (wFieldEnd W)
    else nop
  end.
End Writer.
End Typedef.
