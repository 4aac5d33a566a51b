(** Code that compiler/cpp/src/generate/t_go_generator.cc emits for structs, exceptions and
    function argument/result structs, as functions of the IDL type. *)
From Coq Require Import ZArith List Bool Lia.
From Verif Require Import Base Errors Transport Proto Skip Values.
From Verif Require Import Arith F64 Strconv TField GoVal Compare TList TSet TMap.
Import ListNotations.
Open Scope Z_scope.

(** ** IDL types *)

(** Types as the generator sees them after get_true_type; Typedef.v has typedefs.
    An enum is given by a number naming its Go type and its (constant, value) table; a struct
    (or exception) by its IDL name and members in source order.  Recursive structs, which the
    parser rejects, have no counterpart. *)
Inductive ty : Type :=
| TyBool | TyByte | TyI16 | TyI32 | TyI64 | TyDouble | TyString | TyBinary
| TyEnum (tag : Z) (name : bytes) (cs : list (bytes * Z))
| TyList (t : ty)
| TySet (t : ty)
| TyMap (k v : ty)
| TyStruct (name : bytes) (ms : list member)
(** key, name, whether optional, the value of the IDL default, type. *)
with member : Type :=
| Mem (id : Z) (name : bytes) (opt : bool) (def : option any) (t : ty).

Definition m_id (m : member) : Z := let 'Mem i _ _ _ _ := m in i.
Definition m_name (m : member) : bytes := let 'Mem _ n _ _ _ := m in n.
Definition m_opt (m : member) : bool := let 'Mem _ _ o _ _ := m in o.
Definition m_def (m : member) : option any := let 'Mem _ _ _ d _ := m in d.
Definition m_ty (m : member) : ty := let 'Mem _ _ _ _ t := m in t.

(** type_to_enum, t_go_generator.cc:3203-3250. *)
Definition type_to_enum (t : ty) : Z :=
  match t with
  | TyBool => BOOL | TyByte => BYTE | TyI16 => I16 | TyI32 => I32 | TyI64 => I64
  | TyDouble => DOUBLE | TyString => STRING | TyBinary => BINARY
  | TyEnum _ _ _ => I32
  | TyStruct _ _ => STRUCT | TyMap _ _ => MAP | TySet _ => SET | TyList _ => LIST
  end.

(** Enum String(): t_go_generator.cc:590-648.  Constants print as <Enum>_<Constant>. *)
Definition s_unset : bytes := [60; 85; 78; 83; 69; 84; 62].   (* <UNSET> *)
Definition enum_label (name c : bytes) : bytes := name ++ [95] ++ c.
Fixpoint enum_String (name : bytes) (cs : list (bytes * Z)) (v : Z) : bytes :=
  match cs with
  | [] => s_unset
  | (c, z) :: cs' => if v =? z then enum_label name c else enum_String name cs' v
  end.

(** math.MinInt32 - 1, what an enum member holds before it is set. *)
Definition enum_unset : Z := -2147483649.
Definition mk_enum (tag : Z) (name : bytes) (cs : list (bytes * Z)) (v : Z) : any :=
  AEnum tag v (enum_String name cs v).

(** Go's zero value of a member's type; enums are int64. *)
Definition go_zero (t : ty) : any :=
  match t with
  | TyBool => ABool false | TyByte => AByte 0 | TyI16 => AInt16 0 | TyI32 => AInt32 0
  | TyI64 => AInt64 0 | TyDouble => AF64 0 | TyString => AStr []
  | TyEnum tag n cs => mk_enum tag n cs 0
  | _ => ANil
  end.
(** The constructor, t_go_generator.cc:887-936: the default if any, else the unset marker for
    enums, else the zero value. *)
Definition m_init (m : member) : any :=
  match m_def m with
  | Some d => d
  | None => match m_ty m with
            | TyEnum tag n cs => mk_enum tag n cs enum_unset
            | t => go_zero t
            end
  end.
(** The field table of an object, t_go_generator.cc:900-909 (NewTStruct). *)
Definition fields_of (ms : list member) : list tfield :=
  map (fun m => F (m_name m) (type_to_enum (m_ty m)) (m_id m)) ms.
Definition fc_of (ms : list member) : fcont := NewTFieldContainer 0 (fields_of ms).
(** NewX(): members as (id, value).  Objects made here have an address of their own, 0
    ([same_obj]). *)
Definition gnew (name : bytes) (ms : list member) : any :=
  AStruct 0 name (fc_of ms) (map (fun m => (m_id m, m_init m)) ms).

Fixpoint attr_set (l : list (Z * any)) (id : Z) (v : any) : list (Z * any) :=
  match l with
  | [] => []
  | (i, w) :: l' => if i =? id then (i, v) :: l' else (i, w) :: attr_set l' id v
  end.

(** ** The generated Read methods *)

Section Reader.
Context {S : Type}.
Variable R : rproto S.
Variable x : ext.
Variable MaxSkipDepth : Z.
Variable cfuel : nat.                 (* fuel of TType.Compare inside TSet.Add and TMap.Set *)

(** [if err != nil { return NewTProtocolExceptionRead...(..., err) }] *)
Definition hwrap {A} (m : hop S A) : hop S A :=
  fun s => '(r, s') <- m s ;;
           match r with
           | inl a => Ok (inl a, s')
           | inr e => Ok (inr (protocol_exc_wrap e), s')
           end.
Definition hout {A} (o : outcome A) : hop S A := fun s => a <- o ;; Ok (inl a, s).

(** The loops of generate_deserialize_container, t_go_generator.cc:2665-2683, 2712-2772. *)
Fixpoint gfill {A B} (n : nat) (elem : hop S B) (put : A -> B -> outcome A) (a : A) : hop S A :=
  match n with
  | O => hret a
  | Datatypes.S n' => v <-- elem ;; a' <-- hout (put a v) ;; gfill n' elem put a'
  end.

(** ReadFieldK, generate_deserialize_field and its helpers, t_go_generator.cc:2450-2772: read
    one value of type [t].  Objects that are partly filled when an error ends the read are
    not part of the result. *)
Fixpoint gread (fuel : nat) (t : ty) : hop S any :=
  match fuel with
  | O => fun _ => OutOfFuel
  | Datatypes.S f =>
    match t with
    | TyBool => v <-- hwrap (hlift (rBool R)) ;; hret (ABool v)
    | TyByte => v <-- hwrap (hlift (rByte R)) ;; hret (AByte v)
    | TyI16 => v <-- hwrap (hlift (rI16 R)) ;; hret (AInt16 v)
    | TyI32 => v <-- hwrap (hlift (rI32 R)) ;; hret (AInt32 v)
    | TyI64 => v <-- hwrap (hlift (rI64 R)) ;; hret (AInt64 v)
    | TyDouble => v <-- hwrap (hlift (rDouble R)) ;; hret (AF64 v)
    | TyString => v <-- hwrap (hlift (rString R)) ;; hret (AStr v)
    | TyBinary => v <-- hwrap (hlift (rBinary R)) ;; hret (ABytes v)
    | TyEnum tag n cs => v <-- hwrap (hlift (rI32 R)) ;; hret (mk_enum tag n cs v)
    | TyList et =>
      '(t, n) <-- hwrap (hlift (rListBegin R)) ;;
      l <-- gfill (Z.to_nat n) (gread f et) (tl_Push x) (NewTList t n) ;;
      _ <-- hwrap (hdo (rListEnd R)) ;;
      hret (AList 0 (tl_et l) (tl_l l))
    | TySet et =>
      '(t, n) <-- hwrap (hlift (rSetBegin R)) ;;
      l <-- gfill (Z.to_nat n) (gread f et) (ts_Add x cfuel) (NewTSet t n) ;;
      _ <-- hwrap (hdo (rSetEnd R)) ;;
      hret (ASet 0 (ts_et l) (ts_size l) (ts_l l))
    | TyMap k v =>
      '(kt, vt, n) <-- hwrap (hlift (rMapBegin R)) ;;
      l <-- gfill (Z.to_nat n) (a <-- gread f k ;; b <-- gread f v ;; hret (a, b))
              (fun p kv => tm_Set x cfuel p (fst kv) (snd kv)) (NewTMap kt vt n) ;;
      _ <-- hwrap (hdo (rMapEnd R)) ;;
      hret (AMap 0 (tm_kt l) (tm_vt l) (tm_size l) (tm_l l) (tm_b l))
    | TyStruct name ms =>
      (* NewX() and X.Read, t_go_generator.cc:2565-2585, 1144-1240 *)
      _ <-- hwrap (hlift (rStructBegin R)) ;;
      attrs <-- gread_fields f ms (map (fun m => (m_id m, m_init m)) ms) ;;
      _ <-- hwrap (hdo (rStructEnd R)) ;;
      hret (AStruct 0 name (fc_of ms) attrs)
    end
  end
(** The field loop, t_go_generator.cc:1158-1231. *)
with gread_fields (fuel : nat) (ms : list member) (attrs : list (Z * any)) : hop S (list (Z * any)) :=
  match fuel with
  | O => fun _ => OutOfFuel
  | Datatypes.S f =>
    let c := fc_of ms in
    '(fieldName, fieldTypeId, fieldId) <-- hwrap (hlift (rFieldBegin R)) ;;
    let id := if fieldId <? 0 then wraps 16 (FieldIdFromFieldName c fieldName) else fieldId in
    let name := if fieldId <? 0 then fieldName
                else match fieldName with
                     | [] => FieldNameFromFieldId c fieldId
                     | _ => fieldName
                     end in
    let tid := if fieldTypeId =? GENERIC then f_type (FieldFromFieldId c id) else fieldTypeId in
    if tid =? STOP then hret attrs
    else
      attrs' <--
        match find (fun m => (id =? m_id m) || str_eq name (m_name m)) ms with
        | Some m =>
          (* the expected type, and every other type but VOID: the same call *)
          if negb (tid =? ThriftTypeId (type_to_enum (m_ty m))) && (tid =? VOID)
          then _ <-- hwrap (hdo (skip_default R MaxSkipDepth f tid)) ;; hret attrs
          else v <-- hwrap (gread f (m_ty m)) ;; hret (attr_set attrs (m_id m) v)
        | None => _ <-- hwrap (hdo (skip_default R MaxSkipDepth f tid)) ;; hret attrs
        end ;;
      _ <-- hwrap (hdo (rFieldEnd R)) ;;
      gread_fields f ms attrs'
  end.

(** X.Read on a new object. *)
Definition gread_struct (fuel : nat) (name : bytes) (ms : list member) : hop S any :=
  gread fuel (TyStruct name ms).
End Reader.

(** ** The generated Write methods *)

(** can_be_nil, t_go_generator.cc:3323-3358. *)
Definition can_be_nil (t : ty) : bool :=
  match t with
  | TyBinary | TyStruct _ _ | TyMap _ _ | TySet _ | TyList _ => true
  | _ => false
  end.

Definition any_len (v : any) : Z :=
  match v with
  | AList _ _ l => Z.of_nat (length l)
  | ASet _ _ size l => set_Len size l
  | AMap _ kt _ size l b => map_Len kt size l b
  | _ => 0
  end.

(** The IsSetX methods, t_go_generator.cc:1039-1139.  [dv] is the default as the check sees it.
    Floats compare with ==. *)
Definition base_differs (v w : any) : bool :=
  match v, w with
  | ABool a, ABool b => negb (eqb a b)
  | AByte a, AByte b | AInt16 a, AInt16 b | AInt32 a, AInt32 b | AInt64 a, AInt64 b => negb (a =? b)
  | AF64 a, AF64 b => negb (f64_eq a b)
  | AStr a, AStr b => negb (str_eq a b)
  | _, _ => true
  end.
Definition gisset (m : member) (v : any) : bool :=
  match m_ty m with
  | TyBinary | TyStruct _ _ => negb (is_nil v)
  | TyEnum _ _ _ => match v with AEnum _ z _ => negb (z =? enum_unset) | _ => true end
  | TyList _ | TySet _ | TyMap _ _ =>
    match m_def m with
    | Some d => if 0 <? any_len d then negb (is_nil v)
                else negb (is_nil v) && (0 <? any_len v)
    | None => negb (is_nil v) && (0 <? any_len v)
    end
  | t => base_differs v (match m_def m with Some d => d | None => go_zero t end)
  end.

Section Writer.
Context {S : Type}.
Variable W : wproto S.
Variable x : ext.

(** [if err != nil { return NewTProtocolExceptionWrite...(..., err) }] *)
Definition wwrap (m : wop S) : wop S :=
  fun s => '(e, s') <- m s ;;
           match e with
           | Some e => Ok (Some (protocol_exc_wrap e), s')
           | None => Ok (None, s')
           end.
Definition panic_w : wop S := fun _ => Panic.

(** Whether WriteFieldK emits the field, t_go_generator.cc:1335-1350. *)
Definition gemits (m : member) (v : any) : bool :=
  (negb (can_be_nil (m_ty m)) || negb (is_nil v)) &&
  (negb (m_opt m || match m_ty m with TyEnum _ _ _ => true | _ => false end) || gisset m v).

(** get_sorted_members: the members by increasing key (t_struct.h, not part of the repository). *)
Fixpoint insert_m (m : member) (l : list member) : list member :=
  match l with
  | [] => [m]
  | n :: l' => if m_id m <? m_id n then m :: l else n :: insert_m m l'
  end.
Fixpoint sorted_members (ms : list member) : list member :=
  match ms with [] => [] | m :: ms' => insert_m m (sorted_members ms') end.

(** generate_serialize_field and its helpers, t_go_generator.cc:2775-2990, and X.Write with
    its WriteFieldK methods, 1261-1396.  A value that is not of the Go type of [t] is a failed
    type assertion (2914-2940) or a nil receiver: panic.  [fuel] bounds the nesting of the type. *)
Fixpoint gwrite (fuel : nat) (t : ty) (v : any) : wop S :=
  match fuel with
  | O => fun _ => OutOfFuel
  | Datatypes.S f =>
    match t, v with
    | TyBool, ABool b => wwrap (wBool W b)
    | TyByte, AByte z => wwrap (wByte W z)
    | TyI16, AInt16 z => wwrap (wI16 W z)
    | TyI32, AInt32 z => wwrap (wI32 W z)
    | TyI64, AInt64 z => wwrap (wI64 W z)
    | TyDouble, AF64 z => wwrap (wDouble W z)
    | TyString, AStr s => wwrap (wString W s)
    | TyBinary, ABytes s => wwrap (wBinary W s)
    | TyEnum tag _ _, AEnum tag' z _ =>
      if tag =? tag' then wwrap (wI32 W (wraps 32 z)) else panic_w
    | TyList et, AList _ _ l =>
      wwrap (wListBegin W (type_to_enum et) (any_len v)) >>>
      wseqs (map (gwrite f et) l) >>> wwrap (wListEnd W)
    | TySet et, ASet _ _ _ l =>
      wwrap (wSetBegin W (type_to_enum et) (any_len v)) >>>
      wseqs (map (gwrite f et) l) >>> wwrap (wSetEnd W)
    | TyMap k w, AMap a kt _ _ l b =>
      wwrap (wMapBegin W (type_to_enum k) (type_to_enum w) (any_len v)) >>>
      (fun s => es <- map_entries x (2 * a) kt l b ;;
                wseqs (map (fun kv => gwrite f k (fst kv) >>> gwrite f w (snd kv)) es) s) >>>
      wwrap (wMapEnd W)
    | TyStruct name ms, AStruct _ name' _ attrs =>
      if str_eq name name' then
        wwrap (wStructBegin W name) >>>
        wseqs (map (fun m => gwrite_field f m (attribute attrs (m_id m))) (sorted_members ms)) >>>
        wwrap (wFieldStop W) >>> wwrap (wStructEnd W)
      else panic_w
    | _, _ => panic_w
    end
  end
with gwrite_field (fuel : nat) (m : member) (v : any) : wop S :=
  match fuel with
  | O => fun _ => OutOfFuel
  | Datatypes.S f =>
    if gemits m v then
      wwrap (wFieldBegin W (m_name m) (type_to_enum (m_ty m)) (m_id m)) >>>
      wwrap (gwrite f (m_ty m) v) >>>
      wwrap (wFieldEnd W)
    else nop
  end.

(** Write of a function's result struct, t_go_generator.cc:1283-1312: a switch over the
    members, last key first; a nilable member other than 0 is a case of its own, any other the
    default. *)
Fixpoint result_pick (attrs : list (Z * any)) (dflt : option member) (l : list member)
  : option member :=
  match l with
  | [] => dflt
  | m :: l' =>
    if can_be_nil (m_ty m) && negb (m_id m =? 0) then
      if is_nil (attribute attrs (m_id m)) then result_pick attrs dflt l' else Some m
    else result_pick attrs (match dflt with None => Some m | d => d end) l'
  end.
Definition gwrite_result (fuel : nat) (name : bytes) (ms : list member) (attrs : list (Z * any))
  : wop S :=
  wwrap (wStructBegin W name) >>>
  (match result_pick attrs None (rev (sorted_members ms)) with
   | Some m => gwrite_field fuel m (attribute attrs (m_id m))
   | None => nop
   end) >>>
  wwrap (wFieldStop W) >>> wwrap (wStructEnd W).
End Writer.
