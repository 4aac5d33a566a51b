(** C80: containers made without an element type take the type of the first value they are given. *)
From Coq Require Import ZArith List Bool Lia SpecFloat.
From Coq Require Import ZifyBool ZifyNat.
From Verif Require Import Base Arith F64 Strconv TField GoVal Compare CompareProofs CoerceProofs TList TSet TMap PropContainers.
Import ListNotations.
Open Scope Z_scope.

(** The Go values of a Thrift type that the generated code uses for it. *)
Inductive of_type : Z -> any -> Prop :=
| ot_bool b : of_type BOOL (ABool b)
| ot_byte z : in_u 8 z -> of_type BYTE (AByte z)
| ot_i16 z : in_s 16 z -> of_type I16 (AInt16 z)
| ot_i32 z : in_s 32 z -> of_type I32 (AInt32 z)
| ot_i64 z : in_s 64 z -> of_type I64 (AInt64 z)
| ot_double b : of_type DOUBLE (AF64 b)
| ot_string s : of_type STRING (AStr s)
| ot_binary s : of_type BINARY (ABytes s)
| ot_struct a n f l : of_type STRUCT (AStruct a n f l)
| ot_map a kt vt sz l b : of_type MAP (AMap a kt vt sz l b)
| ot_set a et sz l : of_type SET (ASet a et sz l)
| ot_list a et l : of_type LIST (AList a et l).
Definition untyped (t : Z) : Prop := t = STOP \/ t = VOID.
Fixpoint pushes (x : ext) (p : tlist) (ds : list any) : outcome tlist :=
  match ds with [] => Ok p | d :: ds' => q <- tl_Push x p d ;; pushes x q ds' end.

Lemma type_from : forall t d, of_type t d -> TypeFromValue d = t.
Proof. intros t d []; reflexivity. Qed.
Lemma type_coerce : forall x t d, of_type t d -> CoerceData x t d = Ok (d, true).
Proof.
  intros x t d []; try reflexivity.
  - change (Ok (coerce_byte x (AByte z)) = Ok (AByte z, true)). cbn [coerce_byte as_integer]. now rewrite wrapu_id.
  - change (Ok (coerce_int x 16 AInt16 (AInt16 z)) = Ok (AInt16 z, true)). cbn [coerce_int as_integer]. now rewrite wraps_id by (lia || assumption).
  - change (Ok (coerce_int x 32 AInt32 (AInt32 z)) = Ok (AInt32 z, true)). cbn [coerce_int as_integer]. now rewrite wraps_id by (lia || assumption).
  - change (Ok (coerce_int x 64 AInt64 (AInt64 z)) = Ok (AInt64 z, true)). cbn [coerce_int as_integer]. now rewrite wraps_id by (lia || assumption).
Qed.
Lemma typed_not_empty : forall t d, of_type t d -> t <> STOP /\ t <> VOID.
Proof. intros t d []; split; discriminate. Qed.

(** ** C80 *)

(** The type of a value is the Thrift type it stands for, and coercing it to that type changes nothing. *)
Theorem C80_type : forall x t d, of_type t d -> TypeFromValue d = t /\ CoerceData x (TypeFromValue d) d = Ok (d, true).
Proof. intros x t d H. rewrite (type_from t d H). split; [reflexivity|now apply type_coerce]. Qed.
Print Assumptions C80_type.

(** A list without an element type that is given values of one type becomes the list of them. *)
Theorem C80_list : forall x et t ds, untyped et -> Forall (of_type t) ds -> ds <> [] ->
  pushes x (NewTList et 0) ds = Ok (MkTl t ds).
Proof.
  intros x et t ds U F N.
  assert (G : forall ds l, Forall (of_type t) ds -> pushes x (MkTl t l) ds = Ok (MkTl t (l ++ ds))).
  { clear. induction ds as [|d ds IH]; intros l F; [now rewrite app_nil_r|]. apply Forall_cons_iff in F as [Fd F].
    cbn [pushes]. unfold tl_Push, tl_settype. cbn [tl_et tl_l].
    assert (E : IsEmptyType t = false) by (destruct Fd; reflexivity). rewrite E, (type_coerce x t d Fd). cbn [obind].
    rewrite (IH (l ++ [d]) F), <- app_assoc. reflexivity. }
  destruct ds as [|d ds]; [congruence|]. apply Forall_cons_iff in F as [Fd F].
  cbn [pushes]. unfold tl_Push, tl_settype. cbn [tl_et tl_l NewTList].
  assert (E : IsEmptyType et = true) by (destruct U; subst; reflexivity). rewrite E, (type_from t d Fd), (type_coerce x t d Fd).
  cbn [obind app]. rewrite (G ds [d] F). reflexivity.
Qed.
Print Assumptions C80_list.

(** A map without types behaves from its first entry on like one made with the types of that entry. *)
Theorem C80_map : forall x f kt0 vt0 kt vt size k v h, untyped kt0 -> untyped vt0 -> of_type kt k -> of_type vt v ->
  tm_run x f (NewTMap kt0 vt0 size) ((k, v) :: h) = tm_run x f (NewTMap kt vt size) ((k, v) :: h).
Proof.
  intros x f kt0 vt0 kt vt size k v h U1 U2 K V. cbn [tm_run]. f_equal.
  unfold tm_Set, NewTMap. cbn [tm_kt tm_vt tm_size tm_l tm_b].
  replace ((kt0 =? STOP) || (kt0 =? VOID)) with true by (destruct U1; subst; reflexivity).
  replace ((vt0 =? STOP) || (vt0 =? VOID)) with true by (destruct U2; subst; reflexivity).
  destruct (typed_not_empty _ _ K) as [K1 K2]. destruct (typed_not_empty _ _ V) as [V1 V2].
  replace ((kt =? STOP) || (kt =? VOID)) with false by lia.
  replace ((vt =? STOP) || (vt =? VOID)) with false by lia.
  rewrite (type_from _ _ K), (type_from _ _ V), (type_coerce _ _ _ K), (type_coerce _ _ _ V). reflexivity.
Qed.
Print Assumptions C80_map.

(** A set never takes a type: whatever is added to a set without one, nil is stored. *)
Theorem C80_set_refuted : forall x f et d, untyped et -> ts_Add x f (NewTSet et 0) d = Ok (MkTs et 0 [ANil]).
Proof. intros x f et d [-> | ->]; destruct d; reflexivity. Qed.
Print Assumptions C80_set_refuted.

(** Other Go values: an int beyond 32 bits and a negative int8 are changed, a uint becomes nil, a
    slice is refused, and the list is then of type LIST, or without one. *)
Theorem C80_other_refuted :
  pushes ext0 (NewTList STOP 0) [AInt (2 ^ 31)] = Ok (MkTl I32 [AInt32 (- 2 ^ 31)]) /\
  pushes ext0 (NewTList STOP 0) [AInt8 (-1)] = Ok (MkTl BYTE [AByte 255]) /\
  pushes ext0 (NewTList STOP 0) [AUint32 7] = Ok (MkTl STOP [ANil]) /\
  pushes ext0 (NewTList STOP 0) [AOther OSlice 1] = Ok (MkTl LIST []).
Proof. repeat split; vm_compute; reflexivity. Qed.
Print Assumptions C80_other_refuted.

(** An int that fits in 32 bits is kept as an int32, an int8 from 0 on as a byte, a float32 as the
    float64 of the same value. *)
Theorem C80_int : forall x z, 
  (in_s 32 z -> CoerceData x (TypeFromValue (AInt z)) (AInt z) = Ok (AInt32 z, true)) /\
  (0 <= z < 128 -> CoerceData x (TypeFromValue (AInt8 z)) (AInt8 z) = Ok (AByte z, true)).
Proof.
  intros x z. split; intros H.
  - change (Ok (coerce_int x 32 AInt32 (AInt z)) = Ok (AInt32 z, true)). cbn [coerce_int as_integer]. now rewrite wraps_id by (lia || assumption).
  - change (Ok (coerce_byte x (AInt8 z)) = Ok (AByte z, true)). cbn [coerce_byte as_integer].
    now rewrite wrapu_id by (unfold in_u; lia).
Qed.
Print Assumptions C80_int.

Example C80_ex :
  Forall (of_type I64) [AInt64 (2 ^ 40); AInt64 (-1)] /\
  pushes ext0 (NewTList VOID 0) [AInt64 (2 ^ 40); AInt64 (-1)] = Ok (MkTl I64 [AInt64 (2 ^ 40); AInt64 (-1)]) /\
  of_type STRING (AStr [97]) /\ of_type BOOL (ABool true) /\
  tm_run ext0 1 (NewTMap STOP STOP 0) [(AStr [97], ABool true)] = Ok (MkTm STRING BOOL 0 [] [(AStr [97], ABool true)]).
Proof.
  repeat split; try (repeat constructor; unfold in_s; lia); vm_compute; reflexivity.
Qed.
