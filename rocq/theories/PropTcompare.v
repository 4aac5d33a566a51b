(** C111: the comparison functions of tcompare.go put values in order.  More of C41: what a field is equal to. *)
From Coq Require Import ZArith List Bool Lia.
From Coq Require Import ZifyBool ZifyNat SpecFloat.
From Verif Require Import Base Arith F64 TField TFieldProofs Compare CompareProofs Tcompare.
Import ListNotations.
Open Scope Z_scope.

(** The order of numbers, false before true, the alphabetical order of bytes. *)
Theorem C111_scalars :
  decides CompareInt Z.lt /\ decides CompareByte Z.lt /\
  decides CompareBool (fun a b => a = false /\ b = true) /\
  decides CompareString (alphabetical Z.lt) /\
  (forall a b, CompareString a b = 0 <-> a = b).
Proof.
  assert (I : decides CompareInt Z.lt).
  { intros i j. unfold CompareInt. destruct (Z.ltb_spec j i); [right; left; auto|].
    destruct (Z.ltb_spec i j); [left; auto|]. right. right. split; [reflexivity|]. lia. }
  split; [exact I|]. split; [exact I|]. split; [|split; [exact string_decides|apply CompareString_0]].
  intros [|] [|]; cbn; [right; right|right; left|left|right; right]; intuition discriminate.
Qed.
Print Assumptions C111_scalars.
Example C111_scalars_case : CompareString [97; 98] [97; 99; 0] = -1 /\ alphabetical Z.lt [97; 98] [97; 99; 0] /\
  CompareString [97] [97; 0] = -1 /\ CompareInt 3 (-4) = 1.
Proof.
  split; [reflexivity|]. split; [|split; reflexivity].
  exists [97]. right. exists 98, [], 99, [0]. repeat split.
Qed.

(** String arrays are in the order of their lengths, then alphabetical; 0 exactly for the same strings; the
    order is total and transitive. *)
Theorem C111_string_arrays :
  decides CompareStringArray array_lt /\
  (forall a b, CompareStringArray a b = 0 <-> a = b) /\
  (forall a b c, CompareStringArray a b = -1 -> CompareStringArray b c = -1 -> CompareStringArray a c = -1).
Proof.
  assert (F : forall i j,
    (CompareStringArray i j = -1 /\ array_lt i j) \/ (CompareStringArray i j = 1 /\ array_lt j i) \/
    (CompareStringArray i j = 0 /\ i = j)).
  { intros i j. unfold CompareStringArray, array_lt, CompareInt.
    destruct (Z.ltb_spec (Z.of_nat (length j)) (Z.of_nat (length i))); cbn [Z.eqb negb]; [right; left; split; [reflexivity|left; lia]|].
    destruct (Z.ltb_spec (Z.of_nat (length i)) (Z.of_nat (length j))); cbn [Z.eqb negb]; [left; split; [reflexivity|left; lia]|].
    assert (L : length i = length j) by lia. rewrite L.
    destruct (loop_decides i j L) as [[-> H1]|[[-> H1]|[-> H1]]]; [left|right; left|right; right]; auto. }
  assert (Irr : forall a, ~ array_lt a a).
  { intros a [L|[_ A]]; [lia|]. revert A. induction a as [|x a IH].
    - intros (p & [[<- (v & s & E)]|(u & s & v & t & E & _)]); [discriminate|destruct p; discriminate].
    - rewrite alpha_cons by (auto using alpha_irr). intros [A|[_ A]]; [exact (alpha_irr x A)|tauto]. }
  assert (Tr : forall a b c, array_lt a b -> array_lt b c -> array_lt a c).
  { intros a b c [L|[L A]] [L'|[L' A']]; try (left; lia). right. split; [lia|].
    revert b c L L' A A'. induction a as [|x a IH]; intros [|y b] [|z c] L L'; try discriminate L; try discriminate L'.
    - intros (p & [[<- (v & s & E)]|(u & s & v & t & E & _)]); [discriminate|destruct p; discriminate].
    - cbn [length] in L, L'. injection L as L. injection L' as L'.
      rewrite (alpha_cons _ x a y b), (alpha_cons _ y b z c), (alpha_cons _ x a z c) by (try exact alpha_irr; lia).
      intros [A|[-> A]] [A'|[-> A']]; [left|left; exact A|left; exact A'|right; split; [reflexivity|]].
      + apply str_lt_iff. apply str_lt_iff in A, A'. exact (str_lt_trans _ _ _ A A').
      + exact (IH _ _ L L' A A'). }
  assert (Z0 : forall a b, CompareStringArray a b = 0 <-> a = b).
  { intros a b. split.
    - intros E. destruct (F a b) as [[H _]|[[H _]|[_ H]]]; [lia|lia|exact H].
    - intros ->. destruct (F b b) as [[_ H]|[[_ H]|[H _]]]; [destruct (Irr b H)|destruct (Irr b H)|exact H]. }
  split; [|split; [exact Z0|]].
  - intros i j. destruct (F i j) as [H|[H|[H ->]]]; [left; exact H|right; left; exact H|].
    right. right. split; [exact H|]. split; apply Irr.
  - intros a b c H1 H2.
    destruct (F a b) as [[_ A]|[[H _]|[H _]]]; [|lia|lia]. destruct (F b c) as [[_ B]|[[H _]|[H _]]]; [|lia|lia].
    pose proof (Tr _ _ _ A B) as C. destruct (F a c) as [[H _]|[[_ H]|[_ H]]]; [exact H| |].
    + destruct (Irr a (Tr _ _ _ C H)).
    + subst. destruct (Irr c C).
Qed.
Print Assumptions C111_string_arrays.
Example C111_string_arrays_case : CompareStringArray [[97]; [98]] [[97]; [99]] = -1 /\
  CompareStringArray [[122]] [[97]; [97]] = -1 /\ CompareStringArray [[97]; [99]] [[97]; [98]] = 1.
Proof. repeat split. Qed.

(** Floating point numbers that are not NaN are in the order of their values: IEEE 754 comparison. *)
Definition value_cmp (c : Z) (o : option comparison) : Prop :=
  match o with Some Lt => c = -1 | Some Gt => c = 1 | Some Eq => c = 0 | None => False end.
Theorem C111_floats :
  (forall a b, in_u 64 a -> in_u 64 b -> f64_is_nan a = false -> f64_is_nan b = false ->
     value_cmp (CompareDouble a b) (SFcompare (f64_of_bits a) (f64_of_bits b))) /\
  (forall a b, in_u 32 a -> in_u 32 b -> f32_is_nan a = false -> f32_is_nan b = false ->
     value_cmp (CompareFloat a b) (SFcompare (f32_of_bits a) (f32_of_bits b))).
Proof.
  split; intros a b Ha Hb Na Nb; [rewrite SFcompare_key by auto|rewrite SFcompare_key32 by auto];
    unfold value_cmp, CompareDouble, CompareFloat, f64_lt, f32_lt; rewrite Na, Nb; cbn [negb andb];
    match goal with |- context [?u ?= ?v] => generalize u v; clear end; intros u v;
    destruct (Z.compare_spec u v); destruct (Z.ltb_spec v u), (Z.ltb_spec u v); lia.
Qed.
Print Assumptions C111_floats.
Example C111_floats_case : CompareDouble (f64_of_Z (-3)) (f64_of_Z 2) = -1 /\ f64_is_nan (f64_of_Z (-3)) = false /\
  CompareFloat 0x3f800000 0x40490fdb = -1 /\ f32_is_nan 0x40490fdb = false.
Proof. repeat split. Qed.

(** NaN, which precedes nothing and equals nothing, is called equal to every number, so that 0 is not an
    equality: 1 and 2 are both equal to NaN. *)
Theorem C111_nan_refuted : forall n b, f64_is_nan n = true ->
  CompareDouble n b = 0 /\ CompareDouble b n = 0.
Proof.
  intros n b N. unfold CompareDouble, f64_lt. rewrite N. cbn [negb andb]. rewrite andb_false_r. split; reflexivity.
Qed.
Print Assumptions C111_nan_refuted.
Example C111_nan_case : exists n, f64_is_nan n = true /\ CompareDouble (f64_of_Z 1) n = 0 /\ CompareDouble n (f64_of_Z 2) = 0 /\
  CompareDouble (f64_of_Z 1) (f64_of_Z 2) = -1.
Proof. exists 0x7ff8000000000001. vm_compute. repeat split. Qed.

(** The function for an integer type takes the values of that type (true of CompareInt16 and CompareInt32). *)
Theorem C111_int64_refuted : exists w, In (64, w) int_params /\ exists v, in_s 64 v /\ ~ in_s w v.
Proof. exists 32. split; [right; right; left; reflexivity|]. exists (2 ^ 40). unfold in_s. split; lia. Qed.
Print Assumptions C111_int64_refuted.

(** ** C41: a field is equal to a field only, and only the nil pointer is equal to nil *)
Theorem C41_field_kinds : forall p, field_Equals p ONot = false /\ (field_Equals p ONil = true <-> p = FNil) /\
  (forall o, field_Equals p o = true -> o = ONil \/ exists d, o = OField d).
Proof.
  intros [|n t i]; cbn [field_Equals].
  - split; [reflexivity|]. split; [tauto|]. intros [|d|] E; try discriminate. left. reflexivity.
  - split; [reflexivity|]. split; [split; discriminate|]. intros [|d|] E; try discriminate. right. exists d. reflexivity.
Qed.
Print Assumptions C41_field_kinds.
Example C41_field_kinds_case : field_Equals (F [97] I32 1) ONot = false /\ field_Equals (F [97] I32 1) (OField (F [98] I32 1)) = true.
Proof. split; reflexivity. Qed.

(** ** C40: what Contains says of a field and of a value of another kind *)
(** A field is there if one with its id and type is there (whatever the names are), and nothing is found by a
    value that is neither a number nor a text nor a field. *)
Theorem C40_contains : forall addr fs g, ~ In FNil fs ->
  (fc_Contains (NewTFieldContainer addr fs) (KField g) = true <->
     exists f, In f fs /\ f_id f = f_id g /\ f_type f = f_type g) /\
  fc_Contains (NewTFieldContainer addr fs) KOther = false.
Proof.
  intros addr fs g N. split; [|reflexivity]. cbn [fc_Contains].
  destruct (container_fields addr fs) as (_ & -> & _). rewrite existsb_exists.
  split; intros (f & I & E); exists f; split; try exact I; apply (field_equals f g); congruence.
Qed.
Print Assumptions C40_contains.
Example C40_contains_case : ~ In FNil [F [97] I32 1; F [98] STRING 2] /\
  fc_Contains (NewTFieldContainer 1 [F [97] I32 1; F [98] STRING 2]) (KField (F [99] STRING 2)) = true /\
  fc_Contains (NewTFieldContainer 1 [F [97] I32 1; F [98] STRING 2]) (KField (F [97] I64 1)) = false.
Proof. split; [intros [E|[E|[]]]; discriminate|]. split; reflexivity. Qed.
