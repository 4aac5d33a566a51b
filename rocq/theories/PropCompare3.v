(** Properties of comparison that hold of all values: C107. *)
From Coq Require Import ZArith List Bool Lia.
From Coq Require Import ZifyBool ZifyNat.
From Verif Require Import Base Errors Transport Proto Arith Values WfDec.
From Verif Require Import F64 Strconv TField GoVal Compare CompareProofs TList TSet TMap Gen GenCompare PropGen.
Import ListNotations.
Open Scope Z_scope.

(** ** What an answer of a comparison may be *)

(** Less, equal or greater; a comparison that was not possible says so and gives 0. *)
Definition answer (r : Z * bool) : Prop := r = (-1, true) \/ r = (0, true) \/ r = (1, true) \/ r = (0, false).
(** The answer for the same values the other way round. *)
Definition opposite (r : Z * bool) : Z * bool := (- fst r, snd r).

Definition says (o : outcome (Z * bool)) : Prop := forall r, o = Ok r -> answer r.

(** ** Three values *)
Lemma ans_0 : answer (0, true). Proof. right; left; reflexivity. Qed.
Lemma ans_n : answer (0, false). Proof. right; right; right; reflexivity. Qed.
Lemma ans_1 : answer (1, true). Proof. right; right; left; reflexivity. Qed.
Lemma ans_m : answer (-1, true). Proof. left; reflexivity. Qed.
Lemma ans_int : forall a b, answer (CompareInt a b, true).
Proof. intros a b. unfold CompareInt. destruct (b <? a); [apply ans_1|]. destruct (a <? b); [apply ans_m|apply ans_0]. Qed.
Lemma ans_str : forall a b, answer (CompareString a b, true).
Proof. intros a b. unfold CompareString. destruct (str_lt b a); [apply ans_1|]. destruct (str_lt a b); [apply ans_m|apply ans_0]. Qed.
Lemma ans_bytes : forall a b, answer (bytes_Compare a b, true).
Proof. intros. rewrite bytes_Compare_String. apply ans_str. Qed.
Lemma ans_cmp3 : forall e l, answer (cmp3 e l).
Proof. intros [] []; cbn; unfold answer; auto. Qed.
Lemma ans_field : forall f o, answer (field_CompareTo f o).
Proof.
  intros f [|d|]; cbn [field_CompareTo]; [apply ans_1| |apply ans_n].
  destruct (negb _); [apply ans_int|]. destruct (negb _); [apply ans_int|apply ans_str].
Qed.
Lemma ans_fc : forall p o, answer (fc_CompareTo p o).
Proof.
  intros p [|d|]; cbn [fc_CompareTo]; [apply ans_1| |apply ans_n].
  destruct (same_obj _ _); [apply ans_0|]. cbv zeta. destruct (negb _); [apply ans_int|].
  induction (fc_fields p) as [|f fs IH]; cbn [fc_cmp_loop]; [apply ans_0|].
  pose proof (ans_field f (OField (fc_At d (f_id f)))) as A. destruct (field_CompareTo f _) as [c ok].
  destruct (negb ok || _); [exact A|exact IH].
Qed.
Lemma says_ok : forall r, answer r -> says (Ok r). Proof. intros r A r' E. injection E as <-. exact A. Qed.
Lemma says_loop : forall cmp, (forall a b, says (cmp a b)) -> forall li lj, says (cmp_loop cmp li lj).
Proof.
  intros cmp H. induction li as [|a li IH]; intros [|b lj]; cbn [cmp_loop]; try apply says_ok, ans_0.
  intros r E. destruct (cmp a b) as [[c ok]| |] eqn:Ec; try discriminate. cbn [obind] in E.
  destruct (negb (c =? 0) || negb ok); [injection E as <-; apply (H a b), Ec|exact (IH lj r E)].
Qed.
Lemma says_arrays : forall cmp, (forall a b, says (cmp a b)) -> forall li lj, says (CompareValueArrays cmp li lj).
Proof.
  intros cmp H li lj. unfold CompareValueArrays. cbv zeta. destruct (negb _); [apply says_ok, ans_int|apply says_loop, H].
Qed.
Lemma says_scalar : forall p a b, says (compare_scalar p a b).
Proof.
  intros p a b. unfold compare_scalar.
  repeat match goal with
  | |- says (if ?c then _ else _) => destruct c
  | |- says Panic => discriminate
  end; try apply says_ok, ans_n.
  all: destruct a; try apply says_ok, ans_n; destruct b; try apply says_ok, ans_n; apply says_ok;
    try apply ans_cmp3; try apply ans_bytes.
Qed.
Lemma says_bind : forall A (m : outcome A) k, (forall a, says (k a)) -> says (obind m k).
Proof. intros A [a| |] k H; cbn [obind]; [apply H|discriminate|discriminate]. Qed.
Lemma says_coerced : forall x rec p a b, (forall q c d, says (rec q c d)) -> says (compare_coerced x rec p a b).
Proof.
  intros x rec p a b H. unfold compare_coerced.
  destruct (p =? STRUCT).
  { destruct a; try apply says_ok, ans_n. destruct b; try apply says_ok, ans_n. cbv zeta.
    destruct (negb _); [apply says_ok, ans_str|].
    pose proof (ans_fc fields (CCont fields0)) as A. destruct (fc_CompareTo _ _) as [c ok].
    destruct (negb ok || _); [apply says_ok, A|].
    induction (fc_fields fields) as [|f fs IH]; [apply says_ok, ans_0|]. intros r E.
    destruct (rec (f_type f) _ _) as [[c' ok']| |] eqn:Er in E; try discriminate. cbn [obind] in E.
    destruct (negb ok' || _); [injection E as <-; exact (H _ _ _ _ Er)|exact (IH r E)]. }
  destruct (p =? MAP).
  { destruct a; try apply says_ok, ans_n. destruct b; try apply says_ok, ans_n.
    destruct (negb _); [apply says_ok, ans_int|]. destruct (negb _); [apply says_ok, ans_int|].
    destruct (negb _); [apply says_ok, ans_int|].
    apply says_bind. intro k1. apply says_bind. intro k2. intros r E.
    destruct (CompareValueArrays (rec kt) k1 k2) as [[c ok]| |] eqn:Ec; try discriminate. cbn [obind] in E.
    destruct (negb (c =? 0) || negb ok).
    - injection E as <-. exact (says_arrays (rec kt) (H kt) k1 k2 _ Ec).
    - revert r E. apply says_bind. intro v1. apply says_bind. intro v2. apply says_arrays, H. }
  destruct (p =? LIST).
  { destruct a; try apply says_ok, ans_n. destruct b; try apply says_ok, ans_n.
    destruct (negb _); [apply says_ok, ans_int|]. destruct (negb _); [apply says_ok, ans_int|]. apply says_loop, H. }
  destruct (p =? SET).
  { destruct a; try apply says_ok, ans_n. destruct b; try apply says_ok, ans_n.
    destruct (negb _); [apply says_ok, ans_int|]. destruct (negb _); [apply says_ok, ans_int|]. apply says_arrays, H. }
  apply says_scalar.
Qed.
Lemma says_Compare : forall x f p i j, says (Compare x f p i j).
Proof.
  intros x. induction f as [|f IH]; intros p i j; [discriminate|]. cbn [Compare].
  apply says_bind. intros []; [apply says_ok, ans_0|].
  destruct (is_nil i); [destruct (is_nil j); apply says_ok; [apply ans_0|apply ans_m]|].
  destruct (is_nil j); [apply says_ok, ans_1|].
  apply says_bind. intros [ci iok]. apply says_bind. intros [cj jok].
  destruct (iok && negb jok); [apply says_ok, ans_1|]. destruct (negb iok && jok); [apply says_ok, ans_m|].
  destruct (negb iok && negb jok); [apply says_ok, ans_n|].
  apply says_bind. intros []; [apply says_ok, ans_0|].
  destruct (is_nil ci); [destruct (is_nil cj); apply says_ok; [apply ans_0|apply ans_m]|].
  destruct (is_nil cj); [apply says_ok, ans_1|]. apply says_coerced, IH.
Qed.

(** ** C107 *)

(** Whatever is compared, under whatever type: the answer is -1, 0 or 1, or that the values could
    not be compared, with 0.  So a caller that looks only at the number takes values that could not
    be compared for equal. *)
Theorem C107_answers : forall x f p i j r, Compare x f p i j = Ok r -> answer r.
Proof. exact says_Compare. Qed.
Print Assumptions C107_answers.

Theorem C107_methods : forall x f name p q r,
  (forall fl o, answer (field_CompareTo fl o)) /\ (forall c o, answer (fc_CompareTo c o)) /\
  (gs_CompareTo x f name p q = Ok r -> answer r).
Proof.
  intros x f name p q r. split; [exact ans_field|]. split; [exact ans_fc|].
  unfold gs_CompareTo. destruct q; try (intro E; injection E as <-; apply ans_n || apply ans_1).
  destruct (str_eq name0 name); [apply says_Compare|]. intro E. injection E as <-. apply ans_n.
Qed.
Print Assumptions C107_methods.

(** ** The other way round *)

(** Values that hold no list or set of doubles, maps or structs: floating-point NaN, the iteration
    order of maps and the field tables of structs are no order. *)
Definition ordered_type (p : Z) : bool := negb ((p =? DOUBLE) || (p =? MAP) || (p =? STRUCT)).
Fixpoint ordered (v : any) : bool :=
  match v with
  | AList _ et l => ordered_type et && forallb ordered l
  | ASet _ et _ l => ordered_type et && forallb ordered l
  | _ => true
  end.

Lemma f64_eq_sym : forall a b, f64_eq a b = f64_eq b a.
Proof. intros a b. unfold f64_eq. rewrite (andb_comm (negb _) (negb _)), Z.eqb_sym. reflexivity. Qed.
Lemma f32_eq_sym : forall a b, f32_eq a b = f32_eq b a.
Proof. intros a b. unfold f32_eq. rewrite (andb_comm (negb _) (negb _)), Z.eqb_sym. reflexivity. Qed.
Lemma str_eq_sym : forall a b, str_eq a b = str_eq b a.
Proof. induction a as [|u a IH]; intros [|w b]; cbn; try reflexivity. rewrite Z.eqb_sym, IH. reflexivity. Qed.
Lemma same_obj_sym : forall a b, same_obj a b = same_obj b a. Proof. intros; unfold same_obj; lia. Qed.
Lemma eqb_sym' : forall a b, eqb a b = eqb b a. Proof. intros [] []; reflexivity. Qed.
Lemma go_eq_sym : forall i j, go_eq i j = go_eq j i.
Proof.
  intros i j. destruct i; destruct j; cbn; try reflexivity;
    try (rewrite f64_eq_sym; reflexivity); try (rewrite f32_eq_sym; reflexivity); try (rewrite Z.eqb_sym; reflexivity);
    try (rewrite str_eq_sym; reflexivity); try (rewrite same_obj_sym; reflexivity); try (rewrite eqb_sym'; reflexivity).
  all: try (destruct k; reflexivity).
  - rewrite (Z.eqb_sym ty), (Z.eqb_sym v). reflexivity.
  - destruct k, k0; try reflexivity; rewrite Z.eqb_sym; reflexivity.
Qed.
Lemma quick_sym : forall p i j, quick_eq p i j = quick_eq p j i.
Proof. intros p i j. unfold quick_eq. rewrite go_eq_sym. reflexivity. Qed.

Lemma int_opp : forall a b, CompareInt b a = - CompareInt a b.
Proof. intros a b. unfold CompareInt. destruct (Z.ltb_spec b a), (Z.ltb_spec a b); lia. Qed.
Lemma str_opp : forall a b, CompareString b a = - CompareString a b.
Proof.
  intros a b. unfold CompareString. destruct (str_lt a b) eqn:E1, (str_lt b a) eqn:E2; try reflexivity.
  rewrite (str_lt_asym _ _ E1) in E2. discriminate.
Qed.
Lemma cmp3_int : forall a b, cmp3 (b =? a) (b <? a) = opposite (cmp3 (a =? b) (a <? b)).
Proof. intros a b. unfold cmp3. destruct (Z.eqb_spec a b), (Z.eqb_spec b a), (Z.ltb_spec a b), (Z.ltb_spec b a); try reflexivity; lia. Qed.
Lemma cmp3_str : forall a b, cmp3 (str_eq b a) (str_lt b a) = opposite (cmp3 (str_eq a b) (str_lt a b)).
Proof.
  intros a b. rewrite (str_eq_sym b a). unfold cmp3. destruct (str_eq a b) eqn:E; [reflexivity|].
  destruct (str_lt a b) eqn:E1; [rewrite (str_lt_asym _ _ E1); reflexivity|].
  destruct (str_lt_tri a b) as [H|[H|H]]; [|congruence|rewrite H; reflexivity].
  apply str_eq_iff in H. congruence.
Qed.
(** [turned o o']: [o'] is the answer of [o] the other way round. *)
Definition turned (o o' : outcome (Z * bool)) : Prop := forall r, o = Ok r -> o' = Ok (opposite r).
Lemma turned_ok : forall r, turned (Ok r) (Ok (opposite r)). Proof. intros r r' E. injection E as <-. reflexivity. Qed.
Lemma turned_loop : forall cmp li lj, (forall a b, In a li -> In b lj -> turned (cmp a b) (cmp b a)) ->
  turned (cmp_loop cmp li lj) (cmp_loop cmp lj li).
Proof.
  intros cmp. induction li as [|a li IH]; intros [|b lj] H; cbn [cmp_loop]; try apply (turned_ok (0, true)).
  intros r E. destruct (cmp a b) as [[c ok]| |] eqn:Ec; try discriminate. cbn [obind] in E.
  rewrite (H a b (or_introl eq_refl) (or_introl eq_refl) _ Ec). cbn [obind opposite fst snd].
  replace (- c =? 0) with (c =? 0) by lia.
  destruct (negb (c =? 0) || negb ok).
  - injection E as <-. reflexivity.
  - apply (IH lj); [|exact E]. intros a' b' Ha Hb. apply H; right; assumption.
Qed.
Lemma turned_scalar : forall p a b, p <> DOUBLE -> turned (compare_scalar p a b) (compare_scalar p b a).
Proof.
  intros p a b Np. unfold compare_scalar. replace (p =? DOUBLE) with false by lia.
  repeat match goal with
  | |- turned (if ?c then _ else _) _ => destruct c
  | |- turned Panic _ => discriminate
  end; try apply (turned_ok (0, false)).
  all: destruct a; try (destruct b; apply (turned_ok (0, false))); destruct b; try apply (turned_ok (0, false)).
  - destruct b0, b; cbn; [apply (turned_ok (0, true))|apply (turned_ok (1, true))|apply (turned_ok (-1, true))|apply (turned_ok (0, true))].
  - rewrite (cmp3_int z z0). apply turned_ok.
  - rewrite (cmp3_int z z0). apply turned_ok.
  - rewrite (cmp3_int z z0). apply turned_ok.
  - rewrite (cmp3_int z z0). apply turned_ok.
  - rewrite (cmp3_str s s0). apply turned_ok.
  - rewrite !bytes_Compare_String, (str_opp s s0). apply (turned_ok (_, true)).
Qed.
Lemma turned_Compare : forall x f p i j, ordered_type p = true -> ordered i = true -> ordered j = true ->
  turned (Compare x f p i j) (Compare x f p j i).
Proof.
  intros x. induction f as [|f IH]; intros p i j Op Oi Oj; [discriminate|]. cbn [Compare]. rewrite (quick_sym p j i).
  destruct (quick_eq p i j) as [[]| |]; cbn [obind]; try discriminate; [apply (turned_ok (0, true))|].
  destruct (is_nil i) eqn:Ni.
  { destruct (is_nil j); [apply (turned_ok (0, true))|apply (turned_ok (-1, true))]. }
  destruct (is_nil j) eqn:Nj; [apply (turned_ok (1, true))|].
  destruct (CoerceData x p i) as [[ci iok]| |] eqn:Ei; cbn [obind]; try discriminate.
  destruct (CoerceData x p j) as [[cj jok]| |] eqn:Ej; cbn [obind]; try discriminate.
  destruct iok, jok; cbn [andb negb]; try apply (turned_ok (1, true)); try apply (turned_ok (-1, true)); try apply (turned_ok (0, false)).
  rewrite (quick_sym p cj ci). destruct (quick_eq p ci cj) as [[]| |]; cbn [obind]; try discriminate; [apply (turned_ok (0, true))|].
  destruct (is_nil ci) eqn:Nci.
  { destruct (is_nil cj); [apply (turned_ok (0, true))|apply (turned_ok (-1, true))]. }
  destruct (is_nil cj) eqn:Ncj; [apply (turned_ok (1, true))|].
  unfold ordered_type in Op. unfold compare_coerced.
  replace (p =? STRUCT) with false by lia. replace (p =? MAP) with false by lia.
  assert (Same : p = LIST \/ p = SET -> forall d v, is_nil d = false -> CoerceData x p d = Ok (v, true) -> v = d).
  { intros [-> | ->] d v Nd E; destruct d; cbn in E; try discriminate; injection E as <-; reflexivity. }
  destruct (Z.eqb_spec p LIST) as [El|El].
  { rewrite (Same (or_introl El) i ci Ni Ei), (Same (or_introl El) j cj Nj Ej) in *.
    destruct i; try (destruct j; apply (turned_ok (0, false))). destruct j; try apply (turned_ok (0, false)).
    cbn [ordered] in Oi, Oj. apply andb_prop in Oi as [Oe Oi]. apply andb_prop in Oj as [_ Oj].
    rewrite (Z.eqb_sym et0 et), (Nat.eqb_sym (length l0) (length l)).
    destruct (Z.eqb_spec et et0) as [<-|]; cbn [negb]; [|rewrite (int_opp et et0); apply (turned_ok (_, true))].
    destruct (negb (length l =? length l0)%nat); [rewrite (int_opp (Z.of_nat (length l))); apply (turned_ok (_, true))|].
    apply turned_loop. intros a1 b1 Ha Hb. rewrite forallb_forall in Oi, Oj. apply IH; auto. }
  destruct (Z.eqb_spec p SET) as [Es|Es].
  { rewrite (Same (or_intror Es) i ci Ni Ei), (Same (or_intror Es) j cj Nj Ej) in *.
    destruct i; try (destruct j; apply (turned_ok (0, false))). destruct j; try apply (turned_ok (0, false)).
    cbn [ordered] in Oi, Oj. apply andb_prop in Oi as [Oe Oi]. apply andb_prop in Oj as [_ Oj].
    rewrite (Z.eqb_sym et0 et), (Z.eqb_sym (set_Len size0 l0)).
    destruct (Z.eqb_spec et et0) as [<-|]; cbn [negb]; [|rewrite (int_opp et et0); apply (turned_ok (_, true))].
    destruct (negb (set_Len size l =? set_Len size0 l0)); [rewrite (int_opp (set_Len size l)); apply (turned_ok (_, true))|].
    unfold CompareValueArrays. cbv zeta. rewrite (int_opp (Z.of_nat (length l))).
    replace (- CompareInt (Z.of_nat (length l)) (Z.of_nat (length l0)) =? 0)
      with (CompareInt (Z.of_nat (length l)) (Z.of_nat (length l0)) =? 0) by lia.
    destruct (negb (CompareInt (Z.of_nat (length l)) (Z.of_nat (length l0)) =? 0)); [apply (turned_ok (_, true))|].
    apply turned_loop. intros a1 b1 Ha Hb. rewrite forallb_forall in Oi, Oj. apply IH; auto. }
  apply turned_scalar. lia.
Qed.

(** Swapping the values swaps the answer: for all values, also of different types, that hold no
    doubles, maps or structs in lists or sets.
    Missing: those, for which it is false. *)
Theorem C107_opposite_partial : forall x f p i j r,
  ordered_type p = true -> ordered i = true -> ordered j = true ->
  Compare x f p i j = Ok r -> Compare x f p j i = Ok (opposite r).
Proof. intros x f p i j r Op Oi Oj. apply turned_Compare; assumption. Qed.
Print Assumptions C107_opposite_partial.

(** Two structs of one name with different fields: each is after the other.  So are NaN and any
    other double. *)
Theorem C107_struct_refuted : exists i j,
  Compare ext0 2 STRUCT i j = Ok (1, true) /\ Compare ext0 2 STRUCT j i = Ok (1, true).
Proof.
  exists (AStruct 0 [83] (fc_of [Mem 1 (nm 97) false None TyI32; Mem 2 (nm 98) false None TyI32]) []),
         (AStruct 0 [83] (fc_of [Mem 1 (nm 97) false None TyI32; Mem 3 (nm 98) false None TyI32]) []).
  split; vm_compute; reflexivity.
Qed.
Print Assumptions C107_struct_refuted.
Theorem C107_nan_refuted : forall x f b c, f64_is_nan b = true ->
  Compare x (S f) DOUBLE (AF64 b) (AF64 c) = Ok (1, true) /\ Compare x (S f) DOUBLE (AF64 c) (AF64 b) = Ok (1, true).
Proof.
  intros x f b c N. split; cbn [Compare]; unfold quick_eq; change (DOUBLE =? BINARY) with false; cbn [go_eq obind];
    unfold f64_eq; rewrite N; cbn [negb andb]; rewrite ?andb_false_r; cbn [is_nil];
    change (CoerceData x DOUBLE (AF64 b)) with (Ok (AF64 b, true));
    change (CoerceData x DOUBLE (AF64 c)) with (Ok (AF64 c, true)); cbn [obind andb negb go_eq]; unfold f64_eq;
    rewrite N; cbn [negb andb]; rewrite ?andb_false_r; cbn [is_nil obind];
    unfold compare_coerced; change (DOUBLE =? STRUCT) with false; change (DOUBLE =? MAP) with false;
    change (DOUBLE =? LIST) with false; change (DOUBLE =? SET) with false; cbn iota;
    unfold compare_scalar; change ((DOUBLE =? STOP) || (DOUBLE =? VOID)) with false; change (DOUBLE =? BOOL) with false;
    change (DOUBLE =? BYTE) with false; change (DOUBLE =? DOUBLE) with true; cbn iota;
    unfold cmp3, f64_eq, f64_lt; rewrite N; cbn [negb andb]; rewrite ?andb_false_r; reflexivity.
Qed.
Print Assumptions C107_nan_refuted.

(** Values of different types, also ones the type does not take. *)
Example C107_case :
  ordered_type I32 = true /\ ordered_type LIST = true /\
  Compare ext0 2 I32 (AInt32 7) (AByte 9) = Ok (-1, true) /\ Compare ext0 2 I32 (AByte 9) (AInt32 7) = Ok (1, true) /\
  Compare ext0 2 I32 (AInt32 7) (AList 0 I32 []) = Ok (1, true) /\ Compare ext0 2 I32 (AList 0 I32 []) (AInt32 7) = Ok (-1, true) /\
  Compare ext0 2 I32 (AList 0 I32 []) (ASet 0 I32 0 []) = Ok (0, false) /\
  ordered (AList 1 STRING [AStr [97]; ABytes [98]]) = true /\
  Compare ext0 3 LIST (AList 1 STRING [AStr [97]; ABytes [98]]) (AList 2 STRING [AStr [97]; AStr [99]]) = Ok (-1, true) /\
  Compare ext0 3 LIST (AList 1 STRING [AOther OValue 5]) (AList 2 STRING [AList 0 I32 []]) = Ok (0, false).
Proof. repeat apply conj; vm_compute; reflexivity. Qed.
