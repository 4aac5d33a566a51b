(** C107 for doubles: without NaN, swapping the values swaps the answer. *)
From Coq Require Import ZArith List Bool Lia.
From Coq Require Import ZifyBool.
From Verif Require Import Base Arith Errors Proto Values F64 TField GoVal Names Compare TList TSet TMap Gen GenCompare PropGen PropCompare3.
Import ListNotations.
Local Open Scope list_scope.
Open Scope Z_scope.

(** The value is no NaN once it is a float64: neither one itself nor a float32 or a text that becomes one. *)
Definition number (x : ext) (v : any) : bool :=
  match CoerceData x DOUBLE v with Ok (AF64 b, true) => negb (f64_is_nan b) | _ => true end.
Definition ranked_type (p : Z) : bool := negb ((p =? MAP) || (p =? STRUCT)).
(** No list or set in the value is of maps or structs, and those of doubles hold no NaN. *)
Fixpoint ranked (x : ext) (v : any) : bool :=
  match v with
  | AList _ et l => ranked_type et && (if et =? DOUBLE then forallb (number x) l else true) && forallb (ranked x) l
  | ASet _ et _ l => ranked_type et && (if et =? DOUBLE then forallb (number x) l else true) && forallb (ranked x) l
  | _ => true
  end.

Lemma turned_double : forall a b, f64_is_nan a = false -> f64_is_nan b = false ->
  turned (compare_scalar DOUBLE (AF64 a) (AF64 b)) (compare_scalar DOUBLE (AF64 b) (AF64 a)).
Proof.
  intros a b Na Nb. change (turned (Ok (cmp3 (f64_eq a b) (f64_lt a b))) (Ok (cmp3 (f64_eq b a) (f64_lt b a)))).
  unfold f64_eq, f64_lt. rewrite Na, Nb. cbn [negb andb]. rewrite (cmp3_int (f64_key a) (f64_key b)). apply turned_ok.
Qed.
Lemma turned_double_any : forall x i j ci cj, number x i = true -> number x j = true ->
  CoerceData x DOUBLE i = Ok (ci, true) -> CoerceData x DOUBLE j = Ok (cj, true) ->
  turned (compare_scalar DOUBLE ci cj) (compare_scalar DOUBLE cj ci).
Proof.
  intros x i j ci cj Hi Hj Ei Ej. unfold number in Hi, Hj. rewrite Ei in Hi. rewrite Ej in Hj.
  destruct ci; try (destruct cj; apply (turned_ok (0, false))). destruct cj; try apply (turned_ok (0, false)).
  apply turned_double; [destruct (f64_is_nan bits); [discriminate Hi|reflexivity]|destruct (f64_is_nan bits0); [discriminate Hj|reflexivity]].
Qed.
Lemma ranked_Compare : forall x f p i j, ranked_type p = true -> (p = DOUBLE -> number x i = true /\ number x j = true) ->
  ranked x i = true -> ranked x j = true -> turned (Compare x f p i j) (Compare x f p j i).
Proof.
  intros x. induction f as [|f IH]; intros p i j Op Dp Oi Oj; [discriminate|]. cbn [Compare]. rewrite (quick_sym p j i).
  destruct (quick_eq p i j) as [[]| |]; cbn [obind]; try discriminate; [apply (turned_ok (0, true))|].
  destruct (is_nil i) eqn:Ni.
  { destruct (is_nil j); [apply (turned_ok (0, true))|apply (turned_ok (-1, true))]. }
  destruct (is_nil j) eqn:Nj; [apply (turned_ok (1, true))|].
  destruct (CoerceData x p i) as [[ci iok]| |] eqn:Ei; cbn [obind]; try discriminate.
  destruct (CoerceData x p j) as [[cj jok]| |] eqn:Ej; cbn [obind]; try discriminate.
  destruct iok, jok; cbn [andb negb]; try apply (turned_ok (1, true)); try apply (turned_ok (-1, true)); try apply (turned_ok (0, false)).
  rewrite (quick_sym p cj ci). destruct (quick_eq p ci cj) as [[]| |]; cbn [obind]; try discriminate; [apply (turned_ok (0, true))|].
  destruct (is_nil ci) eqn:Nci.
  { destruct (is_nil cj); [apply (turned_ok (0, true))|apply (turned_ok (-1, true))]. }
  destruct (is_nil cj) eqn:Ncj; [apply (turned_ok (1, true))|].
  unfold ranked_type in Op. unfold compare_coerced.
  replace (p =? STRUCT) with false by lia. replace (p =? MAP) with false by lia.
  assert (Same : p = LIST \/ p = SET -> forall d v, is_nil d = false -> CoerceData x p d = Ok (v, true) -> v = d).
  { intros [-> | ->] d v Nd E; destruct d; cbn in E; try discriminate; injection E as <-; reflexivity. }
  assert (Elem : forall et l l0 a1 b1, ranked_type et && (if et =? DOUBLE then forallb (number x) l else true) && forallb (ranked x) l = true ->
    ranked_type et && (if et =? DOUBLE then forallb (number x) l0 else true) && forallb (ranked x) l0 = true ->
    In a1 l -> In b1 l0 -> turned (Compare x f et a1 b1) (Compare x f et b1 a1)).
  { intros et l l0 a1 b1 H1 H2 Ha Hb. apply andb_prop in H1 as [H1 R1]. apply andb_prop in H1 as [T1 D1].
    apply andb_prop in H2 as [H2 R2]. apply andb_prop in H2 as [_ D2]. rewrite forallb_forall in R1, R2.
    apply IH; auto. intros ->. change (DOUBLE =? DOUBLE) with true in D1, D2. cbv iota in D1, D2.
    rewrite forallb_forall in D1, D2. auto. }
  destruct (Z.eqb_spec p LIST) as [El|El].
  { rewrite (Same (or_introl El) i ci Ni Ei), (Same (or_introl El) j cj Nj Ej) in *.
    destruct i; try (destruct j; apply (turned_ok (0, false))). destruct j; try apply (turned_ok (0, false)).
    cbn [ranked] in Oi, Oj.
    rewrite (Z.eqb_sym et0 et), (Nat.eqb_sym (length l0) (length l)).
    destruct (Z.eqb_spec et et0) as [<-|]; cbn [negb]; [|rewrite (int_opp et et0); apply (turned_ok (_, true))].
    destruct (negb (length l =? length l0)%nat); [rewrite (int_opp (Z.of_nat (length l))); apply (turned_ok (_, true))|].
    apply turned_loop. intros a1 b1 Ha Hb. exact (Elem _ _ _ _ _ Oi Oj Ha Hb). }
  destruct (Z.eqb_spec p SET) as [Es|Es].
  { rewrite (Same (or_intror Es) i ci Ni Ei), (Same (or_intror Es) j cj Nj Ej) in *.
    destruct i; try (destruct j; apply (turned_ok (0, false))). destruct j; try apply (turned_ok (0, false)).
    cbn [ranked] in Oi, Oj.
    rewrite (Z.eqb_sym et0 et), (Z.eqb_sym (set_Len size0 l0)).
    destruct (Z.eqb_spec et et0) as [<-|]; cbn [negb]; [|rewrite (int_opp et et0); apply (turned_ok (_, true))].
    destruct (negb (set_Len size l =? set_Len size0 l0)); [rewrite (int_opp (set_Len size l)); apply (turned_ok (_, true))|].
    unfold CompareValueArrays. cbv zeta. rewrite (int_opp (Z.of_nat (length l))).
    replace (- CompareInt (Z.of_nat (length l)) (Z.of_nat (length l0)) =? 0)
      with (CompareInt (Z.of_nat (length l)) (Z.of_nat (length l0)) =? 0) by lia.
    destruct (negb (CompareInt (Z.of_nat (length l)) (Z.of_nat (length l0)) =? 0)); [apply (turned_ok (_, true))|].
    apply turned_loop. intros a1 b1 Ha Hb. exact (Elem _ _ _ _ _ Oi Oj Ha Hb). }
  destruct (Z.eqb_spec p DOUBLE) as [Ed|Ed].
  - subst p. destruct (Dp eq_refl) as [Di Dj]. exact (turned_double_any x i j ci cj Di Dj Ei Ej).
  - apply turned_scalar. exact Ed.
Qed.

(** Swapping the values swaps the answer also for doubles and the lists and sets of them, nested to any depth, as long as
    none is a NaN or becomes one. *)
Theorem C107_doubles : forall x f p i j r, ranked_type p = true -> (p = DOUBLE -> number x i = true /\ number x j = true) ->
  ranked x i = true -> ranked x j = true -> Compare x f p i j = Ok r -> Compare x f p j i = Ok (opposite r).
Proof. intros x f p i j r Op Dp Oi Oj. apply ranked_Compare; assumption. Qed.
Print Assumptions C107_doubles.

(** For two float64 that is exactly the condition, and then the answer is their order. *)
Theorem C107_doubles_iff : forall x f b c,
  Compare x (S f) DOUBLE (AF64 c) (AF64 b) = (r <- Compare x (S f) DOUBLE (AF64 b) (AF64 c) ;; Ok (opposite r)) <->
  f64_is_nan b = false /\ f64_is_nan c = false.
Proof.
  intros x f b c. split.
  - intro E. destruct (f64_is_nan b) eqn:Nb.
    { destruct (C107_nan_refuted x f b c Nb) as [E1 E2]. rewrite E1, E2 in E. discriminate E. }
    split; [reflexivity|]. destruct (f64_is_nan c) eqn:Nc; [|reflexivity].
    destruct (C107_nan_refuted x f c b Nc) as [E1 E2]. rewrite E1, E2 in E. discriminate E.
  - intros [Nb Nc].
    assert (T : forall b, CoerceData x DOUBLE (AF64 b) = Ok (AF64 b, true)) by reflexivity.
    assert (N : forall b, f64_is_nan b = false -> number x (AF64 b) = true) by (intros b0 H0; unfold number; rewrite T, H0; reflexivity).
    assert (D : exists r, Compare x (S f) DOUBLE (AF64 b) (AF64 c) = Ok r).
    { cbn [Compare]. unfold quick_eq. change (DOUBLE =? BINARY) with false. cbn [go_eq obind]. destruct (f64_eq b c) eqn:Q; [eauto|].
      cbn [is_nil obind]. rewrite !T. cbn [obind andb negb go_eq is_nil]. rewrite Q. cbn [obind]. eexists. reflexivity. }
    destruct D as [r E]. rewrite E. cbn [obind].
    apply (C107_doubles x (S f) DOUBLE (AF64 b) (AF64 c)); try reflexivity; [|exact E]. intros _. auto.
Qed.
Print Assumptions C107_doubles_iff.
Example C107_doubles_case :
  let l := AList 1 LIST [AList 2 DOUBLE [AF64 (f64_of_Z 1); AF64 (f64_of_Z 2)]; AList 3 DOUBLE []] in
  let m := AList 4 LIST [AList 5 DOUBLE [AF64 (f64_of_Z 1); AF64 (f64_of_Z (-3))]; AList 6 DOUBLE []] in
  ranked ext0 l = true /\ ranked ext0 m = true /\ ordered l = false /\
  Compare ext0 9 LIST l m = Ok (1, true) /\ Compare ext0 9 LIST m l = Ok (-1, true) /\
  ranked ext0 (AList 7 DOUBLE [AF64 9221120237041090561]) = false.
Proof. cbv zeta. repeat split; vm_compute; reflexivity. Qed.
