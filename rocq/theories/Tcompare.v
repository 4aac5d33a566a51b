(** The comparison functions of tcompare.go for single types, and their laws. *)
From Coq Require Import ZArith List Bool Lia.
From Coq Require Import Znumtheory ZifyBool ZifyNat SpecFloat.
From Verif Require Import Base Arith F64 TField TFieldProofs Compare CompareProofs.
Import ListNotations.
Open Scope Z_scope.
Local Ltac Zify.zify_post_hook ::= Z.div_mod_to_equations.

(** Go's < on float32. *)
Definition f32_lt (x y : Z) : bool :=
  negb (f32_is_nan x) && negb (f32_is_nan y) && (f32_key x <? f32_key y).

(** CompareFloat, tcompare.go:85-93. *)
Definition CompareFloat (i j : Z) : Z := if f32_lt j i then 1 else if f32_lt i j then -1 else 0.
(** CompareDouble, tcompare.go:95-103. *)
Definition CompareDouble (i j : Z) : Z := if f64_lt j i then 1 else if f64_lt i j then -1 else 0.

Lemma f32_range : forall x, in_u 32 x -> 0 <= x mod 2 ^ 31 < 2 ^ 31 /\
  (x < 2 ^ 31 -> x mod 2 ^ 31 = x) /\ (2 ^ 31 <= x -> x mod 2 ^ 31 = x - 2 ^ 31).
Proof.
  intros x Hx. unfold in_u in Hx. split; [apply Z.mod_pos_bound; reflexivity|]. split; intro.
  - apply Z.mod_small. lia.
  - symmetry. apply Z.mod_unique with 1; lia.
Qed.

(** ** The comparison of bit patterns of float32 is the comparison of the numbers (as F64.v for float64) *)

(** Shape of the decoding of a non-NaN magnitude. *)
Inductive dec32 (m : Z) : bool -> spec_float -> Prop :=
| dec32_zero s : m = 0 -> dec32 m s (S754_zero s)
| dec32_inf s : m = 255 * 2 ^ 23 -> dec32 m s (S754_infinity s)
| dec32_sub s p : 0 < m < 2 ^ 23 -> Zpos p = m -> dec32 m s (S754_finite s p (-149))
| dec32_nor s p e : 2 ^ 23 <= m < 255 * 2 ^ 23 -> e = m / 2 ^ 23 ->
    Zpos p = 2 ^ 23 + m mod 2 ^ 23 -> dec32 m s (S754_finite s p (-150 + e)).

Lemma dec32_ok : forall x, in_u 32 x -> f32_is_nan x = false ->
  dec32 (x mod 2 ^ 31) (2 ^ 31 <=? x) (f32_of_bits x).
Proof.
  intros x Hx Hn. unfold f32_is_nan in Hn.
  unfold f32_of_bits, sf_of_bits, fl_sign, fl_exp, fl_man, fl_mag.
  change (8 + 23) with 31. change (2 ^ 8 - 1) with 255.
  change (2 - 2 ^ (8 - 1) - 23) with (-149).
  assert (Em : x mod 2 ^ 23 = (x mod 2 ^ 31) mod 2 ^ 23).
  { apply Zmod_div_mod; [lia|lia|]. exists (2 ^ 8). reflexivity. }
  rewrite Em. clear Em.
  destruct (f32_range x Hx) as [Hm _].
  set (m := x mod 2 ^ 31) in *. set (s := 2 ^ 31 <=? x). clearbody m s. clear Hx x.
  apply Z.ltb_ge in Hn.
  pose proof (Z.div_mod m (2 ^ 23) ltac:(discriminate)) as Hd.
  pose proof (Z.mod_pos_bound m (2 ^ 23) ltac:(reflexivity)) as Hr.
  set (q := m / 2 ^ 23) in *. set (r := m mod 2 ^ 23) in *.
  assert (P : 2 ^ 23 = 8388608) by reflexivity.
  assert (P3 : 2 ^ 31 = 2147483648) by reflexivity.
  destruct (Z.eqb_spec q 255) as [E|E].
  - assert (Er : r = 0) by lia. rewrite Er. cbn [Z.eqb].
    apply dec32_inf. lia.
  - destruct (Z.eqb_spec q 0) as [E0|E0].
    + destruct r eqn:R.
      * apply dec32_zero. lia.
      * apply dec32_sub; lia.
      * lia.
    + assert (0 <= q) by (apply Z.div_pos; lia).
      destruct (2 ^ 23 + r) eqn:R; try lia.
      replace (-149 + q - 1) with (-150 + q) by lia.
      apply dec32_nor with (e := q); try lia; try reflexivity.
Qed.

Lemma SFcompare_key32 : forall x y, in_u 32 x -> in_u 32 y ->
  f32_is_nan x = false -> f32_is_nan y = false ->
  SFcompare (f32_of_bits x) (f32_of_bits y) = Some (f32_key x ?= f32_key y).
Proof.
  intros x y Hx Hy Nx Ny.
  pose proof (dec32_ok x Hx Nx) as Dx. pose proof (dec32_ok y Hy Ny) as Dy.
  destruct (f32_range x Hx) as (Mx & X1 & X2). destruct (f32_range y Hy) as (My & Y1 & Y2).
  unfold f32_key.
  assert (Kx : (if 2 ^ 31 <=? x then - (x - 2 ^ 31) else x) =
               (if 2 ^ 31 <=? x then - (x mod 2 ^ 31) else x mod 2 ^ 31)).
  { destruct (Z.leb_spec (2 ^ 31) x); [rewrite X2|rewrite X1]; auto. }
  assert (Ky : (if 2 ^ 31 <=? y then - (y - 2 ^ 31) else y) =
               (if 2 ^ 31 <=? y then - (y mod 2 ^ 31) else y mod 2 ^ 31)).
  { destruct (Z.leb_spec (2 ^ 31) y); [rewrite Y2|rewrite Y1]; auto. }
  rewrite Kx, Ky. clear Kx Ky X1 X2 Y1 Y2.
  set (mx := x mod 2 ^ 31) in *. set (my := y mod 2 ^ 31) in *.
  set (sx := 2 ^ 31 <=? x) in *. set (sy := 2 ^ 31 <=? y) in *.
  clearbody mx my sx sy.
  change (2 ^ 23) with 8388608 in *.
  change (2 ^ 31) with 2147483648 in *.
  assert (D1 : forall e m, e = m / 8388608 ->
    8388608 <= m < 255 * 8388608 ->
    m = 8388608 * e + m mod 8388608 /\
    0 <= m mod 8388608 < 8388608 /\ 1 <= e < 255).
  { intros e m -> Hm. lia. }
  change (2 ^ 23) with 8388608 in *.
  destruct Dx as [s1 A|s1 A|s1 p1 A Q|s1 p1 e1 A B C];
  destruct Dy as [s2 A'|s2 A'|s2 p2 A' Q'|s2 p2 e2 A' B' C'];
    change (2 ^ 23) with 8388608 in *;
    try (destruct (D1 _ _ B A) as (? & ? & ?));
    try (destruct (D1 _ _ B' A') as (? & ? & ?));
    clear D1; try clear B; try clear B';
    try (set (r1 := mx mod 8388608) in *; clearbody r1);
    try (set (r2 := my mod 8388608) in *; clearbody r2);
    destruct s1, s2; cbn [SFcompare]; f_equal; symmetry; rewrite ?pos_cmp_Z;
    cmps.
Qed.

(** The parameters of CompareInt16, CompareInt32 and CompareInt64, tcompare.go:32-60: the width in the
    name and the width of the type declared. *)
Definition int_params : list (Z * Z) := [(16, 16); (32, 32); (64, 32)].

(** ** Laws *)

(** A comparison decides an order: -1 for less, 1 for greater, 0 otherwise. *)
Definition decides {A} (cmp : A -> A -> Z) (lt : A -> A -> Prop) : Prop := forall i j,
  (cmp i j = -1 /\ lt i j) \/ (cmp i j = 1 /\ lt j i) \/ (cmp i j = 0 /\ ~ lt i j /\ ~ lt j i).

(** The alphabetical order of lists over an order: the shorter of two that agree as far as it goes, or the
    one with the lesser element at the first difference. *)
Definition alphabetical {A} (lt : A -> A -> Prop) (a b : list A) : Prop := exists p,
  (a = p /\ exists y s, b = p ++ y :: s) \/
  (exists x s y t, a = p ++ x :: s /\ b = p ++ y :: t /\ lt x y).

Lemma str_lt_iff : forall a b, str_lt a b = true <-> alphabetical Z.lt a b.
Proof.
  induction a as [|x a IH]; intros [|y b]; cbn [str_lt].
  - split; [discriminate|]. intros (p & [[<- (y & s & E)]|(u & s & v & t & E & _)]); [discriminate|destruct p; discriminate].
  - split; [|reflexivity]. intros _. exists []. left. split; [reflexivity|]. exists y, b. reflexivity.
  - split; [discriminate|]. intros (p & [[<- (v & s & E)]|(u & s & v & t & _ & E & _)]); [discriminate|destruct p; discriminate].
  - rewrite orb_true_iff, andb_true_iff, IH. split.
    + intros [L|[E (p & H)]].
      * exists []. right. exists x, a, y, b. cbn [app]. split; [reflexivity|]. split; [reflexivity|]. lia.
      * assert (y = x) as -> by lia. exists (x :: p). destruct H as [[-> (v & s & ->)]|(u & s & v & t & -> & -> & L)].
        -- left. split; [reflexivity|]. exists v, s. reflexivity.
        -- right. exists u, s, v, t. auto.
    + intros (p & [[<- (v & s & E)]|(u & s & v & t & E1 & E2 & L)]).
      * injection E as -> ->. right. split; [lia|]. exists a. left. split; [reflexivity|]. exists v, s. reflexivity.
      * destruct p as [|c p]; cbn [app] in E1, E2.
        -- injection E1 as -> ->. injection E2 as -> ->. left. lia.
        -- injection E1 as -> ->. injection E2 as -> ->. right. split; [lia|]. exists p. right. exists u, s, v, t. auto.
Qed.

Lemma string_decides : decides CompareString (alphabetical Z.lt).
Proof.
  intros i j. rewrite <- !str_lt_iff. unfold CompareString.
  destruct (str_lt j i) eqn:E1; [right; left; auto|]. destruct (str_lt i j) eqn:E2; [left; auto|].
  right. right. split; [reflexivity|]. split; discriminate.
Qed.

(** Fewer strings first; among as many, the alphabetical order of the strings. *)
Definition array_lt (a b : list bytes) : Prop :=
  (length a < length b)%nat \/ (length a = length b /\ alphabetical (alphabetical Z.lt) a b).

Lemma alpha_cons : forall {A} (lt : A -> A -> Prop) x a y b, length a = length b -> (forall z, ~ lt z z) ->
  (alphabetical lt (x :: a) (y :: b) <-> lt x y \/ (x = y /\ alphabetical lt a b)).
Proof.
  intros A lt x a y b L Irr. split.
  - intros (p & [[<- (v & s & E)]|(u & s & v & t & E1 & E2 & Lt)]).
    + exfalso. injection E as -> ->. rewrite app_length in L. cbn in L. lia.
    + destruct p as [|c p]; cbn [app] in E1, E2.
      * injection E1 as -> ->. injection E2 as -> ->. left. exact Lt.
      * injection E1 as -> ->. injection E2 as -> ->. right. split; [reflexivity|]. exists p. right. exists u, s, v, t. auto.
  - intros [Lt|[-> (p & H)]].
    + exists []. right. exists x, a, y, b. auto.
    + exists (y :: p). destruct H as [[-> (v & s & ->)]|(u & s & v & t & -> & -> & Lt)].
      * exfalso. rewrite app_length in L. cbn in L. lia.
      * right. exists u, s, v, t. auto.
Qed.
Lemma alpha_irr : forall a, ~ alphabetical Z.lt a a.
Proof. intros a H. apply str_lt_iff in H. rewrite str_lt_irrefl in H. discriminate. Qed.
Lemma str_same : forall a b, ~ alphabetical Z.lt a b -> ~ alphabetical Z.lt b a -> a = b.
Proof. intros a b. rewrite <- !str_lt_iff. intros H1 H2. destruct (str_lt_tri a b) as [E|[E|E]]; tauto. Qed.

Lemma loop_decides : forall i j, length i = length j ->
  (CompareStringArray_loop i j = -1 /\ alphabetical (alphabetical Z.lt) i j) \/
  (CompareStringArray_loop i j = 1 /\ alphabetical (alphabetical Z.lt) j i) \/
  (CompareStringArray_loop i j = 0 /\ i = j).
Proof.
  induction i as [|a i IH]; intros [|b j] L; try discriminate L; cbn [CompareStringArray_loop].
  - right. right. split; reflexivity.
  - cbn [length] in L. injection L as L.
    rewrite (alpha_cons _ a i b j L alpha_irr), (alpha_cons _ b j a i (eq_sym L) alpha_irr).
    destruct (string_decides a b) as [[-> H]|[[-> H]|[-> [H1 H2]]]].
    + left. auto.
    + right. left. auto.
    + pose proof (str_same a b H1 H2). subst b. cbn [Z.eqb negb].
      destruct (IH j L) as [[-> H]|[[-> H]|[-> ->]]]; [left|right; left|right; right]; auto.
Qed.
