(** IEEE 754 floating point values as bit patterns, the operations of Go on them that the
    library uses, and their meaning in terms of the standard library's [spec_float]. *)
From Coq Require Import ZArith List Bool Lia.
From Coq Require Import Znumtheory ZifyBool ZifyNat SpecFloat.
From Verif Require Import Base Arith.
Import ListNotations.
Open Scope Z_scope.
Ltac Zify.zify_post_hook ::= Z.div_mod_to_equations.

(** A binary interchange format: [ew] exponent bits, [mw] mantissa bits. *)
Definition fl_sign (ew mw b : Z) : bool := 2 ^ (ew + mw) <=? b.
Definition fl_mag (ew mw b : Z) : Z := b mod 2 ^ (ew + mw).
Definition fl_exp (ew mw b : Z) : Z := fl_mag ew mw b / 2 ^ mw.
Definition fl_man (mw b : Z) : Z := b mod 2 ^ mw.

(** The number a bit pattern denotes. *)
Definition sf_of_bits (ew mw b : Z) : spec_float :=
  let s := fl_sign ew mw b in
  let e := fl_exp ew mw b in
  let m := fl_man mw b in
  let emin := 2 - 2 ^ (ew - 1) - mw in
  if e =? 2 ^ ew - 1 then (if m =? 0 then S754_infinity s else S754_nan)
  else if e =? 0 then
    match m with Zpos p => S754_finite s p emin | _ => S754_zero s end
  else match 2 ^ mw + m with
       | Zpos p => S754_finite s p (emin + e - 1)
       | _ => S754_nan
       end.

(** The bit pattern of a number in canonical form ([digits m = mw+1], or the least
    exponent). NaN is encoded as the quiet NaN Go uses (math.NaN has a different payload,
    which is not observable here). *)
Definition bits_of_sf (ew mw : Z) (f : spec_float) : Z :=
  let sg (s : bool) := if s then 2 ^ (ew + mw) else 0 in
  let emin := 2 - 2 ^ (ew - 1) - mw in
  match f with
  | S754_zero s => sg s
  | S754_infinity s => sg s + (2 ^ ew - 1) * 2 ^ mw
  | S754_nan => (2 ^ ew - 1) * 2 ^ mw + 2 ^ (mw - 1)
  | S754_finite s m e =>
    sg s + (if Zpos m <? 2 ^ mw then Zpos m
            else (e - emin + 1) * 2 ^ mw + (Zpos m - 2 ^ mw))
  end.

(** ** float64 *)
Definition f64_of_bits : Z -> spec_float := sf_of_bits 11 52.
Definition f64_to_bits : spec_float -> Z := bits_of_sf 11 52.
Definition f32_of_bits : Z -> spec_float := sf_of_bits 8 23.

(** x != x *)
Definition f64_is_nan (b : Z) : bool := 2047 * 2 ^ 52 <? b mod 2 ^ 63.

(** Monotone integer code of the non-NaN values: magnitude bits with the sign. *)
Definition f64_key (b : Z) : Z := if 2 ^ 63 <=? b then - (b - 2 ^ 63) else b.

(** Go's == and < on float64. *)
Definition f64_eq (x y : Z) : bool :=
  negb (f64_is_nan x) && negb (f64_is_nan y) && (f64_key x =? f64_key y).
Definition f64_lt (x y : Z) : bool :=
  negb (f64_is_nan x) && negb (f64_is_nan y) && (f64_key x <? f64_key y).

(** x != 0 (true for NaN) *)
Definition f64_nonzero (b : Z) : bool := negb (b mod 2 ^ 63 =? 0).
Definition f32_nonzero (b : Z) : bool := negb (b mod 2 ^ 31 =? 0).

Definition f32_is_nan (b : Z) : bool := 255 * 2 ^ 23 <? b mod 2 ^ 31.
Definition f32_key (b : Z) : Z := if 2 ^ 31 <=? b then - (b - 2 ^ 31) else b.
Definition f32_eq (x y : Z) : bool :=
  negb (f32_is_nan x) && negb (f32_is_nan y) && (f32_key x =? f32_key y).

(** float64(z) for an integer z: round to nearest, ties to even. *)
Definition f64_of_Z (z : Z) : Z := f64_to_bits (binary_normalize 53 1024 z 0 false).

(** float64(x) for a float32 x (exact). *)
Definition f64_of_f32 (b : Z) : Z :=
  match f32_of_bits b with
  | S754_finite s m e =>
    f64_to_bits (binary_normalize 53 1024 (if s then Zneg m else Zpos m) e false)
  | f => f64_to_bits f
  end.

(** Integer part of a finite number, rounding toward zero. *)
Definition sf_trunc (f : spec_float) : option Z :=
  match f with
  | S754_zero _ => Some 0
  | S754_finite s m e =>
    let a := if 0 <=? e then Zpos m * 2 ^ e else Zpos m / 2 ^ (- e) in
    Some (if s then - a else a)
  | _ => None
  end.

(** int64(x) for a float64 x.  When the truncated value does not fit (or x is not finite)
    Go's result is implementation dependent: [impl] gives it. *)
Definition i64_of_f64 (impl : Z -> Z) (b : Z) : Z :=
  match sf_trunc (f64_of_bits b) with
  | Some z => if (- 2 ^ 63 <=? z) && (z <? 2 ^ 63) then z else wraps 64 (impl b)
  | None => wraps 64 (impl b)
  end.

Example f64_ex1 : f64_of_Z 1 = 0x3ff0000000000000. Proof. reflexivity. Qed.
Example f64_ex2 : f64_of_Z (-3) = 0xc008000000000000. Proof. reflexivity. Qed.
Example f64_ex3 : f64_of_Z (2 ^ 53 + 1) = 0x4340000000000000. Proof. reflexivity. Qed.
Example f64_ex4 : f64_of_f32 0x40490fdb = 0x400921fb60000000. Proof. reflexivity. Qed.
Example f64_ex5 : i64_of_f64 (fun _ => 0) 0xc00a000000000000 = -3. Proof. reflexivity. Qed.
Example f64_ex6 : f64_of_f32 1 = 0x36a0000000000000. Proof. reflexivity. Qed.

Lemma f64_range : forall x, in_u 64 x -> 0 <= x mod 2 ^ 63 < 2 ^ 63 /\
  (x < 2 ^ 63 -> x mod 2 ^ 63 = x) /\ (2 ^ 63 <= x -> x mod 2 ^ 63 = x - 2 ^ 63).
Proof.
  intros x Hx. unfold in_u in Hx. split; [apply Z.mod_pos_bound; reflexivity|]. split; intro.
  - apply Z.mod_small. lia.
  - symmetry. apply Z.mod_unique with 1; lia.
Qed.

(** ** The comparison of bit patterns is the comparison of the numbers *)

Definition mag_sf (s : bool) (m : Z) : spec_float := sf_of_bits 11 52 ((if s then 2 ^ 63 else 0) + m).

(** Shape of the decoding of a non-NaN magnitude. *)
Inductive dec (m : Z) : bool -> spec_float -> Prop :=
| dec_zero s : m = 0 -> dec m s (S754_zero s)
| dec_inf s : m = 2047 * 2 ^ 52 -> dec m s (S754_infinity s)
| dec_sub s p : 0 < m < 2 ^ 52 -> Zpos p = m -> dec m s (S754_finite s p (-1074))
| dec_nor s p e : 2 ^ 52 <= m < 2047 * 2 ^ 52 -> e = m / 2 ^ 52 ->
    Zpos p = 2 ^ 52 + m mod 2 ^ 52 -> dec m s (S754_finite s p (-1075 + e)).

Lemma dec_ok : forall x, in_u 64 x -> f64_is_nan x = false ->
  dec (x mod 2 ^ 63) (2 ^ 63 <=? x) (f64_of_bits x).
Proof.
  intros x Hx Hn. unfold f64_is_nan in Hn.
  unfold f64_of_bits, sf_of_bits, fl_sign, fl_exp, fl_man, fl_mag.
  change (11 + 52) with 63. change (2 ^ 11 - 1) with 2047.
  change (2 - 2 ^ (11 - 1) - 52) with (-1074).
  assert (Em : x mod 2 ^ 52 = (x mod 2 ^ 63) mod 2 ^ 52).
  { apply Zmod_div_mod; [lia|lia|]. exists (2 ^ 11). reflexivity. }
  rewrite Em. clear Em.
  destruct (f64_range x Hx) as [Hm _].
  set (m := x mod 2 ^ 63) in *. set (s := 2 ^ 63 <=? x). clearbody m s. clear Hx x.
  apply Z.ltb_ge in Hn.
  pose proof (Z.div_mod m (2 ^ 52) ltac:(discriminate)) as Hd.
  pose proof (Z.mod_pos_bound m (2 ^ 52) ltac:(reflexivity)) as Hr.
  set (q := m / 2 ^ 52) in *. set (r := m mod 2 ^ 52) in *.
  assert (P : 2 ^ 52 = 4503599627370496) by reflexivity.
  assert (P3 : 2 ^ 63 = 9223372036854775808) by reflexivity.
  destruct (Z.eqb_spec q 2047) as [E|E].
  - assert (Er : r = 0) by lia. rewrite Er. cbn [Z.eqb].
    apply dec_inf. lia.
  - destruct (Z.eqb_spec q 0) as [E0|E0].
    + destruct r eqn:R.
      * apply dec_zero. lia.
      * apply dec_sub; lia.
      * lia.
    + assert (0 <= q) by (apply Z.div_pos; lia).
      destruct (2 ^ 52 + r) eqn:R; try lia.
      replace (-1074 + q - 1) with (-1075 + q) by lia.
      apply dec_nor with (e := q); try lia; try reflexivity.
Qed.

Lemma pos_cmp_Z : forall p q, Pos.compare_cont Eq p q = (Zpos p ?= Zpos q).
Proof. reflexivity. Qed.

Ltac cmp1 :=
  first [apply Z.compare_eq_iff; lia | apply Z.compare_lt_iff; lia
        | apply Z.compare_gt_iff; lia].
Ltac cmps :=
  match goal with
  | |- (_ ?= _) = match ?a ?= ?b with _ => _ end =>
      destruct (Z.compare_spec a b); cmps
  | |- (_ ?= _) = CompOpp (?a ?= ?b) =>
      destruct (Z.compare_spec a b); cbn [CompOpp]; cmp1
  | |- (_ ?= _) = (?a ?= ?b) => destruct (Z.compare_spec a b); cmp1
  | |- _ => cmp1
  end.

Lemma SFcompare_key : forall x y, in_u 64 x -> in_u 64 y ->
  f64_is_nan x = false -> f64_is_nan y = false ->
  SFcompare (f64_of_bits x) (f64_of_bits y) = Some (f64_key x ?= f64_key y).
Proof.
  intros x y Hx Hy Nx Ny.
  pose proof (dec_ok x Hx Nx) as Dx. pose proof (dec_ok y Hy Ny) as Dy.
  destruct (f64_range x Hx) as (Mx & X1 & X2). destruct (f64_range y Hy) as (My & Y1 & Y2).
  unfold f64_key.
  assert (Kx : (if 2 ^ 63 <=? x then - (x - 2 ^ 63) else x) =
               (if 2 ^ 63 <=? x then - (x mod 2 ^ 63) else x mod 2 ^ 63)).
  { destruct (Z.leb_spec (2 ^ 63) x); [rewrite X2|rewrite X1]; auto. }
  assert (Ky : (if 2 ^ 63 <=? y then - (y - 2 ^ 63) else y) =
               (if 2 ^ 63 <=? y then - (y mod 2 ^ 63) else y mod 2 ^ 63)).
  { destruct (Z.leb_spec (2 ^ 63) y); [rewrite Y2|rewrite Y1]; auto. }
  rewrite Kx, Ky. clear Kx Ky X1 X2 Y1 Y2.
  set (mx := x mod 2 ^ 63) in *. set (my := y mod 2 ^ 63) in *.
  set (sx := 2 ^ 63 <=? x) in *. set (sy := 2 ^ 63 <=? y) in *.
  clearbody mx my sx sy.
  change (2 ^ 52) with 4503599627370496 in *.
  change (2 ^ 63) with 9223372036854775808 in *.
  assert (D1 : forall e m, e = m / 4503599627370496 ->
    4503599627370496 <= m < 2047 * 4503599627370496 ->
    m = 4503599627370496 * e + m mod 4503599627370496 /\
    0 <= m mod 4503599627370496 < 4503599627370496 /\ 1 <= e < 2047).
  { intros e m -> Hm. lia. }
  change (2 ^ 52) with 4503599627370496 in *.
  destruct Dx as [s1 A|s1 A|s1 p1 A Q|s1 p1 e1 A B C];
  destruct Dy as [s2 A'|s2 A'|s2 p2 A' Q'|s2 p2 e2 A' B' C'];
    change (2 ^ 52) with 4503599627370496 in *;
    try (destruct (D1 _ _ B A) as (? & ? & ?));
    try (destruct (D1 _ _ B' A') as (? & ? & ?));
    clear D1; try clear B; try clear B';
    try (set (r1 := mx mod 4503599627370496) in *; clearbody r1);
    try (set (r2 := my mod 4503599627370496) in *; clearbody r2);
    destruct s1, s2; cbn [SFcompare]; f_equal; symmetry; rewrite ?pos_cmp_Z;
    cmps.
Qed.
