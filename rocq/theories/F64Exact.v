(** Integers of at most 53 bits are float64 values: conversion to float64 loses nothing. *)
From Coq Require Import ZArith List Bool Lia.
From Coq Require Import ZifyBool SpecFloat.
From Verif Require Import Base Arith F64.
Open Scope Z_scope.

(** The number a float is, if it is an integer times a power of two. *)
Inductive is_int : spec_float -> Z -> Prop :=
| ii_zero (s : bool) : is_int (S754_zero s) 0
| ii_pos (s : bool) m e z : z * 2 ^ Z.max 0 (- e) = (if s then Zneg m else Zpos m) * 2 ^ Z.max 0 e ->
    is_int (S754_finite s m e) z.

Lemma digits_size : forall m, digits2_pos m = Pos.size m.
Proof. induction m; cbn; congruence. Qed.
Lemma digits_bounds : forall m, 2 ^ (Zpos (digits2_pos m) - 1) <= Zpos m < 2 ^ Zpos (digits2_pos m).
Proof.
  intros m. rewrite digits_size. split.
  - pose proof (Pos.size_le m) as H. apply Pos2Z.pos_le_pos in H. rewrite Pos2Z.inj_pow, (Pos2Z.inj_xO m) in H.
    replace (Zpos (Pos.size m)) with (Z.succ (Zpos (Pos.size m) - 1)) in H by lia.
    rewrite Z.pow_succ_r in H by lia. lia.
  - pose proof (Pos.size_gt m) as H. apply Pos2Z.pos_lt_pos in H. rewrite Pos2Z.inj_pow in H. exact H.
Qed.
Lemma digits_unique : forall m d, 1 <= d -> 2 ^ (d - 1) <= Zpos m < 2 ^ d -> Zpos (digits2_pos m) = d.
Proof.
  intros m d Hd [L U]. destruct (digits_bounds m) as [L' U'].
  assert (~ Zpos (digits2_pos m) < d).
  { intros C. pose proof (Z.pow_le_mono_r 2 (Zpos (digits2_pos m)) (d - 1)). lia. }
  assert (~ d < Zpos (digits2_pos m)).
  { intros C. pose proof (Z.pow_le_mono_r 2 d (Zpos (digits2_pos m) - 1)). lia. }
  lia.
Qed.

Lemma shift_pos_Z : forall p m, Zpos (shift_pos p m) = Zpos m * 2 ^ Zpos p.
Proof.
  intros p m. unfold shift_pos.
  induction p using Pos.peano_ind.
  - cbn. lia.
  - rewrite Pos.iter_succ. rewrite Pos2Z.inj_xO, IHp, Pos2Z.inj_succ, Z.pow_succ_r by lia. lia.
Qed.

(** Rounding a number of 53 digits gives it back. *)
Lemma round_exact : forall s m e, Zpos (digits2_pos m) = 53 -> -1074 <= e <= 971 ->
  binary_round_aux 53 1024 s (Zpos m) e loc_Exact = S754_finite s m e.
Proof.
  intros s m e D E. unfold binary_round_aux.
  assert (F : shr_fexp 53 1024 (Zpos m) e loc_Exact = (shr_record_of_loc (Zpos m) loc_Exact, e)).
  { unfold shr_fexp. unfold Zdigits2. rewrite D. unfold fexp, emin.
    replace (Z.max (53 + e - 53) (3 - 1024 - 53) - e) with 0 by lia. reflexivity. }
  rewrite F. unfold shr_record_of_loc. cbn [shr_m loc_of_shr_record round_nearest_even]. rewrite F.
  cbn [shr_record_of_loc shr_m]. replace (e <=? 1024 - 53) with true by lia. reflexivity.
Qed.

(** An integer of at most 53 bits is a number with 53 digits. *)
Lemma normalize_exact : forall s m, Zpos m < 2 ^ 53 -> exists p e,
  binary_round 53 1024 s m 0 = S754_finite s p e /\ -52 <= e <= 0 /\ Zpos p = Zpos m * 2 ^ (- e) /\
  2 ^ 52 <= Zpos p < 2 ^ 53.
Proof.
  intros s m Hm. destruct (digits_bounds m) as [L U]. set (d := Zpos (digits2_pos m)) in *.
  assert (Hd : 1 <= d <= 53).
  { split; [lia|]. destruct (Z_le_gt_dec d 53) as [|G]; [assumption|].
    pose proof (Z.pow_le_mono_r 2 53 (d - 1)). lia. }
  unfold binary_round, shl_align. fold d. unfold fexp, emin.
  replace (Z.max (d + 0 - 53) (3 - 1024 - 53) - 0) with (d - 53) by lia.
  assert (B : forall p, Zpos p = Zpos m * 2 ^ (53 - d) -> 2 ^ 52 <= Zpos p < 2 ^ 53).
  { intros p ->. replace (2 ^ 52) with (2 ^ (d - 1) * 2 ^ (53 - d)).
    replace (2 ^ 53) with (2 ^ d * 2 ^ (53 - d)).
    - assert (0 < 2 ^ (53 - d)) by (apply Z.pow_pos_nonneg; lia). split; [apply Z.mul_le_mono_nonneg_r|apply Z.mul_lt_mono_pos_r]; lia.
    - rewrite <- Z.pow_add_r by lia. f_equal. lia.
    - rewrite <- Z.pow_add_r by lia. f_equal. lia. }
  destruct (d - 53) as [|q|q] eqn:E; [|lia|].
  - assert (Ed : d = 53) by lia. exists m, 0.
    assert (Bm : 2 ^ 52 <= Zpos m < 2 ^ 53) by (apply B; rewrite Ed; cbn; lia).
    split; [|split; [lia|split; [cbn; lia|exact Bm]]].
    apply round_exact; [apply digits_unique; [lia|exact Bm]|lia].
  - assert (Eq : 53 - d = Zpos q) by lia.
    assert (Ep : Zpos (shift_pos q m) = Zpos m * 2 ^ (53 - d)) by (rewrite Eq; apply shift_pos_Z).
    pose proof (B _ Ep) as Bm. exists (shift_pos q m), (Zneg q).
    replace (Z.max (d + 0 - 53) (3 - 1024 - 53)) with (d - 53) by lia.
    rewrite E.
    split; [|split; [lia|split; [rewrite Ep; f_equal; f_equal; lia|exact Bm]]].
    apply round_exact; [apply digits_unique; [lia|exact Bm]|lia].
Qed.

(** Encoding and decoding a number of 53 digits. *)
Lemma of_to_bits : forall s p e, 2 ^ 52 <= Zpos p < 2 ^ 53 -> -1074 <= e <= 971 ->
  f64_of_bits (f64_to_bits (S754_finite s p e)) = S754_finite s p e /\ in_u 64 (f64_to_bits (S754_finite s p e)).
Proof.
  intros s p e P E. unfold f64_of_bits, f64_to_bits, bits_of_sf.
  change (11 + 52) with 63. change (2 - 2 ^ (11 - 1) - 52) with (-1074).
  replace (Zpos p <? 2 ^ 52) with false by lia.
  set (sg := if s then 2 ^ 63 else 0). set (k := e - -1074 + 1). set (f := Zpos p - 2 ^ 52).
  assert (Hf : 0 <= f < 2 ^ 52) by (unfold f; lia). assert (Hk : 1 <= k <= 2046) by (unfold k; lia).
  assert (P3 : 2 ^ 63 = 2048 * 2 ^ 52) by reflexivity.
  assert (M : 0 <= k * 2 ^ 52 + f < 2 ^ 63) by (rewrite P3; nia).
  unfold sf_of_bits, fl_sign, fl_exp, fl_man, fl_mag. change (11 + 52) with 63. change (2 ^ 11 - 1) with 2047.
  change (2 - 2 ^ (11 - 1) - 52) with (-1074).
  assert (E1 : (sg + (k * 2 ^ 52 + f)) mod 2 ^ 63 = k * 2 ^ 52 + f).
  { unfold sg. destruct s; [|apply Z.mod_small; exact M]. rewrite <- (Z.mul_1_l (2 ^ 63)) at 1.
    rewrite Z.add_comm, Z_mod_plus_full. apply Z.mod_small. exact M. }
  assert (E2 : (sg + (k * 2 ^ 52 + f)) mod 2 ^ 52 = f).
  { rewrite Z.add_assoc. replace (sg + k * 2 ^ 52) with ((k + if s then 2048 else 0) * 2 ^ 52) by (unfold sg; destruct s; [rewrite P3|]; ring).
    rewrite Z.add_comm, Z_mod_plus_full. apply Z.mod_small. exact Hf. }
  assert (E3 : (k * 2 ^ 52 + f) / 2 ^ 52 = k).
  { rewrite Z.add_comm, Z.div_add by discriminate. rewrite Z.div_small by exact Hf. reflexivity. }
  assert (E4 : (2 ^ 63 <=? sg + (k * 2 ^ 52 + f)) = s) by (unfold sg; destruct s; lia).
  rewrite E1, E2, E3, E4. replace (k =? 2047) with false by lia. replace (k =? 0) with false by lia.
  replace (2 ^ 52 + f) with (Zpos p) by (unfold f; lia). replace (-1074 + k - 1) with e by (unfold k; lia).
  split; [reflexivity|]. unfold in_u. change (2 ^ 64) with (2 * 2 ^ 63). unfold sg. destruct s; lia.
Qed.

Theorem f64_of_Z_exact : forall z, Z.abs z < 2 ^ 53 ->
  is_int (f64_of_bits (f64_of_Z z)) z /\ in_u 64 (f64_of_Z z).
Proof.
  intros z Hz. unfold f64_of_Z, binary_normalize. destruct z as [|m|m].
  - split; [vm_compute; constructor|]. vm_compute. split; congruence.
  - destruct (normalize_exact false m ltac:(lia)) as (p & e & -> & He & Ep & B).
    destruct (of_to_bits false p e B ltac:(lia)) as [-> R]. split; [|exact R]. constructor.
    rewrite Ep. replace (Z.max 0 (- e)) with (- e) by lia. replace (Z.max 0 e) with 0 by lia. lia.
  - destruct (normalize_exact true m ltac:(lia)) as (p & e & -> & He & Ep & B).
    destruct (of_to_bits true p e B ltac:(lia)) as [-> R]. split; [|exact R]. constructor.
    replace (Z.max 0 (- e)) with (- e) by lia. replace (Z.max 0 e) with 0 by lia.
    change (Zneg p) with (- Zpos p). rewrite Ep. lia.
Qed.
