(** Zigzag and varint arithmetic of TCompactProtocol. *)
From Coq Require Import ZArith List Bool Lia.
From Coq Require Import ZifyBool ZifyNat.
From Verif Require Import Base Errors Transport Proto Arith TransportProofs Values Codec
  Compact CompactSpec.
Import ListNotations.
Open Scope Z_scope.
Ltac Zify.zify_post_hook ::= Z.div_mod_to_equations.

Lemma land_1 : forall x, Z.land x 1 = x mod 2.
Proof. intros. change 1 with (Z.ones 1) at 1. apply Z.land_ones; lia. Qed.
Lemma land_m128 : forall n, Z.land n (-128) = n / 128 * 128.
Proof.
  intros n. change (-128) with (Z.lnot (Z.ones 7)). rewrite <- Z.ldiff_land, Z.ldiff_ones_r by lia.
  rewrite Z.shiftl_mul_pow2, Z.shiftr_div_pow2 by lia. reflexivity.
Qed.
Lemma land_128 : forall b, 0 <= b < 256 -> (Z.land b 128 =? 128) = (128 <=? b).
Proof.
  intros b H. destruct (Z_lt_le_dec b 128).
  - replace (Z.land b 128) with 0; [lia|]. symmetry. apply Z.bits_inj'. intros i Hi.
    rewrite Z.land_spec, Z.bits_0. destruct (Z.ltb_spec i 7).
    + replace (Z.testbit 128 i) with false; [apply andb_false_r|].
      change 128 with (1 * 2 ^ 7). rewrite Z.mul_pow2_bits_low by lia. reflexivity.
    + rewrite <- (Z.mod_small b (2 ^ 7)) by (change (2 ^ 7) with 128; lia).
      rewrite Z.mod_pow2_bits_high by lia. reflexivity.
  - replace b with (b - 128 + 1 * 2 ^ 7) at 1 by (change (2 ^ 7) with 128; lia).
    rewrite <- lor_add by (change (2 ^ 7) with 128; lia).
    rewrite Z.land_lor_distr_l.
    replace (Z.land (b - 128) 128) with 0; [change (Z.land (1 * 2 ^ 7) 128) with 128; cbn; lia|].
    symmetry. apply Z.bits_inj'. intros i Hi.
    rewrite Z.land_spec, Z.bits_0. destruct (Z.ltb_spec i 7).
    + replace (Z.testbit 128 i) with false; [apply andb_false_r|].
      change 128 with (1 * 2 ^ 7). rewrite Z.mul_pow2_bits_low by lia. reflexivity.
    + rewrite <- (Z.mod_small (b - 128) (2 ^ 7)) by (change (2 ^ 7) with 128; lia).
      rewrite Z.mod_pow2_bits_high by lia. reflexivity.
Qed.

Lemma lxor_m1 : forall x, Z.lxor x (-1) = - x - 1.
Proof. intros. rewrite Z.lxor_m1_r. unfold Z.lnot. lia. Qed.
Lemma shiftr_sign : forall k n, 0 <= k -> - 2 ^ k <= n < 2 ^ k ->
  Z.shiftr n k = if n <? 0 then -1 else 0.
Proof.
  intros k n Hk H. rewrite Z.shiftr_div_pow2 by lia. destruct (n <? 0) eqn:E.
  - symmetry. apply Z.div_unique with (n + 2 ^ k); lia.
  - apply Z.div_small; lia.
Qed.

Lemma zz32 : forall n, in_s 32 n -> int32ToZigzag n = wraps 32 (zz n).
Proof.
  intros n H. unfold int32ToZigzag, in_s in *. rewrite shiftr_sign by lia.
  rewrite Z.shiftl_mul_pow2 by lia. unfold zz.
  destruct (n <? 0) eqn:E; [rewrite lxor_m1|rewrite Z.lxor_0_r; f_equal; lia].
  unfold wraps. change (2 ^ 32) with 4294967296. change (2 ^ (32 - 1)) with 2147483648 in *.
  change (2 ^ 1) with 2.
  destruct (n * 2 mod 4294967296 <? 2147483648) eqn:E1,
           ((-2 * n - 1) mod 4294967296 <? 2147483648) eqn:E2; lia.
Qed.
Lemma zz64 : forall n, in_s 64 n -> int64ToZigzag n = wraps 64 (zz n).
Proof.
  intros n H. unfold int64ToZigzag, in_s in *. rewrite shiftr_sign by lia.
  rewrite Z.shiftl_mul_pow2 by lia. unfold zz.
  destruct (n <? 0) eqn:E; [rewrite lxor_m1|rewrite Z.lxor_0_r; f_equal; lia].
  unfold wraps. change (2 ^ 64) with 18446744073709551616.
  change (2 ^ (64 - 1)) with 9223372036854775808 in *. change (2 ^ 1) with 2.
  destruct (n * 2 mod 18446744073709551616 <? 9223372036854775808) eqn:E1,
           ((-2 * n - 1) mod 18446744073709551616 <? 9223372036854775808) eqn:E2; lia.
Qed.

Lemma zz_range : forall w n, 0 < w -> in_s w n -> in_u w (zz n).
Proof.
  unfold in_s, in_u, zz. intros w n W H.
  assert (E : 2 ^ w = 2 * 2 ^ (w - 1)) by (rewrite <- Z.pow_succ_r by lia; f_equal; lia).
  destruct (n <? 0) eqn:F; lia.
Qed.

Lemma unzz32 : forall n, in_s 32 n -> zigzagToInt32 (wraps 32 (zz n)) = n.
Proof.
  intros n H. unfold zigzagToInt32. unfold wrapu. rewrite wraps_cong by lia.
  pose proof (zz_range 32 n ltac:(lia) H) as R. unfold in_u in R.
  rewrite Z.mod_small by assumption. rewrite Z.shiftr_div_pow2 by lia. rewrite land_1.
  assert (Q : wraps 32 (zz n) mod 2 = zz n mod 2).
  { unfold wraps. change (2 ^ (32 - 1)) with 2147483648 in *. change (2 ^ 32) with 4294967296 in *.
    destruct (_ <? _); lia. }
  rewrite Q. change (2 ^ 1) with 2. unfold in_s in H. change (2 ^ (32 - 1)) with 2147483648 in *.
  change (2 ^ 32) with 4294967296 in *.
  assert (D : 0 <= zz n / 2 < 2147483648) by (clear Q; unfold zz in *; destruct (n <? 0) eqn:E; lia).
  rewrite (wraps_id 32 (zz n / 2)) by (unfold in_s; change (2 ^ (32 - 1)) with 2147483648; lia).
  unfold zz in *. destruct (n <? 0) eqn:E.
  - replace ((-2 * n - 1) mod 2) with 1 by lia. change (wraps 32 (-(1))) with (-1).
    rewrite lxor_m1. lia.
  - replace (2 * n mod 2) with 0 by lia. change (wraps 32 (-0)) with 0. rewrite Z.lxor_0_r. lia.
Qed.
Lemma unzz64 : forall n, in_s 64 n -> zigzagToInt64 (wraps 64 (zz n)) = n.
Proof.
  intros n H. unfold zigzagToInt64. unfold wrapu. rewrite wraps_cong by lia.
  pose proof (zz_range 64 n ltac:(lia) H) as R. unfold in_u in R.
  rewrite Z.mod_small by assumption. rewrite Z.shiftr_div_pow2 by lia. rewrite land_1.
  assert (Q : wraps 64 (zz n) mod 2 = zz n mod 2).
  { unfold wraps. change (2 ^ (64 - 1)) with 9223372036854775808 in *.
    change (2 ^ 64) with 18446744073709551616 in *. destruct (_ <? _); lia. }
  rewrite Q. change (2 ^ 1) with 2. unfold in_s in H.
  change (2 ^ (64 - 1)) with 9223372036854775808 in *.
  change (2 ^ 64) with 18446744073709551616 in *.
  assert (D : 0 <= zz n / 2 < 9223372036854775808)
    by (clear Q; unfold zz in *; destruct (n <? 0) eqn:E; lia).
  rewrite (wraps_id 64 (zz n / 2))
    by (unfold in_s; change (2 ^ (64 - 1)) with 9223372036854775808; lia).
  unfold zz in *. destruct (n <? 0) eqn:E.
  - replace ((-2 * n - 1) mod 2) with 1 by lia. change (wraps 64 (-(1))) with (-1).
    rewrite lxor_m1. lia.
  - replace (2 * n mod 2) with 0 by lia. change (wraps 64 (-0)) with 0. rewrite Z.lxor_0_r. lia.
Qed.

(** Every code is the code of exactly one number. *)
Lemma zz_onto : forall w u, 0 < w -> in_u w u -> exists n, in_s w n /\ zz n = u.
Proof.
  unfold in_s, in_u, zz. intros w u W H.
  assert (E : 2 ^ w = 2 * 2 ^ (w - 1)) by (rewrite <- Z.pow_succ_r by lia; f_equal; lia).
  set (p := 2 ^ (w - 1)) in *. clearbody p.
  exists (if u mod 2 =? 0 then u / 2 else - (u / 2) - 1).
  destruct (u mod 2 =? 0) eqn:F.
  - split; [lia|]. replace (u / 2 <? 0) with false by lia. lia.
  - split; [lia|]. replace (- (u / 2) - 1 <? 0) with true by lia. lia.
Qed.

Lemma wraps_cases : forall n u, 0 <= u < 2 ^ n ->
  wraps n u = if u <? 2 ^ (n - 1) then u else u - 2 ^ n.
Proof. intros n u H. unfold wraps. rewrite Z.mod_small by assumption. reflexivity. Qed.

(** ** Varints *)
Lemma uvar_bytes : forall n u, 0 <= u -> is_bytes (uvar n u).
Proof.
  induction n as [|n IH]; intros u H; cbn [uvar]; [constructor|].
  destruct (u <? 128) eqn:E; constructor; try constructor; unfold is_byte; try lia.
  apply IH. lia.
Qed.
Lemma uvar_length : forall n u, (length (uvar n u) <= n)%nat.
Proof. induction n; intros; cbn; [lia|]. destruct (_ <? _); cbn; [lia|]. specialize (IHn (u / 128)). lia. Qed.
(** The bound on groups is irrelevant once large enough. *)
Lemma uvar_bound : forall n m u, 0 <= u < 128 ^ Z.of_nat n -> (0 < n <= m)%nat ->
  uvar m u = uvar n u.
Proof.
  induction n as [|n IH]; intros m u H L.
  - lia.
  - destruct m; [lia|]. cbn [uvar]. destruct (u <? 128) eqn:E; [reflexivity|]. f_equal.
    rewrite Nat2Z.inj_succ, Z.pow_succ_r in H by lia.
    apply IH; [lia|]. destruct n; [cbn in H; lia|lia].
Qed.
(** Shortest form: k groups exactly when 128^(k-1) <= u < 128^k (one group for 0). *)
Lemma uvar_size : forall n u, 0 <= u < 128 ^ Z.of_nat n -> (0 < n)%nat ->
  u < 128 ^ Z.of_nat (length (uvar n u)) /\
  (u = 0 \/ 128 ^ (Z.of_nat (length (uvar n u)) - 1) <= u) /\ (1 <= length (uvar n u))%nat.
Proof.
  induction n as [|n IH]; intros u H L; [lia|]. cbn [uvar]. destruct (u <? 128) eqn:E.
  - cbn. lia.
  - rewrite Nat2Z.inj_succ, Z.pow_succ_r in H by lia.
    assert (Hn : (0 < n)%nat) by (destruct n; [cbn in H; lia|lia]).
    destruct (IH (u / 128) ltac:(lia) Hn) as (I1 & I2 & I3).
    cbn [length]. rewrite Nat2Z.inj_succ. rewrite Z.pow_succ_r by lia.
    replace (Z.succ (Z.of_nat (length (uvar n (u / 128)))) - 1)
      with (Z.succ (Z.of_nat (length (uvar n (u / 128))) - 1)) by lia.
    rewrite Z.pow_succ_r by lia. split; [lia|]. split; [|lia]. right. lia.
Qed.

Lemma cont_byte : forall n, wrapu 8 (Z.lor (Z.land n 127) 128) = 128 + n mod 128.
Proof.
  intros n. rewrite land_127. change 128 with (1 * 2 ^ 7) at 2.
  rewrite lor_add by (change (2 ^ 7) with 128; lia). unfold wrapu.
  change (2 ^ 8) with 256. change (2 ^ 7) with 128. lia.
Qed.

Lemma varint32_uvar : forall room u, 0 <= u < 128 ^ Z.of_nat room -> (0 < room)%nat -> u < 2 ^ 32 ->
  varint32_bytes room (wraps 32 u) = Ok (uvar room u).
Proof.
  induction room as [|room IH]; intros u H L U.
  - lia.
  - cbn [varint32_bytes uvar]. rewrite land_m128, cont_byte. unfold wrapu.
    rewrite wraps_cong, (Z.mod_small u (2 ^ 32)) by lia. rewrite Z.shiftr_div_pow2 by lia.
    change (2 ^ 7) with 128. change (2 ^ 8) with 256.
    assert (M : forall k, (k = 128 \/ k = 256) -> wraps 32 u mod k = u mod k).
    { intros k K. rewrite wraps_cases by lia. change (2 ^ (32 - 1)) with 2147483648.
      change (2 ^ 32) with 4294967296 in *.
      destruct K; subst; destruct (_ <? _); lia. }
    rewrite !M by auto. clear M.
    replace (wraps 32 u / 128 * 128 =? 0) with (u <? 128).
    2:{ rewrite wraps_cases by lia. change (2 ^ (32 - 1)) with 2147483648.
        change (2 ^ 32) with 4294967296 in *.
        destruct (u <? 2147483648) eqn:E; lia. }
    destruct (u <? 128) eqn:E; [do 2 f_equal; lia|].
    rewrite Nat2Z.inj_succ, Z.pow_succ_r in H by lia.
    rewrite IH; [reflexivity|lia| |lia]. destruct room; [cbn in H; lia|lia].
Qed.
Lemma varint64_uvar : forall room u, 0 <= u < 128 ^ Z.of_nat room -> (0 < room)%nat -> u < 2 ^ 64 ->
  varint64_bytes room (wraps 64 u) = Ok (uvar room u).
Proof.
  induction room as [|room IH]; intros u H L U.
  - lia.
  - cbn [varint64_bytes uvar]. rewrite land_m128, cont_byte. unfold wrapu.
    rewrite wraps_cong, (Z.mod_small u (2 ^ 64)) by lia. rewrite Z.shiftr_div_pow2 by lia.
    change (2 ^ 7) with 128. change (2 ^ 8) with 256.
    assert (M : forall k, (k = 128 \/ k = 256) -> wraps 64 u mod k = u mod k).
    { intros k K. rewrite wraps_cases by lia. change (2 ^ (64 - 1)) with 9223372036854775808.
      change (2 ^ 64) with 18446744073709551616 in *.
      destruct K; subst; destruct (_ <? _); lia. }
    rewrite !M by auto. clear M.
    replace (wraps 64 u / 128 * 128 =? 0) with (u <? 128).
    2:{ rewrite wraps_cases by lia. change (2 ^ (64 - 1)) with 9223372036854775808.
        change (2 ^ 64) with 18446744073709551616 in *.
        destruct (u <? 9223372036854775808) eqn:E; lia. }
    destruct (u <? 128) eqn:E; [do 2 f_equal; lia|].
    rewrite Nat2Z.inj_succ, Z.pow_succ_r in H by lia.
    rewrite IH; [reflexivity|lia| |lia]. destruct room; [cbn in H; lia|lia].
Qed.
Lemma varint32_sc : forall u, in_u 32 u -> varint32_bytes 5 (wraps 32 u) = Ok (sc_var u).
Proof.
  unfold in_u; intros u H. rewrite varint32_uvar by (change (128 ^ Z.of_nat 5) with (2 ^ 35); lia).
  unfold sc_var. rewrite (uvar_bound 5 10); [reflexivity| |lia].
  change (128 ^ Z.of_nat 5) with (2 ^ 35); lia.
Qed.
Lemma varint64_sc : forall u, in_u 64 u -> varint64_bytes 10 (wraps 64 u) = Ok (sc_var u).
Proof.
  unfold in_u; intros u H. rewrite varint64_uvar by (change (128 ^ Z.of_nat 10) with (2 ^ 70); lia).
  reflexivity.
Qed.

(** Accumulating one group. *)
Lemma accum : forall res x sh, 0 <= sh <= 63 -> 0 <= res < 2 ^ sh -> 0 <= x ->
  res + x * 2 ^ sh < 2 ^ 64 ->
  Z.lor res (wraps 64 (x * 2 ^ sh)) = wraps 64 (res + x * 2 ^ sh).
Proof.
  intros res x sh Hs Hr Hx Hl.
  assert (P : 0 < 2 ^ sh) by (apply Z.pow_pos_nonneg; lia).
  assert (E63 : 2 ^ 63 = 2 ^ (63 - sh) * 2 ^ sh) by (rewrite <- Z.pow_add_r by lia; f_equal; lia).
  assert (E64 : 2 ^ 64 = 2 * 2 ^ (63 - sh) * 2 ^ sh) by (rewrite <- Z.mul_assoc, <- E63; lia).
  assert (P2 : 0 < 2 ^ (63 - sh)) by (apply Z.pow_pos_nonneg; lia).
  assert (Hy : x < 2 * 2 ^ (63 - sh)) by nia.
  rewrite !wraps_cases by nia. change (2 ^ (64 - 1)) with (2 ^ 63).
  destruct (x * 2 ^ sh <? 2 ^ 63) eqn:E.
  - assert (x < 2 ^ (63 - sh)) by nia.
    replace (res + x * 2 ^ sh <? 2 ^ 63) with true by nia.
    apply lor_add; lia.
  - assert (2 ^ (63 - sh) <= x) by nia.
    replace (res + x * 2 ^ sh <? 2 ^ 63) with false by nia.
    replace (x * 2 ^ sh - 2 ^ 64) with ((x - 2 * 2 ^ (63 - sh)) * 2 ^ sh) by nia.
    rewrite lor_add by lia. nia.
Qed.
