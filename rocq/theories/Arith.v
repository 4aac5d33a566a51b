(** Arithmetic of machine integers and byte strings. *)
From Coq Require Import ZArith List Bool Lia.
From Coq Require Import ZifyBool ZifyNat.
From Verif Require Import Base.
Import ListNotations.
Open Scope Z_scope.
Ltac Zify.zify_post_hook ::= Z.div_mod_to_equations.

(** Signed n-bit range. *)
Definition in_s (n x : Z) : Prop := - 2 ^ (n - 1) <= x < 2 ^ (n - 1).
(** Unsigned n-bit range. *)
Definition in_u (n x : Z) : Prop := 0 <= x < 2 ^ n.

(** Big-endian n-byte representation of [v] modulo 256^n, by division. *)
Fixpoint be (n : nat) (v : Z) : bytes :=
  match n with
  | O => []
  | S n' => (v / 256 ^ Z.of_nat n') mod 256 :: be n' v
  end.
(** Value of a big-endian byte string. *)
Fixpoint unbe (bs : bytes) : Z :=
  match bs with
  | [] => 0
  | b :: bs' => b * 256 ^ Z.of_nat (length bs') + unbe bs'
  end.
(** Little-endian. *)
Fixpoint le (n : nat) (v : Z) : bytes :=
  match n with
  | O => []
  | S n' => v mod 256 :: le n' (v / 256)
  end.

Lemma be_length : forall n v, length (be n v) = n.
Proof. induction n; cbn; intros; auto. Qed.
Lemma le_length : forall n v, length (le n v) = n.
Proof. induction n; cbn; intros; auto. Qed.
Lemma be_bytes : forall n v, is_bytes (be n v).
Proof.
  induction n; cbn; intros; constructor; [|apply IHn].
  unfold is_byte. apply Z.mod_pos_bound; lia.
Qed.
Lemma le_bytes : forall n v, is_bytes (le n v).
Proof.
  induction n; cbn; intros; constructor; [|apply IHn].
  unfold is_byte. apply Z.mod_pos_bound; lia.
Qed.

Lemma pow256_pos : forall n, 0 < 256 ^ Z.of_nat n.
Proof. intros; apply Z.pow_pos_nonneg; lia. Qed.

Lemma unbe_be : forall n v, unbe (be n v) = v mod 256 ^ Z.of_nat n.
Proof.
  induction n as [|n IH]; intros v.
  - cbn. rewrite Z.mod_1_r. reflexivity.
  - cbn [be unbe]. rewrite be_length, IH.
    rewrite Nat2Z.inj_succ, Z.pow_succ_r by lia.
    pose proof (pow256_pos n). set (p := 256 ^ Z.of_nat n) in *.
    rewrite (Z.mul_comm 256 p), Z.rem_mul_r by lia. lia.
Qed.

Lemma lor_add : forall k a q, 0 <= k -> 0 <= a < 2 ^ k -> Z.lor a (q * 2 ^ k) = a + q * 2 ^ k.
Proof.
  intros k a q Hk Ha. rewrite <- Z.shiftl_mul_pow2 by lia.
  assert (D : Z.land a (Z.shiftl q k) = 0).
  { apply Z.bits_inj'; intros i Hi; rewrite Z.land_spec, Z.bits_0.
    destruct (Z.ltb_spec i k).
    - rewrite Z.shiftl_spec_low by lia. apply andb_false_r.
    - rewrite <- (Z.mod_small a (2 ^ k)) by lia.
      rewrite Z.mod_pow2_bits_high by lia. reflexivity. }
  rewrite Z.add_nocarry_lxor by exact D.
  symmetry. apply Z.lxor_lor. exact D.
Qed.

Lemma lor_add' : forall k a q, 0 <= k -> 0 <= a < 2 ^ k -> Z.lor (q * 2 ^ k) a = q * 2 ^ k + a.
Proof. intros; rewrite Z.lor_comm, lor_add by assumption; lia. Qed.

Lemma land255 : forall x, Z.land 255 x = x mod 256.
Proof. intros. rewrite Z.land_comm. change 255 with (Z.ones 8). apply Z.land_ones; lia. Qed.
Lemma land_255 : forall x, Z.land x 255 = x mod 256.
Proof. intros. change 255 with (Z.ones 8). apply Z.land_ones; lia. Qed.
Lemma land_15 : forall x, Z.land x 15 = x mod 16.
Proof. intros. change 15 with (Z.ones 4). apply Z.land_ones; lia. Qed.
Lemma land_127 : forall x, Z.land x 127 = x mod 128.
Proof. intros. change 127 with (Z.ones 7). apply Z.land_ones; lia. Qed.
Lemma land_31 : forall x, Z.land x 31 = x mod 32.
Proof. intros. change 31 with (Z.ones 5). apply Z.land_ones; lia. Qed.
Lemma land_3 : forall x, Z.land x 3 = x mod 4.
Proof. intros. change 3 with (Z.ones 2). apply Z.land_ones; lia. Qed.

Lemma wraps_id : forall n x, 0 < n -> in_s n x -> wraps n x = x.
Proof.
  unfold in_s, wraps; intros n x Hn H.
  assert (E : 2 ^ n = 2 * 2 ^ (n - 1)) by (rewrite <- Z.pow_succ_r by lia; f_equal; lia).
  destruct (Z_lt_le_dec x 0).
  - replace (x mod 2 ^ n) with (x + 2 ^ n).
    + destruct (x + 2 ^ n <? 2 ^ (n - 1)) eqn:F; lia.
    + apply Z.mod_unique with (-1); lia.
  - rewrite Z.mod_small by lia. destruct (x <? 2 ^ (n - 1)) eqn:F; lia.
Qed.

Lemma wraps_mod : forall n x, 0 <= n -> wraps n (x mod 2 ^ n) = wraps n x.
Proof.
  intros. unfold wraps. rewrite Z.mod_mod by (pose proof (Z.pow_pos_nonneg 2 n); lia).
  reflexivity.
Qed.

Lemma wraps_range : forall n x, 0 < n -> in_s n (wraps n x).
Proof.
  intros n x Hn. unfold in_s, wraps.
  assert (E : 2 ^ n = 2 * 2 ^ (n - 1)) by (rewrite <- Z.pow_succ_r by lia; f_equal; lia).
  assert (0 < 2 ^ (n - 1)) by (apply Z.pow_pos_nonneg; lia).
  pose proof (Z.mod_pos_bound x (2 ^ n)).
  destruct (x mod 2 ^ n <? 2 ^ (n - 1)) eqn:F; lia.
Qed.

Lemma wraps_cong : forall n x, 0 <= n -> wraps n x mod 2 ^ n = x mod 2 ^ n.
Proof.
  intros n x Hn. pose proof (Z.pow_pos_nonneg 2 n). unfold wraps.
  destruct (x mod 2 ^ n <? 2 ^ (n - 1)).
  - apply Z.mod_mod; lia.
  - rewrite Zminus_mod, Z.mod_same, Z.sub_0_r, Z.mod_mod, Z.mod_mod by lia. reflexivity.
Qed.

Lemma be_wraps : forall n v, be n (wraps (8 * Z.of_nat n) v) = be n v.
Proof.
  assert (G : forall m n v, (m <= n)%nat ->
                be m (wraps (8 * Z.of_nat n) v) = be m v).
  { induction m; intros n v L; [reflexivity|]. cbn [be]. rewrite IHm by lia. f_equal.
    assert (P : forall x, x / 256 ^ Z.of_nat m mod 256
                          = (x mod 2 ^ (8 * Z.of_nat n)) / 256 ^ Z.of_nat m mod 256).
    { intro x. pose proof (pow256_pos m).
      replace (2 ^ (8 * Z.of_nat n))
        with (256 ^ Z.of_nat m * (256 * 256 ^ (Z.of_nat n - Z.of_nat m - 1))).
      2:{ rewrite <- Z.pow_succ_r by lia. rewrite <- Z.pow_add_r by lia.
          change 256 with (2 ^ 8) at 1. rewrite <- Z.pow_mul_r by lia. f_equal. lia. }
      assert (0 < 256 ^ (Z.of_nat n - Z.of_nat m - 1)) by (apply Z.pow_pos_nonneg; lia).
      rewrite Z.rem_mul_r by lia.
      rewrite (Z.mul_comm (256 ^ Z.of_nat m) (_ mod _)), Z.div_add by lia.
      rewrite Z.div_small with (a := x mod _) by (apply Z.mod_pos_bound; lia).
      rewrite Z.add_0_l, Z.rem_mul_r by lia.
      rewrite Z.mul_comm, Z.mod_add, Z.mod_mod by lia. reflexivity. }
    rewrite P, wraps_cong, <- P by lia. reflexivity. }
  intros; apply G; lia.
Qed.

Lemma wrapu_id : forall n x, in_u n x -> wrapu n x = x.
Proof. unfold wrapu, in_u; intros; apply Z.mod_small; lia. Qed.

(** Reading back a big-endian signed integer. *)
Lemma wraps_unbe_be : forall n v, (0 < n)%nat -> in_s (8 * Z.of_nat n) v ->
  wraps (8 * Z.of_nat n) (unbe (be n v)) = v.
Proof.
  intros n v Hn H. rewrite unbe_be. change 256 with (2 ^ 8).
  rewrite <- Z.pow_mul_r by lia. rewrite wraps_mod by lia. apply wraps_id; [lia|assumption].
Qed.

Lemma is_bytes_app : forall a b, is_bytes (a ++ b) <-> is_bytes a /\ is_bytes b.
Proof. intros. apply Forall_app. Qed.
