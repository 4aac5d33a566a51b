(** Message envelopes of TBinaryProtocol. *)
From Coq Require Import ZArith List Bool Lia.
From Coq Require Import ZifyBool ZifyNat.
From Verif Require Import Base Errors Transport Proto Arith TransportProofs Values Codec
  Binary BinarySpec Skip BinaryProofs SkipProofs.
Import ListNotations.
Open Scope Z_scope.
Ltac Zify.zify_post_hook ::= Z.div_mod_to_equations.

Lemma land_version_mask : forall x, Z.land x VERSION_MASK = (x / 65536) mod 65536 * 65536.
Proof.
  intros x. change VERSION_MASK with (Z.shiftl (Z.ones 16) 16).
  change 65536 with (2 ^ 16). rewrite <- Z.shiftl_mul_pow2 by lia.
  rewrite <- Z.shiftr_div_pow2 by lia. rewrite <- Z.land_ones by lia.
  apply Z.bits_inj'. intros i Hi. rewrite Z.land_spec.
  destruct (Z.ltb_spec i 16).
  - rewrite !Z.shiftl_spec_low by lia. apply andb_false_r.
  - rewrite !Z.shiftl_spec_high by lia. rewrite Z.land_spec, Z.shiftr_spec by lia.
    f_equal. f_equal. lia.
Qed.

(** The first word as read by ReadI32. *)
Lemma first_word : forall b0 b1 b2 b3, is_bytes [b0; b1; b2; b3] ->
  forall r rest, benign r -> content r = b0 :: b1 :: b2 :: b3 :: rest ->
  exists r1, bReadI32 r = Ok (wraps 32 (unbe [b0; b1; b2; b3]), None, r1) /\
             benign r1 /\ content r1 = rest.
Proof.
  intros b0 b1 b2 b3 Hb r rest B X.
  destruct (read_all_exact r [b0; b1; b2; b3] rest B X) as (r1 & R & B1 & X1).
  exists r1. split; [|auto]. unfold bReadI32, b_readAll. cbn [length] in R. rewrite R.
  cbn [obind protocol_exc_from_os]. rewrite be_uint32_unbe by assumption. reflexivity.
Qed.

Lemma word_value : forall b0 b1 b2 b3, is_bytes [b0; b1; b2; b3] ->
  wraps 32 (unbe [b0; b1; b2; b3]) =
    (if b0 <? 128 then 0 else - 2 ^ 32) + b0 * 16777216 + b1 * 65536 + b2 * 256 + b3.
Proof.
  intros b0 b1 b2 b3 H. inv_bytes. cbn [unbe length].
  change (256 ^ Z.of_nat 3) with 16777216. change (256 ^ Z.of_nat 2) with 65536.
  change (256 ^ Z.of_nat 1) with 256. change (256 ^ Z.of_nat 0) with 1.
  unfold wraps. change (2 ^ (32 - 1)) with 2147483648. change (2 ^ 32) with 4294967296.
  rewrite Z.mod_small by lia.
  destruct (b0 <? 128) eqn:E1; destruct (_ <? 2147483648) eqn:E2; lia.
Qed.

Lemma message_bad_version : forall strict r b0 b1 b2 b3 rest,
  is_bytes [b0; b1; b2; b3] -> benign r -> content r = b0 :: b1 :: b2 :: b3 :: rest ->
  (b0, b1) <> (128, 1) -> strict = true \/ 128 <= b0 ->
  exists m r', bReadMessageBegin strict r = Ok (m, Some (EProtocol BAD_VERSION), r') /\
               content r' = rest.
Proof.
  intros strict r b0 b1 b2 b3 rest Hb B X N S.
  destruct (first_word _ _ _ _ Hb r rest B X) as (r1 & R & B1 & X1).
  unfold bReadMessageBegin. rewrite R. cbn [obind]. rewrite word_value by assumption.
  inv_bytes. destruct (b0 <? 128) eqn:E.
  - assert (strict = true) as -> by (destruct S; [assumption|lia]).
    replace (0 + b0 * 16777216 + b1 * 65536 + b2 * 256 + b3 <? 0) with false by lia.
    eauto.
  - replace (- 2 ^ 32 + b0 * 16777216 + b1 * 65536 + b2 * 256 + b3 <? 0) with true by lia.
    rewrite land_version_mask.
    assert (V : (- 2 ^ 32 + b0 * 16777216 + b1 * 65536 + b2 * 256 + b3) / 65536 mod 65536
                = b0 * 256 + b1).
    { replace (- 2 ^ 32 + b0 * 16777216 + b1 * 65536 + b2 * 256 + b3)
        with (b2 * 256 + b3 + (b0 * 256 + b1 - 65536) * 65536) by lia.
      rewrite Z.div_add by lia. rewrite Z.div_small by lia.
      symmetry. apply Z.mod_unique with (-1); lia. }
    rewrite V. replace ((b0 * 256 + b1) * 65536 =? VERSION_1) with false.
    + cbn [negb]. eauto.
    + symmetry. apply Z.eqb_neq. unfold VERSION_1. intro H. apply N. f_equal; lia.
Qed.

Lemma message_strict_dec : forall strict name t seqid,
  0 <= t < 256 -> Z.of_nat (length name) < 2 ^ 31 -> in_s 32 seqid ->
  bdec (hlift (bReadMessageBegin strict)) (sb_message_strict name t seqid) (name, t, seqid).
Proof.
  intros strict name t seqid Ht Hn Hs r rest B _ X.
  unfold sb_message_strict in X. rewrite <- !app_assoc in X. cbn [app] in X.
  assert (Hb : is_bytes [128; 1; 0; t]) by (repeat constructor; unfold is_byte; lia).
  destruct (first_word _ _ _ _ Hb r _ B X) as (r1 & R & B1 & X1).
  destruct (bdec_inv _ _ _ _ (bdec_string name Hn) r1 _ B1 X1) as (r2 & R2 & B2 & X2).
  destruct (bdec_inv _ _ _ _ (bdec_i32 seqid Hs) r2 _ B2 X2) as (r3 & R3 & B3 & X3).
  exists r3. split; [|auto]. unfold hlift, bReadMessageBegin. rewrite R. cbn [obind].
  rewrite word_value by assumption. change (128 <? 128) with false. cbn iota.
  set (w := - 2 ^ 32 + 128 * 16777216 + 1 * 65536 + 0 * 256 + t).
  replace (w <? 0) with true by (unfold w; lia).
  rewrite land_version_mask, land_255.
  replace (w / 65536 mod 65536 * 65536) with VERSION_1 by (unfold w, VERSION_1; lia).
  replace (w mod 256) with t by (unfold w; lia).
  change (negb (VERSION_1 =? VERSION_1)) with false. cbn iota.
  rewrite R2. cbn [obind]. rewrite R3. reflexivity.
Qed.

Lemma message_old_dec : forall name t seqid,
  0 <= t < 256 -> Z.of_nat (length name) < 2 ^ 31 -> in_s 32 seqid ->
  bdec (hlift (bReadMessageBegin false)) (sb_message_old name t seqid) (name, t, seqid).
Proof.
  intros name t seqid Ht Hn Hs r rest B _ X.
  unfold sb_message_old, sb_string in X. rewrite <- !app_assoc in X.
  destruct (bdec_inv _ _ _ _ (bdec_i32 _ (len_in_s32 _ Hn)) r _ B X) as (r1 & R & B1 & X1).
  destruct (bdec_inv _ _ _ _ (bdec_body name) r1 _ B1 X1) as (r2 & R2 & B2 & X2).
  destruct (bdec_inv _ _ _ _ (bdec_byte t) r2 _ B2 X2) as (r3 & R3 & B3 & X3).
  destruct (bdec_inv _ _ _ _ (bdec_i32 seqid Hs) r3 _ B3 X3) as (r4 & R4 & B4 & X4).
  exists r4. split; [|auto]. unfold hlift, bReadMessageBegin. rewrite R. cbn [obind].
  replace (Z.of_nat (length name) <? 0) with false by lia.
  rewrite R2. cbn [obind]. rewrite R3. cbn [obind]. rewrite R4. reflexivity.
Qed.

(** Every accepted strict message starts with the version-1 marker, and its header was the
    strict encoding of what is returned. *)
