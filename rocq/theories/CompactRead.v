(** Reading the compact encoding: scalars, varints and headers. *)
From Coq Require Import ZArith List Bool Lia.
From Coq Require Import ZifyBool ZifyNat.
From Verif Require Import Base Errors Transport Proto Arith TransportProofs Values Codec
  Binary Compact CompactSpec CompactArith BinaryProofs.
Import ListNotations.
Open Scope Z_scope.
Ltac Zify.zify_post_hook ::= Z.div_mod_to_equations.

(** In state [c], [m] reads exactly [bs] as [a], leaving state [c']. *)
Definition crd {A} (c : cstate) (m : rop cr A) (bs : bytes) (a : A) (c' : cstate) : Prop :=
  forall r rest, benign r -> content r = bs ++ rest ->
  exists r', m (r, c) = Ok (a, None, (r', c')) /\ benign r' /\ content r' = rest.
(** On every proper prefix of [bs], [m] reports an error. *)
Definition crt {A} (c : cstate) (m : rop cr A) (bs : bytes) : Prop :=
  forall r q, benign r -> content r ++ q = bs -> q <> [] ->
  exists a e s', m (r, c) = Ok (a, Some e, s').

Lemma crd_dec : forall A c (m : rop cr A) bs a c', crd c m bs a c' ->
  dec (@fst rt cstate) snd c (hlift m) bs a c'.
Proof.
  intros A c m bs a c' H [r c0] rest B E X. cbn in *. subst c0.
  destruct (H r rest B X) as (r' & R & B' & X'). exists (r', c').
  unfold hlift. rewrite R. cbn. auto.
Qed.
Lemma crt_trunc : forall A c (m : rop cr A) bs, crt c m bs ->
  trunc (@fst rt cstate) snd c (hlift m) bs.
Proof.
  intros A c m bs H [r c0] q B E X N. cbn in *. subst c0.
  destruct (H r q B X N) as (a & e & s' & R). exists e, s'. unfold hlift. now rewrite R.
Qed.

Lemma crd_byte : forall c b, crd c cReadByte [b] b c.
Proof.
  intros c b r rest B X. destruct (read_all_exact r [b] rest B X) as (r' & R & B' & X').
  exists r'. unfold cReadByte. cbn [length] in R. rewrite R. auto.
Qed.
Lemma cbyte_eof : forall r c, benign r -> content r = [] ->
  exists r', cReadByte (r, c) = Ok (0, Some (ETransport UNKNOWN_TRANSPORT_EXCEPTION), (r', c)) \/
             exists e, cReadByte (r, c) = Ok (0, Some e, (r', c)).
Proof.
  intros r c B X. destruct (read_all_short r 1 B) as (r' & R & B' & X'); [rewrite X; cbn; lia|].
  exists r'. right. unfold cReadByte. rewrite R.
  destruct (pefo_some (ETransport UNKNOWN_TRANSPORT_EXCEPTION)) as [e' E]. rewrite E. eauto.
Qed.
Lemma cbyte_eof' : forall r c, benign r -> content r = [] ->
  exists e s', cReadByte (r, c) = Ok (0, Some e, s').
Proof. intros r c B X. destruct (cbyte_eof r c B X) as (r' & [H|[e H]]); rewrite H; eauto. Qed.
Lemma prefix_one : forall (p q : bytes) b, p ++ q = [b] -> q <> [] -> p = [].
Proof.
  intros [|x p] q b H N; [reflexivity|]. cbn in H. injection H; intros H1 _.
  apply app_eq_nil in H1. tauto.
Qed.
Lemma crt_byte : forall c b, crt c cReadByte [b].
Proof.
  intros c b r q B X N. apply prefix_one in X; [|assumption].
  destruct (cbyte_eof' r c B X) as (e & s' & R). rewrite R. eauto.
Qed.

Lemma cons_inj : forall A (a b : A) l m, a :: l = b :: m -> a = b /\ l = m.
Proof. intros A a b l m H. inversion H. auto. Qed.

(** ** Varints *)
Lemma varint_loop : forall n x, (0 < n)%nat -> 0 <= x < 128 ^ Z.of_nat n ->
  forall sh res fuel r c rest, 0 <= sh <= 63 -> 0 <= res < 2 ^ sh -> res + x * 2 ^ sh < 2 ^ 64 ->
  (length (content r) < fuel)%nat -> benign r -> content r = uvar n x ++ rest ->
  exists r', readVarint64_loop fuel sh res (r, c) = Ok (wraps 64 (res + x * 2 ^ sh), None, (r', c))
             /\ benign r' /\ content r' = rest.
Proof.
  induction n as [|n IH]; intros x L Hx sh res fuel r c rest Hs Hr Hb Hf B X; [lia|].
  destruct fuel as [|fuel]; [lia|]. cbn [readVarint64_loop uvar] in *.
  destruct (x <? 128) eqn:E.
  - destruct (crd_byte c x r rest B X) as (r' & R & B' & X'). rewrite R. cbn [obind].
    rewrite land_127, (Z.mod_small x 128) by lia.
    replace (sh <? 64) with true by lia. rewrite Z.shiftl_mul_pow2 by lia.
    rewrite accum by lia. rewrite land_128 by lia. replace (128 <=? x) with false by lia.
    cbn [negb]. eauto.
  - destruct (crd_byte c (128 + x mod 128) r (uvar n (x / 128) ++ rest) B X) as (r' & R & B' & X'). rewrite R. cbn [obind].
    rewrite land_127, Z.add_mod by lia. rewrite Z.mod_same, Z.add_0_l, Z.mod_mod, Z.mod_mod by lia.
    replace (sh <? 64) with true by lia. rewrite Z.shiftl_mul_pow2 by lia.
    rewrite land_128 by lia. replace (128 <=? 128 + x mod 128) with true by lia. cbn [negb].
    assert (P : 0 < 2 ^ sh) by (apply Z.pow_pos_nonneg; lia).
    assert (P7 : 2 ^ (sh + 7) = 128 * 2 ^ sh) by (rewrite Z.pow_add_r by lia; change (2 ^ 7) with 128; lia).
    assert (D : x = 128 * (x / 128) + x mod 128) by (apply Z.div_mod; lia).
    assert (M : 0 <= x mod 128 < 128) by (apply Z.mod_pos_bound; lia).
    set (q := x / 128) in *. set (m := x mod 128) in *. clearbody q m.
    assert (Q1 : 1 <= q) by lia.
    assert (M1 : m * 2 ^ sh <= 127 * 2 ^ sh) by (apply Z.mul_le_mono_nonneg_r; lia).
    assert (M2 : 0 <= m * 2 ^ sh) by (apply Z.mul_nonneg_nonneg; lia).
    assert (M3 : 1 * 2 ^ (sh + 7) <= q * 2 ^ (sh + 7)) by (apply Z.mul_le_mono_nonneg_r; lia).
    assert (XE : x * 2 ^ sh = m * 2 ^ sh + q * 2 ^ (sh + 7)) by (rewrite P7, D; ring).
    assert (Hb' : res + m * 2 ^ sh + q * 2 ^ (sh + 7) < 2 ^ 64) by lia.
    assert (Hs7 : sh + 7 <= 63).
    { destruct (Z_lt_le_dec 63 (sh + 7)) as [G|]; [|lia]. exfalso.
      assert (2 ^ 64 <= 2 ^ (sh + 7)) by (apply Z.pow_le_mono_r; lia). lia. }
    assert (R0 : 0 <= res + m * 2 ^ sh < 2 ^ (sh + 7)) by lia.
    rewrite accum by lia.
    assert (W : wraps 64 (res + m * 2 ^ sh) = res + m * 2 ^ sh).
    { apply wraps_id; [lia|]. unfold in_s. change (64 - 1) with 63.
      assert (2 ^ (sh + 7) <= 2 ^ 63) by (apply Z.pow_le_mono_r; lia). lia. }
    rewrite W.
    destruct (IH q) with (sh := sh + 7) (res := res + m * 2 ^ sh) (fuel := fuel) (r := r') (c := c)
      (rest := rest) as (r2 & R2 & B2 & X2); auto; try lia.
    { destruct n; [cbn in *; lia|lia]. }
    { split; [lia|]. rewrite Nat2Z.inj_succ, Z.pow_succ_r in Hx by lia. lia. }
    { rewrite X in Hf. rewrite X'. cbn [app length] in Hf. lia. }
    exists r2. rewrite R2. split; [|auto].
    replace (res + m * 2 ^ sh + q * 2 ^ (sh + 7)) with (res + x * 2 ^ sh); [reflexivity|].
    lia.
Qed.
Lemma content_size : forall r, rt_size r = length (content r).
Proof. reflexivity. Qed.

Lemma crd_varint64 : forall c u, in_u 64 u -> crd c readVarint64 (sc_var u) (wraps 64 u) c.
Proof.
  intros c u H r rest B X. unfold in_u in H.
  destruct (varint_loop 10 u) with (sh := 0) (res := 0) (fuel := S (rt_size r)) (r := r) (c := c)
    (rest := rest) as (r' & R & B' & X');
    auto; try (change (128 ^ Z.of_nat 10) with (2 ^ 70)); try rewrite content_size; try lia.
  exists r'. unfold readVarint64. cbn [fst]. rewrite R.
  replace (0 + u * 2 ^ 0) with u by (change (2 ^ 0) with 1; lia). auto.
Qed.
Lemma wraps32_64 : forall u, wraps 32 (wraps 64 u) = wraps 32 u.
Proof.
  intros u. rewrite <- (wraps_mod 32 (wraps 64 u)) by lia.
  assert (E : wraps 64 u mod 2 ^ 32 = u mod 2 ^ 32).
  { unfold wraps. change (2 ^ 64) with 18446744073709551616. change (2 ^ 32) with 4294967296.
    destruct (_ <? _); lia. }
  rewrite E. apply wraps_mod. lia.
Qed.
Lemma crd_varint32 : forall c u, in_u 64 u -> crd c readVarint32 (sc_var u) (wraps 32 u) c.
Proof.
  intros c u H r rest B X. destruct (crd_varint64 c u H r rest B X) as (r' & R & B' & X').
  exists r'. unfold readVarint32. rewrite R. cbn [obind]. rewrite wraps32_64. auto.
Qed.
Lemma in_u_32_64 : forall u, in_u 32 u -> in_u 64 u.
Proof. unfold in_u; intros; lia. Qed.

Lemma varint_loop_trunc : forall n x, 0 <= x ->
  forall sh res fuel r c q, (length (content r) < fuel)%nat -> benign r ->
  content r ++ q = uvar n x -> q <> [] ->
  exists e s', readVarint64_loop fuel sh res (r, c) = Ok (0, Some e, s').
Proof.
  induction n as [|n IH]; intros x Hx sh res fuel r c q Hf B X N; cbn [uvar] in X.
  - apply app_eq_nil in X. tauto.
  - destruct fuel as [|fuel]; [lia|]. cbn [readVarint64_loop].
    destruct (x <? 128) eqn:E.
    + apply prefix_one in X; [|assumption].
      destruct (cbyte_eof' r c B X) as (e & s' & R). rewrite R. cbn [obind]. eauto.
    + destruct (content r) as [|b rest] eqn:C.
      * destruct (cbyte_eof' r c B C) as (e & s' & R). rewrite R. cbn [obind]. eauto.
      * cbn [app] in X. apply cons_inj in X. destruct X as [Xb X1].
        destruct (crd_byte c b r rest B C) as (r' & R & B' & X'). rewrite R. cbn [obind].
        rewrite land_128 by lia. replace (128 <=? b) with true by lia. cbn [negb].
        apply (IH (x / 128)) with (q := q); [apply Z.div_pos; lia| |assumption|rewrite X'; assumption|assumption].
        rewrite X'. cbn [length] in Hf. lia.
Qed.
Lemma crt_varint64 : forall c u, 0 <= u -> crt c readVarint64 (sc_var u).
Proof.
  intros c u H r q B X N. unfold readVarint64. cbn [fst].
  destruct (varint_loop_trunc 10 u H 0 0 (S (rt_size r)) r c q) as (e & s' & R); auto.
  exists 0, e, s'. assumption.
Qed.
Lemma crt_varint32 : forall c u, 0 <= u -> crt c readVarint32 (sc_var u).
Proof.
  intros c u H r q B X N. destruct (crt_varint64 c u H r q B X N) as (a & e & s' & R).
  unfold readVarint32. rewrite R. cbn [obind]. eauto.
Qed.

(** ** Integers and doubles *)
Ltac trunc_of T := let a := fresh "a" in let e := fresh "e" in let s' := fresh "s'" in
  let R := fresh "R" in destruct T as (a & e & s' & R); rewrite R; cbn [obind].

Lemma crd_i32 : forall c v, in_s 32 v -> crd c cReadI32 (sc_int v) v c.
Proof.
  intros c v H r rest B X. pose proof (zz_range 32 v ltac:(lia) H) as Z.
  destruct (crd_varint32 c _ (in_u_32_64 _ Z) r rest B X) as (r' & R & B' & X').
  exists r'. unfold cReadI32. rewrite R. cbn [obind]. rewrite unzz32 by assumption. auto.
Qed.
Lemma zz_nonneg : forall v, 0 <= zz v.
Proof. intros. unfold zz. destruct (v <? 0) eqn:E; lia. Qed.
Lemma crt_i32 : forall c v, crt c cReadI32 (sc_int v).
Proof.
  intros c v r q B X N. unfold cReadI32. trunc_of (crt_varint32 c _ (zz_nonneg v) r q B X N).
  destruct (pefo_some e) as [e' ->]. eauto.
Qed.
Lemma crd_i16 : forall c v, in_s 16 v -> crd c cReadI16 (sc_int v) v c.
Proof.
  intros c v H r rest B X. assert (H' : in_s 32 v) by (unfold in_s in *; lia).
  destruct (crd_i32 c v H' r rest B X) as (r' & R & B' & X').
  exists r'. unfold cReadI16. rewrite R. cbn [obind]. rewrite wraps_id by (assumption || lia). auto.
Qed.
Lemma crt_i16 : forall c v, crt c cReadI16 (sc_int v).
Proof.
  intros c v r q B X N. unfold cReadI16. trunc_of (crt_i32 c v r q B X N). eauto.
Qed.
Lemma crd_i64 : forall c v, in_s 64 v -> crd c cReadI64 (sc_int v) v c.
Proof.
  intros c v H r rest B X. pose proof (zz_range 64 v ltac:(lia) H) as Z.
  destruct (crd_varint64 c _ Z r rest B X) as (r' & R & B' & X').
  exists r'. unfold cReadI64. rewrite R. cbn [obind]. rewrite unzz64 by assumption. auto.
Qed.
Lemma crt_i64 : forall c v, crt c cReadI64 (sc_int v).
Proof.
  intros c v r q B X N. unfold cReadI64. trunc_of (crt_varint64 c _ (zz_nonneg v) r q B X N).
  destruct (pefo_some e) as [e' ->]. eauto.
Qed.

Lemma le_uint64_rev : forall b, length b = 8%nat -> le_uint64 b = be_uint64 (rev b).
Proof.
  intros b L. do 8 (destruct b as [|? b]; [discriminate|]). destruct b; [reflexivity|discriminate].
Qed.
Lemma le_rev : forall v, rev (le 8 v) = be 8 v.
Proof.
  intros v. unfold le, be. cbn [rev app]. rewrite !Z.div_div by lia.
  change (Z.of_nat 0) with 0. rewrite Z.pow_0_r, Z.div_1_r. reflexivity.
Qed.
Lemma le_uint64_le : forall v, in_u 64 v -> le_uint64 (le 8 v) = v.
Proof.
  intros v H. rewrite le_uint64_rev by apply le_length. rewrite le_rev, be_uint64_be, unbe_be.
  apply Z.mod_small. exact H.
Qed.
Lemma crd_double : forall c v, in_u 64 v -> crd c cReadDouble (sc_double v) v c.
Proof.
  intros c v H r rest B X. destruct (read_all_exact r (le 8 v) rest B X) as (r' & R & B' & X').
  rewrite le_length in R. exists r'. unfold cReadDouble. rewrite R.
  rewrite le_uint64_le by assumption. auto.
Qed.
Lemma crt_double : forall c v, crt c cReadDouble (sc_double v).
Proof.
  intros c v r q B X N. destruct (read_all_short r 8 B) as (r' & R & B' & X').
  { apply (f_equal (@length Z)) in X. unfold sc_double in X. rewrite app_length, le_length in X.
    destruct q; [congruence|cbn in X; lia]. }
  unfold cReadDouble. rewrite R.
  destruct (pefo_some (ETransport UNKNOWN_TRANSPORT_EXCEPTION)) as [e' ->]. eauto.
Qed.

(** ** Strings *)
Lemma len_u64 : forall s : bytes, Z.of_nat (length s) < 2 ^ 31 -> in_u 64 (Z.of_nat (length s)).
Proof. unfold in_u; intros; lia. Qed.
Lemma wraps32_len : forall n, 0 <= n < 2 ^ 31 -> wraps 32 n = n.
Proof. intros. apply wraps_id; [lia|]. unfold in_s. change (32 - 1) with 31. lia. Qed.
Lemma crd_binary : forall c s, Z.of_nat (length s) < 2 ^ 31 -> crd c cReadBinary (sc_string s) s c.
Proof.
  intros c s H r rest B X. unfold sc_string in X. rewrite <- app_assoc in X.
  destruct (crd_varint32 c _ (len_u64 s H) r _ B X) as (r' & R & B' & X').
  unfold cReadBinary. rewrite R. cbn [obind]. rewrite wraps32_len by lia.
  destruct s as [|z s'].
  - cbn [length Z.of_nat] in *. change (0 =? 0) with true. cbn iota. eauto.
  - set (s := z :: s') in *. assert (L : 1 <= Z.of_nat (length s)) by (subst s; cbn [length]; lia).
    replace (Z.of_nat (length s) =? 0) with false by lia.
    replace (Z.of_nat (length s) <? 0) with false by lia. rewrite Nat2Z.id.
    destruct (read_all_exact r' s rest B' X') as (r2 & R2 & B2 & X2). rewrite R2. eauto.
Qed.
Lemma crd_string : forall c s, Z.of_nat (length s) < 2 ^ 31 -> crd c cReadString (sc_string s) s c.
Proof.
  intros c s H r rest B X. destruct (crd_binary c s H r rest B X) as (r' & R & B' & X').
  exists r'. unfold cReadString. rewrite R. auto.
Qed.
(** Only a cut inside the length prefix is reported. *)
Lemma crt_binary_len : forall c n, 0 <= n -> crt c cReadBinary (sc_var n).
Proof.
  intros c n H r q B X N. unfold cReadBinary. trunc_of (crt_varint32 c n H r q B X N).
  destruct s'. destruct (pefo_some e) as [e' ->]. eauto.
Qed.
Lemma crt_string_len : forall c n, 0 <= n -> crt c cReadString (sc_var n).
Proof.
  intros c n H r q B X N. unfold cReadString. trunc_of (crt_binary_len c n H r q B X N).
  destruct (pefo_some e) as [e' ->]. eauto.
Qed.

(** ** Booleans outside fields *)
Lemma crd_bool : forall c b, boolValueIsNotNull c = false -> crd c cReadBool [sc_bool b] b c.
Proof.
  intros c b H r rest B X. destruct (crd_byte c (sc_bool b) r rest B X) as (r' & R & B' & X').
  exists r'. unfold cReadBool. rewrite H, R. cbn [obind]. destruct b; auto.
Qed.
Lemma crt_bool : forall c b, boolValueIsNotNull c = false -> crt c cReadBool [sc_bool b].
Proof.
  intros c b H r q B X N. unfold cReadBool. rewrite H. trunc_of (crt_byte c (sc_bool b) r q B X N).
  eauto.
Qed.

(** ** Message header *)
Lemma seqid_back : forall v, in_s 32 v -> wraps 32 (v mod 2 ^ 32) = v.
Proof. intros. rewrite wraps_mod by lia. apply wraps_id; [lia|assumption]. Qed.
Lemma seqid_u : forall v, in_u 64 (v mod 2 ^ 32).
Proof. intros. unfold in_u. pose proof (Z.mod_pos_bound v (2 ^ 32)). lia. Qed.
Lemma msg_version : forall t, 0 <= t < 8 -> Z.land (t * 32 + 1) COMPACT_VERSION_MASK = COMPACT_VERSION.
Proof.
  intros t H. assert (K : t = 0 \/ t = 1 \/ t = 2 \/ t = 3 \/ t = 4 \/ t = 5 \/ t = 6 \/ t = 7) by lia.
  repeat (destruct K as [->|K]; [reflexivity|]); subst; reflexivity.
Qed.
Lemma msg_type : forall t, 0 <= t < 8 ->
  Z.land (Z.shiftr (t * 32 + 1) COMPACT_TYPE_SHIFT_AMOUNT) 3 = t mod 4.
Proof.
  intros t H. assert (K : t = 0 \/ t = 1 \/ t = 2 \/ t = 3 \/ t = 4 \/ t = 5 \/ t = 6 \/ t = 7) by lia.
  repeat (destruct K as [->|K]; [reflexivity|]); subst; reflexivity.
Qed.
(** The type comes back modulo 4. *)
Lemma crd_message : forall c name t seqid, 0 <= t < 8 -> in_s 32 seqid ->
  Z.of_nat (length name) < 2 ^ 31 ->
  crd c cReadMessageBegin (sc_message name t seqid) (name, t mod 4, seqid) c.
Proof.
  intros c name t seqid T S N r rest B X. unfold sc_message in X.
  change ([130; t * 32 + 1] ++ ?x) with ([130] ++ [t * 32 + 1] ++ x) in X.
  rewrite <- !app_assoc in X. unfold cReadMessageBegin.
  destruct (crd_byte c 130 r _ B X) as (r1 & R1 & B1 & X1). rewrite R1. cbn [obind].
  change (130 =? COMPACT_PROTOCOL_ID) with true. cbn [negb].
  destruct (crd_byte c _ r1 _ B1 X1) as (r2 & R2 & B2 & X2). rewrite R2. cbn [obind].
  rewrite msg_version, msg_type by assumption. rewrite Z.eqb_refl. cbn [negb].
  destruct (crd_varint32 c _ (seqid_u seqid) r2 _ B2 X2) as (r3 & R3 & B3 & X3).
  rewrite R3. cbn [obind]. rewrite seqid_back by assumption.
  destruct (crd_string c name N r3 _ B3 X3) as (r4 & R4 & B4 & X4). rewrite R4. cbn [obind].
  eauto.
Qed.

(** ** Field headers *)
Lemma ttype_ok : forall t, wire_type t -> getTType (sc_type t) = (t, None).
Proof.
  intros t H. unfold wire_type in H. cbn in H.
  repeat (destruct H as [<-|H]; [reflexivity|]). destruct H.
Qed.
Lemma sc_type_rng : forall t, wire_type t -> 1 <= sc_type t <= 12 /\ sc_type t <> 2 /\
  (sc_type t = 1 <-> t = BOOL).
Proof.
  intros t H. unfold wire_type in H. cbn in H.
  repeat (destruct H as [<-|H]; [repeat split; intros; (discriminate || reflexivity)|]). destruct H.
Qed.
Lemma land_240 : forall x, Z.shiftr (Z.land x 240) 4 = (x / 16) mod 16.
Proof.
  intros. rewrite Z.shiftr_land. change (Z.shiftr 240 4) with 15.
  rewrite land_15, Z.shiftr_div_pow2 by lia. reflexivity.
Qed.
Lemma wraps_add : forall n a b, 0 <= n -> wraps n (wraps n a + b) = wraps n (a + b).
Proof.
  intros n a b H. rewrite <- (wraps_mod n (wraps n a + b)), <- (wraps_mod n (a + b)) by lia.
  f_equal. pose proof (Z.pow_pos_nonneg 2 n). rewrite Z.add_mod, wraps_cong, <- Z.add_mod by lia.
  reflexivity.
Qed.
Lemma crd_field : forall c t id last, in_s 16 id -> wire_type t ->
  lastFieldId c = last \/ short last id = false ->
  crd c cReadFieldBegin (sc_field last (sc_type t) id) ([], t, id)
    (if t =? BOOL then MkC (lastField c) id (booleanField c) true true
     else set_last c (lastField c) id).
Proof.
  intros c t id last I T E r rest B X. unfold cReadFieldBegin.
  pose proof (sc_type_rng t T) as (Rg & N2 & N1).
  assert (Hb : forall hi, 0 <= hi <= 15 -> Z.land (hi * 16 + sc_type t) 15 = sc_type t) by
    (intros hi Hhi; rewrite land_15; lia).
  assert (Hm : forall hi, 0 <= hi <= 15 ->
     wraps 16 (Z.shiftr (Z.land (hi * 16 + sc_type t) 240) 4) = hi).
  { intros hi Hhi. rewrite land_240. replace ((hi * 16 + sc_type t) / 16 mod 16) with hi by lia.
    apply wraps_id; [lia|]. unfold in_s. lia. }
  assert (Hbool : forall hi, 0 <= hi <= 15 -> isBoolType (hi * 16 + sc_type t) = (t =? BOOL)).
  { intros hi Hhi. unfold isBoolType. rewrite Hb by lia.
    unfold COMPACT_BOOLEAN_TRUE, COMPACT_BOOLEAN_FALSE. lia. }
  assert (Hst : (sc_type t =? STOP) = false) by (unfold STOP; lia).
  assert (Htr : t = BOOL -> (sc_type t =? COMPACT_BOOLEAN_TRUE) = true) by
    (unfold COMPACT_BOOLEAN_TRUE; intros; lia).
  assert (Fin : forall r' hi, 0 <= hi <= 15 -> benign r' -> content r' = rest -> exists r'' : rt,
    (let '(typeId, e2) := getTType (sc_type t) in
          match e2 with
          | Some _ => Ok (([] : bytes, typeId, id), protocol_exc_from_os e2, (r', c))
          | None =>
            let c1 := if isBoolType (hi * 16 + sc_type t)
                      then set_boolValue c (sc_type t =? COMPACT_BOOLEAN_TRUE) true
                      else c in
            Ok (([], typeId, id), None, (r', set_last c1 (lastField c1) id))
          end) = Ok (([], t, id), None,
       (r'', if t =? BOOL then MkC (lastField c) id (booleanField c) true true
     else set_last c (lastField c) id)) /\ benign r'' /\ content r'' = rest).
  { intros r' hi Hhi B' X'. rewrite Hbool, ttype_ok by assumption. exists r'.
    destruct (t =? BOOL) eqn:EB; [rewrite Htr by lia|]; auto. }
  unfold sc_field in X. destruct (short last id) eqn:Sh.
  - destruct E as [E|E]; [|discriminate]. unfold short in Sh.
    destruct (crd_byte c _ r _ B X) as (r1 & R1 & B1 & X1). rewrite R1. cbn [obind].
    rewrite Hb, Hst, Hm by lia. replace (id - last =? 0) with false by lia. cbn [obind snd].
    rewrite wraps_add by lia. rewrite E. replace (last + (id - last)) with id by lia.
    rewrite wraps_id by (assumption || lia).
    apply Fin; auto; lia.
  - change (sc_type t :: sc_int id) with ([0 * 16 + sc_type t] ++ sc_int id) in X.
    rewrite <- app_assoc in X.
    destruct (crd_byte c _ r _ B X) as (r1 & R1 & B1 & X1). rewrite R1. cbn [obind].
    rewrite Hb, Hst, Hm by lia. change (0 =? 0) with true. cbn iota.
    destruct (crd_i16 c id I r1 _ B1 X1) as (r2 & R2 & B2 & X2). rewrite R2. cbn [obind].
    apply Fin; auto; lia.
Qed.
Lemma crd_stop : forall c, crd c cReadFieldBegin sc_stop ([], STOP, 0) c.
Proof.
  intros c r rest B X. unfold cReadFieldBegin.
  destruct (crd_byte c 0 r _ B X) as (r1 & R1 & B1 & X1). rewrite R1. cbn [obind].
  change (Z.land 0 15 =? STOP) with true. cbn iota. eauto.
Qed.
Lemma crt_stop : forall c, crt c cReadFieldBegin sc_stop.
Proof. intros c r q B X N. unfold cReadFieldBegin. trunc_of (crt_byte c 0 r q B X N). eauto. Qed.
(** Truncation of a header is an error for every type nibble, whatever the state. *)
Lemma crt_field : forall c nib id last, 1 <= nib <= 15 ->
  crt c cReadFieldBegin (sc_field last nib id).
Proof.
  intros c nib id last Hn r q B X N. unfold cReadFieldBegin. unfold sc_field in X.
  destruct (short last id).
  - trunc_of (crt_byte c _ r q B X N). eauto.
  - destruct (content r) as [|b rest] eqn:C.
    + destruct (cbyte_eof' r c B C) as (e & s' & R). rewrite R. cbn [obind]. eauto.
    + cbn [app] in X. injection X; intros X1 ->.
      destruct (crd_byte c nib r rest B C) as (r1 & R1 & B1 & C1). rewrite R1. cbn [obind].
      rewrite land_15, land_240. replace (nib mod 16 =? STOP) with false by (unfold STOP; lia).
      replace (nib / 16 mod 16) with 0 by lia. change (wraps 16 0 =? 0) with true. cbn iota.
      rewrite <- C1 in X1. trunc_of (crt_i16 c id r1 q B1 X1 N). eauto.
Qed.

(** ** Container headers *)
Lemma ttype_high : forall n t, 0 <= n <= 15 -> wire_type t ->
  getTType (n * 16 + sc_type t) = (t, None).
Proof.
  intros n t N T. rewrite <- (ttype_ok t T). unfold getTType.
  pose proof (sc_type_rng t T) as (Rg & _).
  replace (Z.land (n * 16 + sc_type t) 15) with (Z.land (sc_type t) 15); [reflexivity|].
  rewrite !land_15. lia.
Qed.
Lemma crd_list : forall c t n, wire_type t -> 0 <= n < 2 ^ 31 ->
  crd c cReadListBegin (sc_list t n) (t, n) c.
Proof.
  intros c t n T N r rest B X. unfold cReadListBegin, sc_list in *.
  pose proof (sc_type_rng t T) as (Rg & _).
  assert (Hh : forall hi, 0 <= hi <= 15 -> Z.land (Z.shiftr (hi * 16 + sc_type t) 4) 15 = hi).
  { intros hi Hhi. rewrite land_15, Z.shiftr_div_pow2 by lia. change (2 ^ 4) with 16. lia. }
  destruct (n <=? 14) eqn:E.
  - destruct (crd_byte c _ r _ B X) as (r1 & R1 & B1 & X1). rewrite R1. cbn [obind].
    rewrite Hh, ttype_high by (assumption || lia). replace (n =? 15) with false by lia.
    cbn [obind]. eauto.
  - change ((240 + sc_type t) :: sc_var n) with ([15 * 16 + sc_type t] ++ sc_var n) in X.
    rewrite <- app_assoc in X.
    destruct (crd_byte c _ r _ B X) as (r1 & R1 & B1 & X1). rewrite R1. cbn [obind].
    rewrite Hh, ttype_high by (assumption || lia). change (15 =? 15) with true. cbn iota.
    destruct (crd_varint32 c n) with (r := r1) (rest := rest) as (r2 & R2 & B2 & X2); auto.
    { unfold in_u. lia. }
    rewrite R2. cbn [obind]. rewrite wraps32_len by lia. eauto.
Qed.
Lemma crt_list : forall c t n, wire_type t -> 0 <= n -> crt c cReadListBegin (sc_list t n).
Proof.
  intros c t n T Hn r q B X N. unfold cReadListBegin, sc_list in *.
  pose proof (sc_type_rng t T) as (Rg & _).
  destruct (n <=? 14) eqn:E.
  - trunc_of (crt_byte c _ r q B X N). eauto.
  - destruct (content r) as [|b rest] eqn:C.
    + destruct (cbyte_eof' r c B C) as (e & s' & R). rewrite R. cbn [obind]. eauto.
    + cbn [app] in X. apply cons_inj in X. destruct X as [-> X1].
      destruct (crd_byte c _ r rest B C) as (r1 & R1 & B1 & C1). rewrite R1. cbn [obind].
      rewrite land_15, Z.shiftr_div_pow2 by lia. change (2 ^ 4) with 16.
      replace ((240 + sc_type t) / 16 mod 16) with 15 by lia. change (15 =? 15) with true. cbn iota.
      rewrite <- C1 in X1. trunc_of (crt_varint32 c n Hn r1 q B1 X1 N).
      destruct (pefo_some e) as [e' ->]. eauto.
Qed.
Lemma sc_var_0 : sc_var 0 = [0]. Proof. reflexivity. Qed.
(** An empty map comes back without its types. *)
Lemma crd_map : forall c k v n, wire_type k -> wire_type v -> 0 <= n < 2 ^ 31 ->
  crd c cReadMapBegin (sc_map k v n) (if n =? 0 then (STOP, STOP, 0) else (k, v, n)) c.
Proof.
  intros c k v n K V N r rest B X. unfold cReadMapBegin, sc_map in *.
  pose proof (sc_type_rng k K) as (Rk & _). pose proof (sc_type_rng v V) as (Rv & _).
  destruct (n =? 0) eqn:E.
  - rewrite <- sc_var_0 in X.
    destruct (crd_varint32 c 0) with (r := r) (rest := rest) as (r2 & R2 & B2 & X2); auto.
    { unfold in_u. lia. }
    rewrite R2. cbn [obind]. change (negb (wraps 32 0 =? 0)) with false. cbn iota. cbn [obind].
    exists r2. auto.
  - rewrite <- app_assoc in X.
    destruct (crd_varint32 c n) with (r := r) (rest := [sc_type k * 16 + sc_type v] ++ rest)
      as (r2 & R2 & B2 & X2); auto.
    { unfold in_u. lia. }
    rewrite R2. cbn [obind]. rewrite wraps32_len, E by lia. cbn [negb].
    destruct (crd_byte c _ r2 _ B2 X2) as (r1 & R1 & B1 & X1). rewrite R1. cbn [obind].
    rewrite land_15, Z.shiftr_div_pow2 by lia. change (2 ^ 4) with 16.
    replace ((sc_type k * 16 + sc_type v) / 16) with (sc_type k) by lia.
    replace ((sc_type k * 16 + sc_type v) mod 16) with (sc_type v) by lia.
    rewrite !ttype_ok by assumption. cbn [fst]. eauto.
Qed.
Lemma crt_map : forall c k v n, 0 <= n < 2 ^ 31 -> crt c cReadMapBegin (sc_map k v n).
Proof.
  intros c k v n H r q B X N. unfold cReadMapBegin, sc_map in *. destruct (n =? 0) eqn:E.
  - rewrite <- sc_var_0 in X. trunc_of (crt_varint32 c 0 ltac:(lia) r q B X N).
    destruct (pefo_some e) as [e' ->]. eauto.
  - destruct (prefix_app_split _ _ _ _ X N) as [(q' & P & N')|(x & P & P2)].
    + trunc_of (crt_varint32 c n ltac:(lia) r q' B P N').
      destruct (pefo_some e) as [e' ->]. eauto.
    + destruct (crd_varint32 c n) with (r := r) (rest := x) as (r2 & R2 & B2 & X2); auto.
      { unfold in_u. lia. }
      rewrite R2. cbn [obind]. rewrite wraps32_len, E by lia. cbn [negb].
      rewrite <- X2 in P2. trunc_of (crt_byte c _ r2 q B2 P2 N). eauto.
Qed.

(** ** The fuel of readVarint64 is enough on every transport *)
Lemma cReadByte_any : forall r c, exists b e r',
  cReadByte (r, c) = Ok (b, e, (r', c)) /\
  (length (content r') <= length (content r))%nat /\
  (b <> 0 -> (length (content r') < length (content r))%nat).
Proof.
  intros r c. unfold cReadByte. destruct (read_all 1 r) as [[[n buf] e] r'] eqn:E.
  apply read_all_any in E. destruct E as (d & E1 & E2 & E3 & _). rewrite E1, app_length.
  destruct e as [e|].
  - destruct (pefo_some e) as [e' ->]. exists 0, (Some e'), r'. split; [reflexivity|]. lia.
  - exists (at_ 0 buf), None, r'. split; [reflexivity|]. split; [lia|]. intros Nz.
    destruct d; [|cbn; lia]. subst buf. cbn in Nz. congruence.
Qed.
Theorem readVarint64_fuel : forall fuel sh res r c, (length (content r) < fuel)%nat ->
  exists v e r', readVarint64_loop fuel sh res (r, c) = Ok (v, e, (r', c)) /\
                 (length (content r') <= length (content r))%nat.
Proof.
  induction fuel as [|fuel IH]; intros sh res r c L; [lia|]. cbn [readVarint64_loop].
  destruct (cReadByte_any r c) as (b & e & r' & R & Le & Lt). rewrite R. cbn [obind].
  destruct e as [e|]; [eauto 8|]. destruct (negb (Z.land b 128 =? 128)) eqn:E; [eauto 8|].
  assert (b <> 0) by (intros ->; discriminate E).
  match goal with |- context [readVarint64_loop fuel ?s ?x (r', c)] =>
    destruct (IH s x r' c) as (v & e2 & r2 & R2 & L2); [lia|] end.
  exists v, e2, r2. split; [assumption|lia].
Qed.
Lemma readVarint64_any : forall r c, exists v e r',
  readVarint64 (r, c) = Ok (v, e, (r', c)) /\ (length (content r') <= length (content r))%nat.
Proof.
  intros r c. unfold readVarint64. apply readVarint64_fuel. cbn [fst]. rewrite content_size. lia.
Qed.
Lemma readVarint32_any : forall r c, exists v e r',
  readVarint32 (r, c) = Ok (v, e, (r', c)) /\ (length (content r') <= length (content r))%nat.
Proof.
  intros r c. unfold readVarint32. destruct (readVarint64_any r c) as (v & e & r' & -> & L).
  cbn [obind]. eauto 8.
Qed.
