(** TBinaryProtocol against the binary encoding. *)
From Coq Require Import ZArith List Bool Lia.
From Coq Require Import ZifyBool ZifyNat.
From Verif Require Import Base Errors Transport Proto Arith TransportProofs Values Codec
  Binary BinarySpec Skip.
Import ListNotations.
Open Scope Z_scope.
Ltac Zify.zify_post_hook ::= Z.div_mod_to_equations.

Lemma pefo_idem : forall e, protocol_exc_from_os (protocol_exc_from_os e) = protocol_exc_from_os e.
Proof. intros [[]|]; reflexivity. Qed.
Lemma pefo_some : forall e, exists e', protocol_exc_from_os (Some e) = Some e'.
Proof. intros []; cbn; eauto. Qed.

(** ** Writers emit the published bytes *)

Definition benc (op : wop wt) (bs : bytes) : Prop := enc (fun w => w) (fun _ => tt) tt op bs tt.

Lemma benc_cons : forall m k x b, benc m [x] -> benc k b -> benc (m >>> k) (x :: b).
Proof. intros m k x b H1 H2. exact (enc_seq _ _ _ _ _ _ _ [x] b H1 H2). Qed.

Lemma benc_write : forall bs, benc (b_write bs) bs.
Proof.
  intros bs [o sch] H _. cbn in H; subst. exists (MkWt (o ++ bs) []). auto.
Qed.

Lemma byte_of_spec : forall v k, 0 <= k -> byte_of v k = (v / 2 ^ k) mod 256.
Proof.
  intros. unfold byte_of, wrapu. rewrite land255, Z.shiftr_div_pow2 by lia.
  change (2 ^ 8) with 256. apply Z.mod_mod. lia.
Qed.

Lemma benc_byte : forall z, benc (bWriteByte z) [z].
Proof. intros; apply benc_write. Qed.

Lemma benc_bool : forall b, benc (bWriteBool b) (sb_bool b).
Proof. intros []; apply benc_write. Qed.

Lemma benc_i16 : forall v, benc (bWriteI16 v) (sb_i16 v).
Proof. intros v. unfold bWriteI16. rewrite !byte_of_spec by lia. apply benc_write. Qed.
Lemma benc_i32 : forall v, benc (bWriteI32 v) (sb_i32 v).
Proof. intros v. unfold bWriteI32. rewrite !byte_of_spec by lia. apply benc_write. Qed.
Lemma benc_i64 : forall v, benc (bWriteI64 v) (sb_i64 v).
Proof. intros v. unfold bWriteI64. rewrite !byte_of_spec by lia. apply benc_write. Qed.

Lemma benc_double : forall v, benc (bWriteDouble v) (sb_double v).
Proof.
  intros v. unfold bWriteDouble, sb_double.
  rewrite <- (be_wraps 8). apply benc_i64.
Qed.

Lemma benc_i32_wraps : forall v, benc (bWriteI32 (wraps 32 v)) (be 4 v).
Proof. intros v. rewrite <- (be_wraps 4). apply benc_i32. Qed.

Lemma benc_copy : forall bs,
  benc (fun w => let '(e, w') := copy_n bs w in Ok (protocol_exc_from_os e, w')) bs.
Proof.
  intros bs [o sch] H _. cbn in H; subst. rewrite copy_n_ok. cbn. eauto.
Qed.

Lemma benc_string : forall s, benc (bWriteString s) (sb_string s).
Proof. intros s. eapply enc_seq; [apply benc_i32_wraps|apply benc_copy]. Qed.
Lemma benc_binary : forall s, benc (bWriteBinary s) (sb_string s).
Proof. intros s. eapply enc_seq; [apply benc_i32_wraps|apply benc_write]. Qed.

Lemma thrift_type_wire : forall t, t <> BINARY -> ThriftTypeId t = t.
Proof. intros t H. unfold ThriftTypeId. destruct (t =? BINARY) eqn:E; [lia|reflexivity]. Qed.

Lemma benc_field : forall name t id,
  benc (bWriteFieldBegin name t id) (sb_field (ThriftTypeId t) id).
Proof. intros. apply benc_cons; [apply benc_byte|apply benc_i16]. Qed.
Lemma benc_stop : benc bWriteFieldStop sb_stop.
Proof. apply benc_byte. Qed.
Lemma benc_list : forall t n, benc (bWriteListBegin t n) (sb_list (ThriftTypeId t) n).
Proof. intros. apply benc_cons; [apply benc_byte|apply benc_i32_wraps]. Qed.
Lemma benc_set : forall t n, benc (bWriteSetBegin t n) (sb_list (ThriftTypeId t) n).
Proof. intros. apply benc_cons; [apply benc_byte|apply benc_i32_wraps]. Qed.
Lemma benc_map : forall k v n,
  benc (bWriteMapBegin k v n) (sb_map (ThriftTypeId k) (ThriftTypeId v) n).
Proof.
  intros. apply benc_cons; [apply benc_byte|].
  apply benc_cons; [apply benc_byte|apply benc_i32_wraps].
Qed.

Lemma version_word : forall t, 0 <= t < 256 ->
  be 4 (wraps 32 (Z.lor VERSION_1 (wrapu 32 t))) = [128; 1; 0; t].
Proof.
  intros t H. change (wraps 32) with (wraps (8 * Z.of_nat 4)). rewrite be_wraps.
  rewrite wrapu_id by (unfold in_u; lia).
  change VERSION_1 with (8388864 * 2 ^ 8). rewrite lor_add' by lia.
  cbn [be]. change (2 ^ 8) with 256.
  change (256 ^ Z.of_nat 3) with 16777216. change (256 ^ Z.of_nat 2) with 65536.
  change (256 ^ Z.of_nat 1) with 256. change (256 ^ Z.of_nat 0) with 1.
  repeat f_equal; lia.
Qed.

Lemma benc_message_strict : forall name t seqid, 0 <= t < 256 ->
  benc (bWriteMessageBegin true name t seqid) (sb_message_strict name t seqid).
Proof.
  intros. unfold bWriteMessageBegin, sb_message_strict.
  eapply enc_seq; [|eapply enc_seq; [apply benc_string|apply benc_i32]].
  rewrite <- version_word by assumption. apply benc_i32.
Qed.
Lemma benc_message_old : forall name t seqid, 0 <= t < 256 ->
  benc (bWriteMessageBegin false name t seqid) (sb_message_old name t seqid).
Proof.
  intros. unfold bWriteMessageBegin, sb_message_old.
  eapply enc_seq; [apply benc_string|].
  eapply enc_seq; [|apply benc_i32].
  rewrite wrapu_id by (unfold in_u; lia). apply benc_byte.
Qed.

Lemma all_in : forall A (P : A -> Prop) l, all P l <-> (forall x, In x l -> P x).
Proof.
  induction l as [|x l IH]; cbn.
  - tauto.
  - rewrite IH. intuition; subst; auto.
Qed.

Lemma vtype_wire : forall v, wire_type (vtype v).
Proof. intros []; unfold wire_type; cbn; tauto. Qed.
Lemma wire_not_binary : forall t, wire_type t -> t <> BINARY.
Proof. unfold wire_type; cbn; intros t H E; subst; intuition discriminate. Qed.
Lemma thrift_type_id : forall t, wire_type t -> ThriftTypeId t = t.
Proof. intros; apply thrift_type_wire, wire_not_binary; assumption. Qed.

(** Writing a value emits its encoding, whatever its nesting. *)
Theorem benc_val : forall strict v, wf v -> benc (write_val (binaryW strict) v) (sb_val v).
Proof.
  intros strict. induction v using tval_ind'; intros Hwf; cbn [write_val sb_val].
  - apply benc_bool.
  - apply benc_byte.
  - apply benc_i16.
  - apply benc_i32.
  - apply benc_i64.
  - apply benc_double.
  - apply benc_string.
  - cbn [wf] in Hwf. destruct Hwf as (T & _ & A). rewrite all_in in A. rewrite Forall_forall in H.
    eapply enc_seq; [rewrite <- (thrift_type_id et T) at 2; apply benc_list|].
    eapply enc_eq; [eapply enc_seq; [apply enc_seqs|apply enc_nop]|apply app_nil_r].
    intros x Hx. apply H; [assumption|apply A; assumption].
  - cbn [wf] in Hwf. destruct Hwf as (T & _ & A). rewrite all_in in A. rewrite Forall_forall in H.
    eapply enc_seq; [rewrite <- (thrift_type_id et T) at 2; apply benc_set|].
    eapply enc_eq; [eapply enc_seq; [apply enc_seqs|apply enc_nop]|apply app_nil_r].
    intros x Hx. apply H; [assumption|apply A; assumption].
  - cbn [wf] in Hwf. destruct Hwf as (T1 & T2 & _ & A). rewrite all_in in A.
    rewrite Forall_forall in H.
    eapply enc_seq; [rewrite <- (thrift_type_id kt T1) at 2;
                     rewrite <- (thrift_type_id vt T2) at 2; apply benc_map|].
    eapply enc_eq; [eapply enc_seq; [apply enc_seqs with
        (e := fun kv => sb_val (fst kv) ++ sb_val (snd kv))|apply enc_nop]|apply app_nil_r].
    intros x Hx. destruct (H x Hx) as [Hk Hv]. destruct (A x Hx) as [[_ Ak] [_ Av]].
    eapply enc_seq; [apply Hk|apply Hv]; assumption.
  - cbn [wf] in Hwf. rewrite all_in in Hwf. rewrite Forall_forall in H.
    eapply (enc_seq _ _ _ tt _ _ _ [] _); [apply enc_nop|].
    eapply enc_seq.
    + apply enc_seqs with
        (e := fun f => sb_field (vtype (snd f)) (fst f) ++ sb_val (snd f)).
      intros [id v] Hx. cbn [fst snd]. eapply enc_seq.
      * rewrite <- (thrift_type_id (vtype v)) at 2 by apply vtype_wire. apply benc_field.
      * eapply enc_eq; [eapply enc_seq; [apply (H _ Hx), (Hwf _ Hx)|apply enc_nop]|apply app_nil_r].
    + eapply enc_eq; [eapply enc_seq; [apply benc_stop|apply enc_nop]|apply app_nil_r].
Qed.

(** ** Readers decode the published bytes *)

Definition bdec {A} (op : hop rt A) (bs : bytes) (a : A) : Prop :=
  dec (fun r => r) (fun _ => tt) tt op bs a tt.
Definition btrunc {A} (op : hop rt A) (bs : bytes) : Prop :=
  trunc (fun r => r) (fun _ => tt) tt op bs.

Lemma dec_ext : forall A (op op' : hop rt A) bs a,
  (forall s, op s = op' s) -> bdec op' bs a -> bdec op bs a.
Proof.
  intros A op op' bs a E D s rest B X C. destruct (D s rest B X C) as (s' & R & H).
  exists s'. rewrite E. auto.
Qed.
Lemma trunc_ext : forall A (op op' : hop rt A) bs,
  (forall s, op s = op' s) -> btrunc op' bs -> btrunc op bs.
Proof.
  intros A op op' bs E D s q B X C N. destruct (D s q B X C N) as (e & s' & R).
  exists e, s'. rewrite E. auto.
Qed.

Lemma bdec_cons : forall A B (m : hop rt A) (k : A -> hop rt B) x bs a b,
  bdec m [x] a -> bdec (k a) bs b -> bdec (hbind m k) (x :: bs) b.
Proof. intros A B m k x bs a b H1 H2. exact (dec_bind _ _ _ _ _ _ _ _ _ [x] bs a b H1 H2). Qed.
Lemma btrunc_cons : forall A B (m : hop rt A) (k : A -> hop rt B) x bs a,
  btrunc m [x] -> bdec m [x] a -> btrunc (k a) bs -> btrunc (hbind m k) (x :: bs).
Proof. intros A B m k x bs a H1 H2 H3. exact (trunc_bind _ _ _ _ _ _ _ _ [x] bs a H1 H2 H3). Qed.

(** A fixed-width read. *)
Lemma bdec_fixed : forall A (g : bytes -> A) bs,
  bdec (hlift (fun r => '(buf, e, r') <- b_readAll (length bs) r ;; Ok (g buf, e, r'))) bs (g bs).
Proof.
  intros A g bs r rest B _ C. destruct (read_all_exact r bs rest B C) as (r' & R & B' & C').
  exists r'. unfold hlift, b_readAll. rewrite R. cbn. auto.
Qed.
Lemma btrunc_fixed : forall A (g : bytes -> A) n bs, length bs = n ->
  btrunc (hlift (fun r => '(buf, e, r') <- b_readAll n r ;; Ok (g buf, e, r'))) bs.
Proof.
  intros A g n bs L r q B _ C N.
  assert (Q : (length (content r) < n)%nat).
  { subst bs n. rewrite app_length. destruct q; [congruence|cbn; lia]. }
  destruct (read_all_short r n B Q) as (r' & R & _).
  unfold hlift, b_readAll. rewrite R. cbn. eauto.
Qed.

Ltac inv_bytes :=
  repeat match goal with
  | H : is_bytes (_ :: _) |- _ => unfold is_bytes in H
  | H : Forall is_byte (_ :: _) |- _ => inversion H; clear H; subst
  | H : is_byte _ |- _ => unfold is_byte in H
  end.
Lemma be_uint16_unbe : forall b0 b1, is_bytes [b0; b1] -> be_uint16 [b0; b1] = unbe [b0; b1].
Proof.
  intros b0 b1 H. inv_bytes. unfold be_uint16, at_. cbn [nth]. rewrite Z.shiftl_mul_pow2 by lia.
  rewrite lor_add by lia. cbn [unbe length].
  change (256 ^ Z.of_nat 1) with 256. change (256 ^ Z.of_nat 0) with 1. lia.
Qed.
Lemma be_uint32_unbe : forall b0 b1 b2 b3, is_bytes [b0; b1; b2; b3] ->
  be_uint32 [b0; b1; b2; b3] = unbe [b0; b1; b2; b3].
Proof.
  intros b0 b1 b2 b3 H. inv_bytes.
  unfold be_uint32, at_. cbn [nth]. rewrite !Z.shiftl_mul_pow2 by lia.
  replace (b0 * 2 ^ 24) with (b0 * 2 ^ 8 * 2 ^ 16) by lia.
  rewrite <- (Z.mul_1_r (b1 * 2 ^ 16)).
  replace (b1 * 2 ^ 16 * 1) with (b1 * 2 ^ 16) by lia.
  assert (E1 : Z.lor (b1 * 2 ^ 16) (b0 * 2 ^ 8 * 2 ^ 16) = (b1 + b0 * 2 ^ 8) * 2 ^ 16).
  { replace (b0 * 2 ^ 8 * 2 ^ 16) with (b0 * 2 ^ 24) by lia. rewrite lor_add by lia. lia. }
  rewrite E1.
  assert (E2 : Z.lor (b2 * 2 ^ 8) ((b1 + b0 * 2 ^ 8) * 2 ^ 16)
               = (b2 + b1 * 2 ^ 8 + b0 * 2 ^ 16) * 2 ^ 8) by (rewrite lor_add by lia; lia).
  rewrite E2, lor_add by lia. cbn [unbe length].
  change (256 ^ Z.of_nat 3) with 16777216. change (256 ^ Z.of_nat 2) with 65536.
  change (256 ^ Z.of_nat 1) with 256. change (256 ^ Z.of_nat 0) with 1. lia.
Qed.
Lemma be_uint64_unbe : forall b0 b1 b2 b3 b4 b5 b6 b7,
  is_bytes [b0; b1; b2; b3; b4; b5; b6; b7] ->
  be_uint64 [b0; b1; b2; b3; b4; b5; b6; b7] = unbe [b0; b1; b2; b3; b4; b5; b6; b7].
Proof.
  intros b0 b1 b2 b3 b4 b5 b6 b7 H. inv_bytes.
  unfold be_uint64, at_. cbn [nth]. rewrite !Z.shiftl_mul_pow2 by lia.
  rewrite (lor_add 56) by lia.
  replace (b1 * 2 ^ 48 + b0 * 2 ^ 56) with ((b1 + b0 * 2 ^ 8) * 2 ^ 48) by lia.
  rewrite (lor_add 48) by lia.
  replace (b2 * 2 ^ 40 + (b1 + b0 * 2 ^ 8) * 2 ^ 48)
    with ((b2 + b1 * 2 ^ 8 + b0 * 2 ^ 16) * 2 ^ 40) by lia.
  rewrite (lor_add 40) by lia.
  replace (b3 * 2 ^ 32 + (b2 + b1 * 2 ^ 8 + b0 * 2 ^ 16) * 2 ^ 40)
    with ((b3 + b2 * 2 ^ 8 + b1 * 2 ^ 16 + b0 * 2 ^ 24) * 2 ^ 32) by lia.
  rewrite (lor_add 32) by lia.
  replace (b4 * 2 ^ 24 + (b3 + b2 * 2 ^ 8 + b1 * 2 ^ 16 + b0 * 2 ^ 24) * 2 ^ 32)
    with ((b4 + b3 * 2 ^ 8 + b2 * 2 ^ 16 + b1 * 2 ^ 24 + b0 * 2 ^ 32) * 2 ^ 24) by lia.
  rewrite (lor_add 24) by lia.
  replace (b5 * 2 ^ 16 + (b4 + b3 * 2 ^ 8 + b2 * 2 ^ 16 + b1 * 2 ^ 24 + b0 * 2 ^ 32) * 2 ^ 24)
    with ((b5 + b4 * 2 ^ 8 + b3 * 2 ^ 16 + b2 * 2 ^ 24 + b1 * 2 ^ 32 + b0 * 2 ^ 40) * 2 ^ 16)
    by lia.
  rewrite (lor_add 16) by lia.
  replace (b6 * 2 ^ 8 + (b5 + b4 * 2 ^ 8 + b3 * 2 ^ 16 + b2 * 2 ^ 24 + b1 * 2 ^ 32
                         + b0 * 2 ^ 40) * 2 ^ 16)
    with ((b6 + b5 * 2 ^ 8 + b4 * 2 ^ 16 + b3 * 2 ^ 24 + b2 * 2 ^ 32 + b1 * 2 ^ 40
           + b0 * 2 ^ 48) * 2 ^ 8) by lia.
  rewrite (lor_add 8) by lia.
  cbn [unbe length].
  change (256 ^ Z.of_nat 7) with (2 ^ 56). change (256 ^ Z.of_nat 6) with (2 ^ 48).
  change (256 ^ Z.of_nat 5) with (2 ^ 40). change (256 ^ Z.of_nat 4) with (2 ^ 32).
  change (256 ^ Z.of_nat 3) with (2 ^ 24). change (256 ^ Z.of_nat 2) with (2 ^ 16).
  change (256 ^ Z.of_nat 1) with (2 ^ 8). change (256 ^ Z.of_nat 0) with 1. lia.
Qed.

Lemma be_uint16_be : forall v, be_uint16 (be 2 v) = unbe (be 2 v).
Proof. intros; apply be_uint16_unbe, (be_bytes 2). Qed.
Lemma be_uint32_be : forall v, be_uint32 (be 4 v) = unbe (be 4 v).
Proof. intros; apply be_uint32_unbe, (be_bytes 4). Qed.
Lemma be_uint64_be : forall v, be_uint64 (be 8 v) = unbe (be 8 v).
Proof. intros; apply be_uint64_unbe, (be_bytes 8). Qed.
Opaque be.

Lemma bdec_byte : forall z, bdec (hlift bReadByte) [z] z.
Proof. intros z. apply (bdec_fixed _ (fun b => at_ 0 b) [z]). Qed.
Lemma btrunc_byte : forall z, btrunc (hlift bReadByte) [z].
Proof. intros z. apply (btrunc_fixed _ (fun b => at_ 0 b)). reflexivity. Qed.

Lemma bdec_i16 : forall v, in_s 16 v -> bdec (hlift bReadI16) (be 2 v) v.
Proof.
  intros v H. pose proof (bdec_fixed _ (fun b => wraps 16 (be_uint16 b)) (be 2 v)) as D.
  rewrite be_length, be_uint16_be in D.
  replace (wraps 16 (unbe (be 2 v))) with v in D by (symmetry; apply (wraps_unbe_be 2); [lia|exact H]).
  exact D.
Qed.
Lemma btrunc_i16 : forall v, btrunc (hlift bReadI16) (be 2 v).
Proof. intros v. apply (btrunc_fixed _ (fun b => wraps 16 (be_uint16 b))), be_length. Qed.
Lemma bdec_i32 : forall v, in_s 32 v -> bdec (hlift bReadI32) (be 4 v) v.
Proof.
  intros v H. pose proof (bdec_fixed _ (fun b => wraps 32 (be_uint32 b)) (be 4 v)) as D.
  rewrite be_length, be_uint32_be in D.
  replace (wraps 32 (unbe (be 4 v))) with v in D by (symmetry; apply (wraps_unbe_be 4); [lia|exact H]).
  exact D.
Qed.
Lemma btrunc_i32 : forall v, btrunc (hlift bReadI32) (be 4 v).
Proof. intros v. apply (btrunc_fixed _ (fun b => wraps 32 (be_uint32 b))), be_length. Qed.
Lemma bdec_i64 : forall v, in_s 64 v -> bdec (hlift bReadI64) (be 8 v) v.
Proof.
  intros v H. pose proof (bdec_fixed _ (fun b => wraps 64 (be_uint64 b)) (be 8 v)) as D.
  rewrite be_length, be_uint64_be in D.
  replace (wraps 64 (unbe (be 8 v))) with v in D by (symmetry; apply (wraps_unbe_be 8); [lia|exact H]).
  exact D.
Qed.
Lemma btrunc_i64 : forall v, btrunc (hlift bReadI64) (be 8 v).
Proof. intros v. apply (btrunc_fixed _ (fun b => wraps 64 (be_uint64 b))), be_length. Qed.
Lemma bdec_double : forall v, in_u 64 v -> bdec (hlift bReadDouble) (be 8 v) v.
Proof.
  intros v H. pose proof (bdec_fixed _ be_uint64 (be 8 v)) as D.
  rewrite be_length, be_uint64_be, unbe_be in D.
  change (256 ^ Z.of_nat 8) with (2 ^ 64) in D. rewrite Z.mod_small in D by exact H.
  exact D.
Qed.
Lemma btrunc_double : forall v, btrunc (hlift bReadDouble) (be 8 v).
Proof. intros v. apply (btrunc_fixed _ be_uint64), be_length. Qed.

(** Relating Go-style error propagation with [hbind]. *)
Ltac hop_cases :=
  repeat (cbn [obind hlift hbind hret];
          match goal with
          | |- ?x = ?x => reflexivity
          | |- context [match ?o with Ok _ => _ | Panic => _ | OutOfFuel => _ end] =>
            destruct o as [[[? [?|]] ?]| |]
          end).

Lemma hlift_bool : forall s,
  hlift bReadBool s = (b <-- hlift bReadByte ;; hret (b =? 1)) s.
Proof.
  intros s. unfold bReadBool, hlift, hbind, hret.
  destruct (bReadByte s) as [[[b [e|]] s']| |]; reflexivity.
Qed.
Lemma bdec_bool : forall b, bdec (hlift bReadBool) (sb_bool b) b.
Proof.
  intros b. eapply dec_ext; [apply hlift_bool|].
  eapply dec_eq; [eapply dec_bind; [apply bdec_byte|]|rewrite app_nil_r; reflexivity].
  destruct b; apply dec_ret.
Qed.
Lemma btrunc_bool : forall b, btrunc (hlift bReadBool) (sb_bool b).
Proof.
  intros b. eapply trunc_ext; [apply hlift_bool|].
  eapply trunc_eq; [eapply trunc_bind; [apply btrunc_byte|apply bdec_byte|apply trunc_nil]
                   |apply app_nil_r].
Qed.

Lemma hlift_string : forall s,
  hlift bReadString s = (n <-- hlift bReadI32 ;; hlift (bReadStringBody n)) s.
Proof.
  intros s. unfold bReadString, hlift, hbind.
  destruct (bReadI32 s) as [[[b [e|]] s']| |]; reflexivity.
Qed.
Lemma hlift_string_body : forall n s, 0 <= n ->
  hlift (bReadStringBody n) s =
  hlift (fun r => '(buf, e, r') <- b_readAll (Z.to_nat n) r ;; Ok (buf, e, r')) s.
Proof.
  intros n s H. unfold bReadStringBody, hlift, b_readAll.
  replace (n <? 0) with false by lia.
  destruct (read_all (Z.to_nat n) s) as [[[c b] [e|]] s']; reflexivity.
Qed.
Lemma bdec_body : forall bs, bdec (hlift (bReadStringBody (Z.of_nat (length bs)))) bs bs.
Proof.
  intros bs. eapply dec_ext; [intro; apply hlift_string_body; lia|].
  rewrite Nat2Z.id. apply (bdec_fixed _ (fun b => b)).
Qed.
Lemma btrunc_body : forall bs, btrunc (hlift (bReadStringBody (Z.of_nat (length bs)))) bs.
Proof.
  intros bs. eapply trunc_ext; [intro; apply hlift_string_body; lia|].
  rewrite Nat2Z.id. apply (btrunc_fixed _ (fun b => b)). reflexivity.
Qed.

Lemma len_in_s32 : forall n : nat, Z.of_nat n < 2 ^ 31 -> in_s 32 (Z.of_nat n).
Proof. intros. unfold in_s. change (32 - 1) with 31. lia. Qed.

Lemma bdec_string : forall bs, Z.of_nat (length bs) < 2 ^ 31 ->
  bdec (hlift bReadString) (sb_string bs) bs.
Proof.
  intros bs H. eapply dec_ext; [apply hlift_string|].
  eapply dec_bind; [apply bdec_i32, len_in_s32, H|apply bdec_body].
Qed.
Lemma btrunc_string : forall bs, Z.of_nat (length bs) < 2 ^ 31 ->
  btrunc (hlift bReadString) (sb_string bs).
Proof.
  intros bs H. eapply trunc_ext; [apply hlift_string|].
  eapply trunc_bind; [apply btrunc_i32|apply bdec_i32, len_in_s32, H|apply btrunc_body].
Qed.

Lemma hlift_binary : forall s,
  hlift bReadBinary s =
  (n <-- hlift bReadI32 ;;
   if n <? 0 then fun _ => Panic
   else hlift (fun r => '(buf, e, r') <- b_readAll (Z.to_nat n) r ;; Ok (buf, e, r'))) s.
Proof.
  intros s. unfold bReadBinary, hlift, hbind, b_readAll.
  destruct (bReadI32 s) as [[[b [e|]] s']| |]; try reflexivity.
  cbn [obind]. destruct (b <? 0); [reflexivity|].
  destruct (read_all (Z.to_nat b) s') as [[[c bb] [e|]] s'']; reflexivity.
Qed.
Lemma bdec_binary : forall bs, Z.of_nat (length bs) < 2 ^ 31 ->
  bdec (hlift bReadBinary) (sb_string bs) bs.
Proof.
  intros bs H. eapply dec_ext; [apply hlift_binary|].
  eapply dec_bind; [apply bdec_i32, len_in_s32, H|].
  cbn beta. replace (Z.of_nat (length bs) <? 0) with false by lia.
  rewrite Nat2Z.id. apply (bdec_fixed _ (fun b => b)).
Qed.
Lemma btrunc_binary : forall bs, Z.of_nat (length bs) < 2 ^ 31 ->
  btrunc (hlift bReadBinary) (sb_string bs).
Proof.
  intros bs H. eapply trunc_ext; [apply hlift_binary|].
  eapply trunc_bind; [apply btrunc_i32|apply bdec_i32, len_in_s32, H|].
  cbn beta. replace (Z.of_nat (length bs) <? 0) with false by lia.
  rewrite Nat2Z.id. apply (btrunc_fixed _ (fun b => b)). reflexivity.
Qed.

Lemma hlift_field : forall s,
  hlift bReadFieldBegin s =
  (t <-- hlift bReadByte ;;
   if t =? STOP then hret ([], t, 0)
   else id <-- hlift bReadI16 ;; hret ([], t, id)) s.
Proof.
  intros s. unfold bReadFieldBegin, hlift, hbind, hret.
  destruct (bReadByte s) as [[[b [e|]] s']| |]; try reflexivity.
  cbn [obind]. destruct (b =? STOP); [reflexivity|]. cbn [negb].
  destruct (bReadI16 s') as [[[i [e|]] s'']| |]; reflexivity.
Qed.
Lemma bdec_field : forall t id, t <> STOP -> in_s 16 id ->
  bdec (hlift bReadFieldBegin) (sb_field t id) ([], t, id).
Proof.
  intros t id T H. eapply dec_ext; [apply hlift_field|].
  eapply bdec_cons; [apply bdec_byte|].
  replace (t =? STOP) with false by lia.
  eapply dec_eq; [eapply dec_bind; [apply bdec_i16, H|apply dec_ret]|apply app_nil_r].
Qed.
Lemma btrunc_field : forall t id, t <> STOP -> in_s 16 id ->
  btrunc (hlift bReadFieldBegin) (sb_field t id).
Proof.
  intros t id T H. eapply trunc_ext; [apply hlift_field|].
  eapply btrunc_cons; [apply btrunc_byte|apply bdec_byte|].
  replace (t =? STOP) with false by lia.
  eapply trunc_eq; [eapply trunc_bind; [apply btrunc_i16|apply bdec_i16, H|apply trunc_nil]
                   |apply app_nil_r].
Qed.
Lemma bdec_stop : bdec (hlift bReadFieldBegin) sb_stop ([], STOP, 0).
Proof.
  eapply dec_ext; [apply hlift_field|].
  eapply bdec_cons; [apply bdec_byte|apply dec_ret].
Qed.
Lemma btrunc_stop : btrunc (hlift bReadFieldBegin) sb_stop.
Proof.
  eapply trunc_ext; [apply hlift_field|].
  eapply btrunc_cons; [apply btrunc_byte|apply bdec_byte|apply trunc_nil].
Qed.

Lemma hlift_list : forall s,
  hlift bReadListBegin s =
  (t <-- hlift bReadByte ;; n <-- hlift bReadI32 ;; hret (t, n)) s.
Proof.
  intros s. unfold bReadListBegin, hlift, hbind, hret.
  unfold bReadByte, b_readAll.
  destruct (read_all 1 s) as [[[c b] e] s']. cbn [obind].
  destruct e as [e|]; [destruct e; reflexivity|]. cbn.
  unfold bReadI32, b_readAll.
  destruct (read_all 4 s') as [[[c' b'] e'] s'']. cbn [obind].
  rewrite pefo_idem. destruct (protocol_exc_from_os e'); reflexivity.
Qed.
Lemma set_list : bReadSetBegin = bReadListBegin.
Proof. reflexivity. Qed.
Lemma bdec_list : forall t n, in_s 32 n -> bdec (hlift bReadListBegin) (sb_list t n) (t, n).
Proof.
  intros t n H. eapply dec_ext; [apply hlift_list|].
  eapply bdec_cons; [apply bdec_byte|].
  eapply dec_eq; [eapply dec_bind; [apply bdec_i32, H|apply dec_ret]|apply app_nil_r].
Qed.
Lemma btrunc_list : forall t n, in_s 32 n -> btrunc (hlift bReadListBegin) (sb_list t n).
Proof.
  intros t n H. eapply trunc_ext; [apply hlift_list|].
  eapply btrunc_cons; [apply btrunc_byte|apply bdec_byte|].
  eapply trunc_eq; [eapply trunc_bind; [apply btrunc_i32|apply bdec_i32, H|apply trunc_nil]
                   |apply app_nil_r].
Qed.

Lemma hlift_map : forall s,
  hlift bReadMapBegin s =
  (k <-- hlift bReadByte ;; v <-- hlift bReadByte ;; n <-- hlift bReadI32 ;; hret (k, v, n)) s.
Proof.
  intros s. unfold bReadMapBegin, hlift, hbind, hret.
  unfold bReadByte, b_readAll.
  destruct (read_all 1 s) as [[[c b] e] s']. cbn [obind].
  destruct e as [e|]; [destruct e; reflexivity|]. cbn -[read_all].
  destruct (read_all 1 s') as [[[c1 b1] e1] s1]. cbn [obind].
  destruct e1 as [e1|]; [destruct e1; reflexivity|]. cbn -[read_all].
  unfold bReadI32, b_readAll.
  destruct (read_all 4 s1) as [[[c' b'] e'] s'']. cbn [obind].
  rewrite pefo_idem. destruct (protocol_exc_from_os e'); reflexivity.
Qed.
Lemma bdec_map : forall k v n, in_s 32 n ->
  bdec (hlift bReadMapBegin) (sb_map k v n) (k, v, n).
Proof.
  intros k v n H. eapply dec_ext; [apply hlift_map|].
  eapply bdec_cons; [apply bdec_byte|].
  eapply bdec_cons; [apply bdec_byte|].
  eapply dec_eq; [eapply dec_bind; [apply bdec_i32, H|apply dec_ret]|apply app_nil_r].
Qed.
Lemma btrunc_map : forall k v n, in_s 32 n -> btrunc (hlift bReadMapBegin) (sb_map k v n).
Proof.
  intros k v n H. eapply trunc_ext; [apply hlift_map|].
  eapply btrunc_cons; [apply btrunc_byte|apply bdec_byte|].
  eapply btrunc_cons; [apply btrunc_byte|apply bdec_byte|].
  eapply trunc_eq; [eapply trunc_bind; [apply btrunc_i32|apply bdec_i32, H|apply trunc_nil]
                   |apply app_nil_r].
Qed.

Lemma bdec_nop : bdec (hdo nop) [] tt.
Proof. intros s rest B X C. exists s. cbn in *. auto. Qed.

(** ** Structured values *)

Lemma max_list_in : forall A (g : A -> nat) l x, In x l -> (g x <= max_list (map g l))%nat.
Proof.
  induction l as [|y l IH]; intros x H; [destruct H|].
  cbn [map max_list fold_right]. destruct H as [->|H]; [lia|].
  specialize (IH x H). unfold max_list in IH. lia.
Qed.

Lemma wire_not_stop : forall v, vtype v <> STOP.
Proof. intros []; discriminate. Qed.

Definition bgood (R : rproto rt) (v : tval) : Prop :=
  forall f, (need v <= f)%nat ->
    bdec (read_val R f (vtype v)) (sb_val v) v /\ btrunc (read_val R f (vtype v)) (sb_val v).

Lemma both : forall A (op : hop rt A) bs a, bdec op bs a -> btrunc op bs -> bdec op bs a /\ btrunc op bs.
Proof. auto. Qed.

Lemma bd_bind : forall A B (m : hop rt A) (k : A -> hop rt B) bs1 bs2 a b,
  bdec m bs1 a /\ btrunc m bs1 ->
  bdec (k a) bs2 b /\ btrunc (k a) bs2 ->
  bdec (hbind m k) (bs1 ++ bs2) b /\ btrunc (hbind m k) (bs1 ++ bs2).
Proof.
  intros A B m k bs1 bs2 a b [D1 T1] [D2 T2]. split.
  - eapply dec_bind; eassumption.
  - eapply trunc_bind; eassumption.
Qed.
Lemma bd_ret : forall A (a : A), bdec (hret a) [] a /\ btrunc (@hret rt A a) [].
Proof. intros; split; [apply dec_ret|apply trunc_nil]. Qed.
Lemma bd_map : forall A B (m : hop rt A) (g : A -> B) bs a,
  bdec m bs a /\ btrunc m bs ->
  bdec (x <-- m ;; hret (g x)) bs (g a) /\ btrunc (x <-- m ;; hret (g x)) bs.
Proof.
  intros A B m g bs a H. rewrite <- (app_nil_r bs). eapply bd_bind; [exact H|apply bd_ret].
Qed.
Lemma bd_end : forall A (a : A),
  bdec (_ <-- hdo nop ;; hret a) [] a /\ btrunc (_ <-- @hdo rt nop ;; hret a) [].
Proof.
  intros. split; [|apply trunc_nil].
  apply (dec_bind _ _ _ _ _ tt _ _ _ [] [] tt); [apply bdec_nop|apply dec_ret].
Qed.
Lemma bd_repeat : forall A B (m : hop rt A) (en : B -> bytes) (f : B -> A) (l : list B),
  (forall x, In x l -> bdec m (en x) (f x) /\ btrunc m (en x)) ->
  bdec (hrepeat (length l) m) (concat (map en l)) (map f l) /\
  btrunc (hrepeat (length l) m) (concat (map en l)).
Proof.
  intros. split.
  - apply dec_repeat. intros; apply H; assumption.
  - eapply trunc_repeat; intros; apply H; assumption.
Qed.

Lemma bd_fields : forall R fs,
  rFieldBegin R = bReadFieldBegin -> rFieldEnd R = nop ->
  (forall x, In x fs -> bgood R (snd x) /\ in_s 16 (fst x)) ->
  forall f, (fold_right (fun x n => S (Nat.max (need (snd x)) n)) 1%nat fs <= f)%nat ->
  bdec (read_fields R f)
    (concat (map (fun x => sb_field (vtype (snd x)) (fst x) ++ sb_val (snd x)) fs) ++ sb_stop) fs
  /\ btrunc (read_fields R f)
    (concat (map (fun x => sb_field (vtype (snd x)) (fst x) ++ sb_val (snd x)) fs) ++ sb_stop).
Proof.
  intros R fs HB HE. induction fs as [|[id v] fs IH]; intros H f Hf.
  - cbn [map concat app fold_right] in *. destruct f as [|f]; [lia|].
    rewrite read_fields_S. rewrite HB. rewrite <- (app_nil_r sb_stop).
    eapply bd_bind; [split; [apply bdec_stop|apply btrunc_stop]|]. cbn. apply bd_ret.
  - cbn [map concat fold_right fst snd] in *. destruct f as [|f]; [lia|].
    rewrite read_fields_S. rewrite HB, HE. rewrite <- !app_assoc.
    destruct (H (id, v)) as [Hg Hi]; [left; reflexivity|]. cbn [fst snd] in *.
    eapply bd_bind; [split; [apply bdec_field|apply btrunc_field]; try apply wire_not_stop; exact Hi|].
    cbn beta iota. replace (vtype v =? STOP) with false
      by (symmetry; apply Z.eqb_neq, wire_not_stop).
    eapply bd_bind; [apply Hg; lia|]. cbn beta.
    eapply (bd_bind _ _ _ _ []); [split; [apply bdec_nop|apply trunc_nil]|]. cbn beta.
    apply (bd_map _ _ _ (fun l => (id, v) :: l)).
    apply IH; [intros; apply H; right; assumption|lia].
Qed.

Theorem bgood_val : forall strict v, wf v -> bgood (binaryR strict) v.
Proof.
  intros strict. induction v using tval_ind'; intros Hwf f Hf;
    (destruct f as [|f]; [cbn in Hf; lia|]); cbn [sb_val].
  - apply (bd_map _ _ _ VBool). split; [apply bdec_bool|apply btrunc_bool].
  - apply (bd_map _ _ _ VByte). split; [apply bdec_byte|apply btrunc_byte].
  - apply (bd_map _ _ _ VI16). split; [apply bdec_i16, Hwf|apply btrunc_i16].
  - apply (bd_map _ _ _ VI32). split; [apply bdec_i32, Hwf|apply btrunc_i32].
  - apply (bd_map _ _ _ VI64). split; [apply bdec_i64, Hwf|apply btrunc_i64].
  - apply (bd_map _ _ _ VDouble). split; [apply bdec_double, Hwf|apply btrunc_double].
  - apply (bd_map _ _ _ VStr). destruct Hwf as [_ L].
    split; [apply bdec_string, L|apply btrunc_string, L].
  - cbn [wf] in Hwf. destruct Hwf as (T & L & A). rewrite all_in in A. rewrite Forall_forall in H.
    cbn [need] in Hf.
    change (read_val (binaryR strict) (S f) (vtype (VList et l))) with
      ('(et, n) <-- hlift bReadListBegin ;;
       l <-- hrepeat (Z.to_nat n) (read_val (binaryR strict) f et) ;;
       _ <-- hdo nop ;; hret (VList et l)).
    eapply bd_bind; [split; [apply bdec_list|apply btrunc_list]; apply len_in_s32, L|].
    cbn beta iota. rewrite Nat2Z.id, <- (app_nil_r (concat _)).
    eapply bd_bind; [apply (bd_repeat _ _ _ sb_val (fun x => x))|rewrite map_id; apply bd_end].
    intros x Hx. destruct (A x Hx) as [Ht Hw]. rewrite <- Ht. apply H; [assumption|assumption|].
    pose proof (max_list_in _ need l x Hx). lia.
  - cbn [wf] in Hwf. destruct Hwf as (T & L & A). rewrite all_in in A. rewrite Forall_forall in H.
    cbn [need] in Hf.
    change (read_val (binaryR strict) (S f) (vtype (VSet et l))) with
      ('(et, n) <-- hlift bReadListBegin ;;
       l <-- hrepeat (Z.to_nat n) (read_val (binaryR strict) f et) ;;
       _ <-- hdo nop ;; hret (VSet et l)).
    eapply bd_bind; [split; [apply bdec_list|apply btrunc_list]; apply len_in_s32, L|].
    cbn beta iota. rewrite Nat2Z.id, <- (app_nil_r (concat _)).
    eapply bd_bind; [apply (bd_repeat _ _ _ sb_val (fun x => x))|rewrite map_id; apply bd_end].
    intros x Hx. destruct (A x Hx) as [Ht Hw]. rewrite <- Ht. apply H; [assumption|assumption|].
    pose proof (max_list_in _ need l x Hx). lia.
  - cbn [wf] in Hwf. destruct Hwf as (T1 & T2 & L & A). rewrite all_in in A.
    rewrite Forall_forall in H. cbn [need] in Hf.
    change (read_val (binaryR strict) (S f) (vtype (VMap kt vt l))) with
      ('(kt, vt, n) <-- hlift bReadMapBegin ;;
       l <-- hrepeat (Z.to_nat n)
              (k <-- read_val (binaryR strict) f kt ;;
               v <-- read_val (binaryR strict) f vt ;; hret (k, v)) ;;
       _ <-- hdo nop ;; hret (VMap kt vt l)).
    eapply bd_bind; [split; [apply bdec_map|apply btrunc_map]; apply len_in_s32, L|].
    cbn beta iota. rewrite Nat2Z.id, <- (app_nil_r (concat _)).
    eapply bd_bind; [apply (bd_repeat _ _ _ (fun kv => sb_val (fst kv) ++ sb_val (snd kv))
                               (fun x => x))|rewrite map_id; apply bd_end].
    intros [k v] Hx. destruct (A _ Hx) as [[Hkt Hkw] [Hvt Hvw]]. destruct (H _ Hx) as [Hk Hv].
    pose proof (max_list_in _ (fun kv => Nat.max (need (fst kv)) (need (snd kv))) l _ Hx) as M.
    cbn [fst snd] in *.
    eapply bd_bind; [rewrite <- Hkt; apply Hk; [assumption|lia]|]. cbn beta.
    apply (bd_map _ _ _ (fun v => (k, v))). rewrite <- Hvt; apply Hv; [assumption|lia].
  - cbn [wf] in Hwf. rewrite all_in in Hwf. rewrite Forall_forall in H. cbn [need] in Hf.
    change (read_val (binaryR strict) (S f) (vtype (VStruct fs))) with
      (_ <-- hlift (fun r => Ok (@nil Z, None, r)) ;;
       fs <-- read_fields (binaryR strict) f ;;
       _ <-- hdo nop ;; hret (VStruct fs)).
    eapply (bd_bind _ _ _ _ []).
    { split; [|apply trunc_nil]. intros s rest B X C. exists s. cbn in *. eauto. }
    cbn beta. rewrite <- (app_nil_r (_ ++ sb_stop)).
    eapply bd_bind; [apply bd_fields; [reflexivity|reflexivity| |lia]|apply bd_end].
    intros x Hx. split; [apply H; [assumption|apply Hwf; assumption]|apply Hwf; assumption].
Qed.
