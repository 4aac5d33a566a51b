(** Properties of TBinaryProtocol: C01 - C12. *)
From Coq Require Import ZArith List Bool Lia.
From Coq Require Import ZifyBool ZifyNat.
From Verif Require Import Base Errors Transport Proto Arith TransportProofs Values Codec
  Binary BinarySpec Skip BinaryProofs SkipProofs BinaryMsg ReadProg Compact WfDec.
Import ListNotations.
Open Scope Z_scope.

(** ** Vocabulary of the statements *)

(** [op] on a transport that accepts everything appends exactly [bs]. *)
Definition emits (op : wop wt) (bs : bytes) : Prop :=
  forall o, op (MkWt o []) = Ok (None, MkWt (o ++ bs) []).

(** [op] positioned before [bs] returns [a] without error and leaves everything after [bs]
    unread; for every chunking of the stream. *)
Definition reads {A} (op : rop rt A) (bs : bytes) (a : A) : Prop :=
  forall r rest, benign r -> content r = bs ++ rest ->
  exists r', op r = Ok (a, None, r') /\ benign r' /\ content r' = rest.

(** What [w] writes, [rd] reads back as [a]. *)
Definition round_trip {A} (w : wop wt) (rd : rop rt A) (a : A) : Prop :=
  exists bs, emits w bs /\ reads rd bs a.

Lemma emits_benc : forall op bs, benc op bs -> emits op bs.
Proof.
  intros op bs H o. destruct (H (MkWt o []) eq_refl eq_refl) as (s' & R & V & _).
  cbn in V. subst. exact R.
Qed.
Lemma reads_bdec : forall A (op : rop rt A) bs a, bdec (hlift op) bs a -> reads op bs a.
Proof. intros A op bs a H r rest B X. eapply bdec_inv; eassumption. Qed.
Lemma rt_of : forall A w (rd : rop rt A) bs a,
  benc w bs -> bdec (hlift rd) bs a -> round_trip w rd a.
Proof. intros. exists bs. split; [apply emits_benc|apply reads_bdec]; assumption. Qed.

(** ** C01 *)
Lemma C01_aux :
  (forall b, round_trip (bWriteBool b) bReadBool b) /\
  (forall v, in_u 8 v -> round_trip (bWriteByte v) bReadByte v) /\
  (forall v, in_s 16 v -> round_trip (bWriteI16 v) bReadI16 v) /\
  (forall v, in_s 32 v -> round_trip (bWriteI32 v) bReadI32 v) /\
  (forall v, in_s 64 v -> round_trip (bWriteI64 v) bReadI64 v) /\
  (forall v, in_u 64 v -> round_trip (bWriteDouble v) bReadDouble v) /\
  (forall s, Z.of_nat (length s) < 2 ^ 31 -> round_trip (bWriteString s) bReadString s) /\
  (forall s, Z.of_nat (length s) < 2 ^ 31 -> round_trip (bWriteBinary s) bReadBinary s).
Proof.
  repeat split; intros.
  - eapply rt_of; [apply benc_bool|apply bdec_bool].
  - eapply rt_of; [apply benc_byte|apply bdec_byte].
  - eapply rt_of; [apply benc_i16|apply bdec_i16; assumption].
  - eapply rt_of; [apply benc_i32|apply bdec_i32; assumption].
  - eapply rt_of; [apply benc_i64|apply bdec_i64; assumption].
  - eapply rt_of; [apply benc_double|apply bdec_double; assumption].
  - eapply rt_of; [apply benc_string|apply bdec_string; assumption].
  - eapply rt_of; [apply benc_binary|apply bdec_binary; assumption].
Qed.

Theorem C01_binary_scalar_round_trip :
  (forall b, round_trip (wBool (binaryW true) b) (rBool (binaryR true)) b) /\
  (forall v, in_u 8 v -> round_trip (wByte (binaryW true) v) (rByte (binaryR true)) v) /\
  (forall v, in_s 16 v -> round_trip (wI16 (binaryW true) v) (rI16 (binaryR true)) v) /\
  (forall v, in_s 32 v -> round_trip (wI32 (binaryW true) v) (rI32 (binaryR true)) v) /\
  (forall v, in_s 64 v -> round_trip (wI64 (binaryW true) v) (rI64 (binaryR true)) v) /\
  (forall v, in_u 64 v -> round_trip (wDouble (binaryW true) v) (rDouble (binaryR true)) v) /\
  (forall s, Z.of_nat (length s) < 2 ^ 31 ->
     round_trip (wString (binaryW true) s) (rString (binaryR true)) s) /\
  (forall s, Z.of_nat (length s) < 2 ^ 31 ->
     round_trip (wBinary (binaryW true) s) (rBinary (binaryR true)) s).
Proof. exact C01_aux. Qed.
Print Assumptions C01_binary_scalar_round_trip.

(** A concrete case: -2 as i32, read from a stream cut into awkward pieces, one byte
    following. *)
Example C01_case :
  bWriteI32 (-2) (MkWt [7] []) = Ok (None, MkWt [7; 255; 255; 255; 254] []) /\
  benign [([255], None); ([255; 255], None); ([254; 9], None)] /\
  bReadI32 [([255], None); ([255; 255], None); ([254; 9], None)] = Ok (-2, None, [([9], None)]).
Proof. concrete. Qed.

(** ** C02 *)
Lemma C02_aux : forall strict,
  (forall b, emits (wBool (binaryW strict) b) (sb_bool b)) /\
  (forall v, emits (wByte (binaryW strict) v) [v]) /\
  (forall v, emits (wI16 (binaryW strict) v) (be 2 v)) /\
  (forall v, emits (wI32 (binaryW strict) v) (be 4 v)) /\
  (forall v, emits (wI64 (binaryW strict) v) (be 8 v)) /\
  (forall v, emits (wDouble (binaryW strict) v) (be 8 v)) /\
  (forall s, emits (wString (binaryW strict) s) (be 4 (Z.of_nat (length s)) ++ s)) /\
  (forall s, emits (wBinary (binaryW strict) s) (be 4 (Z.of_nat (length s)) ++ s)) /\
  (forall n t id, t <> BINARY -> emits (wFieldBegin (binaryW strict) n t id) (t :: be 2 id)) /\
  emits (wFieldStop (binaryW strict)) [0] /\
  (forall t n, t <> BINARY -> emits (wListBegin (binaryW strict) t n) (t :: be 4 n)) /\
  (forall t n, t <> BINARY -> emits (wSetBegin (binaryW strict) t n) (t :: be 4 n)) /\
  (forall k v n, k <> BINARY -> v <> BINARY ->
     emits (wMapBegin (binaryW strict) k v n) (k :: v :: be 4 n)) /\
  (forall name t s, 0 <= t < 256 -> emits (wMessageBegin (binaryW strict) name t s)
     (if strict then [128; 1; 0; t] ++ (be 4 (Z.of_nat (length name)) ++ name) ++ be 4 s
      else (be 4 (Z.of_nat (length name)) ++ name) ++ [t] ++ be 4 s)) /\
  (forall n, emits (wStructBegin (binaryW strict) n) []) /\
  emits (wStructEnd (binaryW strict)) [] /\ emits (wFieldEnd (binaryW strict)) [] /\
  emits (wMapEnd (binaryW strict)) [] /\ emits (wListEnd (binaryW strict)) [] /\
  emits (wSetEnd (binaryW strict)) [] /\ emits (wMessageEnd (binaryW strict)) [].
Proof.
  intros strict. repeat match goal with |- _ /\ _ => split end; intros; apply emits_benc;
    cbn [binaryW wMessageBegin wMessageEnd wStructBegin wStructEnd wFieldBegin wFieldEnd wFieldStop
         wMapBegin wMapEnd wListBegin wListEnd wSetBegin wSetEnd wBool wByte wI16 wI32 wI64 wDouble
         wString wBinary]; try apply enc_nop.
  - apply benc_bool.
  - apply benc_byte.
  - apply benc_i16.
  - apply benc_i32.
  - apply benc_i64.
  - apply benc_double.
  - apply benc_string.
  - apply benc_binary.
  - rewrite <- (thrift_type_wire t) at 2 by assumption. apply benc_field.
  - apply benc_stop.
  - rewrite <- (thrift_type_wire t) at 2 by assumption. apply benc_list.
  - rewrite <- (thrift_type_wire t) at 2 by assumption. apply benc_set.
  - rewrite <- (thrift_type_wire k) at 2 by assumption.
    rewrite <- (thrift_type_wire v) at 2 by assumption. apply benc_map.
  - destruct strict; [apply benc_message_strict|apply benc_message_old]; assumption.
Qed.

Theorem C02_binary_wire_layout : forall strict,
  (forall b, emits (wBool (binaryW strict) b) (sb_bool b)) /\
  (forall v, emits (wByte (binaryW strict) v) [v]) /\
  (forall v, emits (wI16 (binaryW strict) v) (be 2 v)) /\
  (forall v, emits (wI32 (binaryW strict) v) (be 4 v)) /\
  (forall v, emits (wI64 (binaryW strict) v) (be 8 v)) /\
  (forall v, emits (wDouble (binaryW strict) v) (be 8 v)) /\
  (forall s, emits (wString (binaryW strict) s) (be 4 (Z.of_nat (length s)) ++ s)) /\
  (forall s, emits (wBinary (binaryW strict) s) (be 4 (Z.of_nat (length s)) ++ s)) /\
  (forall n t id, t <> BINARY -> emits (wFieldBegin (binaryW strict) n t id) (t :: be 2 id)) /\
  emits (wFieldStop (binaryW strict)) [0] /\
  (forall t n, t <> BINARY -> emits (wListBegin (binaryW strict) t n) (t :: be 4 n)) /\
  (forall t n, t <> BINARY -> emits (wSetBegin (binaryW strict) t n) (t :: be 4 n)) /\
  (forall k v n, k <> BINARY -> v <> BINARY ->
     emits (wMapBegin (binaryW strict) k v n) (k :: v :: be 4 n)) /\
  (forall name t s, 0 <= t < 256 -> emits (wMessageBegin (binaryW strict) name t s)
     (if strict then [128; 1; 0; t] ++ (be 4 (Z.of_nat (length name)) ++ name) ++ be 4 s
      else (be 4 (Z.of_nat (length name)) ++ name) ++ [t] ++ be 4 s)) /\
  (forall n, emits (wStructBegin (binaryW strict) n) []) /\
  emits (wStructEnd (binaryW strict)) [] /\ emits (wFieldEnd (binaryW strict)) [] /\
  emits (wMapEnd (binaryW strict)) [] /\ emits (wListEnd (binaryW strict)) [] /\
  emits (wSetEnd (binaryW strict)) [] /\ emits (wMessageEnd (binaryW strict)) [].
Proof. exact C02_aux. Qed.
Print Assumptions C02_binary_wire_layout.

(** BINARY (18) is announced as STRING (11). *)
Theorem C02_binary_type_announced_as_string : forall strict n id,
  emits (wFieldBegin (binaryW strict) n BINARY id) (STRING :: be 2 id).
Proof. intros. apply emits_benc, (benc_field n BINARY id). Qed.
Print Assumptions C02_binary_type_announced_as_string.

Example C02_case :
  write_val (binaryW true) (VStruct [(1, VI16 (-1)); (2, VMap BOOL STRING [(VBool true, VStr [65])])])
    (MkWt [] []) =
  Ok (None, MkWt [6; 0; 1; 255; 255; 13; 0; 2; 2; 11; 0; 0; 0; 1; 1; 0; 0; 0; 1; 65; 0] []).
Proof. vm_compute. reflexivity. Qed.

(** ** C03 *)
Lemma C03_aux : forall strictW strictR name t seqid,
  0 <= t < 256 -> Z.of_nat (length name) < 2 ^ 31 -> in_s 32 seqid ->
  strictW = true \/ strictR = false ->
  round_trip (wMessageBegin (binaryW strictW) name t seqid) (rMessageBegin (binaryR strictR))
    (name, t, seqid).
Proof.
  intros strictW strictR name t seqid Ht Hn Hs M. destruct strictW.
  - eapply rt_of; [apply benc_message_strict; assumption|apply message_strict_dec; assumption].
  - destruct M as [M| ->]; [discriminate|].
    eapply rt_of; [apply benc_message_old; assumption|apply message_old_dec; assumption].
Qed.

Theorem C03_binary_message_round_trip : forall strictW strictR name t seqid,
  0 <= t < 256 -> Z.of_nat (length name) < 2 ^ 31 -> in_s 32 seqid ->
  strictW = true \/ strictR = false ->
  round_trip (wMessageBegin (binaryW strictW) name t seqid) (rMessageBegin (binaryR strictR))
    (name, t, seqid).
Proof. exact C03_aux. Qed.
Print Assumptions C03_binary_message_round_trip.

Example C03_case :
  (exists bs, wMessageBegin (binaryW true) [112; 105] ONEWAY (-5) (MkWt [] []) = Ok (None, MkWt bs [])
   /\ rMessageBegin (binaryR true) [(bs, None)] = Ok (([112; 105], ONEWAY, -5), None, [])) /\
  (exists bs, wMessageBegin (binaryW false) [112; 105] ONEWAY (-5) (MkWt [] []) = Ok (None, MkWt bs [])
   /\ rMessageBegin (binaryR false) [(bs, None)] = Ok (([112; 105], ONEWAY, -5), None, [])).
Proof. split; eexists; (split; [vm_compute; reflexivity|vm_compute; reflexivity]). Qed.

(** ** C04 *)
Theorem C04_strict_reader_rejects : forall strict r b0 b1 b2 b3 rest,
  is_bytes [b0; b1; b2; b3] -> benign r -> content r = b0 :: b1 :: b2 :: b3 :: rest ->
  (b0, b1) <> (128, 1) -> strict = true \/ 128 <= b0 ->
  exists m r', rMessageBegin (binaryR strict) r = Ok (m, Some (EProtocol BAD_VERSION), r') /\
               content r' = rest.
Proof. exact message_bad_version. Qed.
Print Assumptions C04_strict_reader_rejects.

(** A lenient reader does accept an unversioned header, a strict one refuses the same input, and
    both refuse version 2. *)
Example C04_case :
  rMessageBegin (binaryR true) [([0; 0; 0; 1; 65; 1; 0; 0; 0; 9], None)] =
    Ok (([], 0, 0), Some (EProtocol BAD_VERSION), [([65; 1; 0; 0; 0; 9], None)]) /\
  rMessageBegin (binaryR false) [([0; 0; 0; 1; 65; 1; 0; 0; 0; 9], None)] =
    Ok (([65], 1, 9), None, []) /\
  rMessageBegin (binaryR false) [([128; 2; 0; 1], None)] =
    Ok (([], 1, 0), Some (EProtocol BAD_VERSION), []).
Proof. repeat split; vm_compute; reflexivity. Qed.

(** ** C05 *)
(** Writing a value emits its published encoding and reading that returns the value, with
    any sufficient fuel, stopping exactly at its end. *)
Definition value_round_trip (strictW strictR : bool) (v : tval) : Prop :=
  emits (write_val (binaryW strictW) v) (sb_val v) /\
  forall f r rest, (need v <= f)%nat -> benign r -> content r = sb_val v ++ rest ->
  exists r', read_val (binaryR strictR) f (vtype v) r = Ok (inl v, r') /\ benign r' /\
             content r' = rest.

Lemma C05_aux : forall sw sr v, wf v -> value_round_trip sw sr v.
Proof.
  intros sw sr v H. split; [apply emits_benc, benc_val, H|].
  intros f r rest Hf B X.
  destruct (bgood_val sr v H f Hf) as [D _].
  destruct (D r rest B eq_refl X) as (r' & R & B' & _ & X'). eauto.
Qed.
Theorem C05_binary_value_round_trip : forall strictW strictR v,
  wf v -> value_round_trip strictW strictR v.
Proof. exact C05_aux. Qed.
Print Assumptions C05_binary_value_round_trip.

Definition sample : tval :=
  VStruct [(1, VList STRUCT [VStruct [(7, VBool true)]; VStruct []]);
           (-3, VMap STRING SET [(VStr [104; 105], VSet DOUBLE [VDouble (2 ^ 63)])]);
           (300, VI64 (- 2 ^ 63)); (2, VMap I32 LIST [])].
Example C05_case : wf sample /\
  exists bs, write_val (binaryW true) sample (MkWt [] []) = Ok (None, MkWt bs []) /\
  read_val (binaryR true) (need sample) STRUCT [(firstn 9 bs, None); (skipn 9 bs ++ [42], None)] =
    Ok (inl sample, [([42], None)]).
Proof.
  split; [concrete|].
  eexists; (split; [vm_compute; reflexivity|vm_compute; reflexivity]).
Qed.

(** ** C06 *)
(** Outcomes of the same program on two transports. *)
Definition agree {X} (o1 o2 : outcome (X * rt)) : Prop :=
  match o1, o2 with
  | Ok (x1, r1), Ok (x2, r2) => x1 = x2 /\ content r1 = content r2
  | Panic, Panic => True
  | OutOfFuel, OutOfFuel => True
  | _, _ => False
  end.

Lemma C06_aux_binary : forall strict X (p : rprog X) r1 r2,
  benign r1 -> benign r2 -> content r1 = content r2 ->
  agree (run (binaryR strict) p r1) (run (binaryR strict) p r2).
Proof.
  intros strict X p r1 r2 B1 B2 E.
  pose proof (binary_run_resp strict X p r1 r2 (conj B1 (conj B2 E))) as H.
  unfold same in H. unfold agree.
  destruct (run _ p r1) as [[x1 s1]| |], (run _ p r2) as [[x2 s2]| |]; auto.
  destruct H as [H (_ & _ & H')]. auto.
Qed.
Theorem C06_binary_chunking_irrelevant : forall strict X (p : rprog X) r1 r2,
  benign r1 -> benign r2 -> content r1 = content r2 ->
  agree (run (binaryR strict) p r1) (run (binaryR strict) p r2).
Proof. exact C06_aux_binary. Qed.
Print Assumptions C06_binary_chunking_irrelevant.

Definition agree_c {X} (o1 o2 : outcome (X * cr)) : Prop :=
  match o1, o2 with
  | Ok (x1, (r1, c1)), Ok (x2, (r2, c2)) => x1 = x2 /\ content r1 = content r2 /\ c1 = c2
  | Panic, Panic => True
  | OutOfFuel, OutOfFuel => True
  | _, _ => False
  end.
Lemma C06_aux_compact : forall X (p : rprog X) c r1 r2,
  benign r1 -> benign r2 -> content r1 = content r2 ->
  agree_c (run compactR p (r1, c)) (run compactR p (r2, c)).
Proof.
  intros X p c r1 r2 B1 B2 E.
  assert (S : csim (r1, c) (r2, c)) by (split; [split; [|split]|]; auto).
  pose proof (compact_run_resp X p _ _ S) as H. unfold same in H. unfold agree_c.
  destruct (run compactR p (r1, c)) as [[x1 [s1 c1]]| |], (run compactR p (r2, c)) as [[x2 [s2 c2]]| |]; auto.
  destruct H as [H [(_ & _ & H') H'']]. auto.
Qed.
Theorem C06_compact_chunking_irrelevant : forall X (p : rprog X) c r1 r2,
  benign r1 -> benign r2 -> content r1 = content r2 ->
  agree_c (run compactR p (r1, c)) (run compactR p (r2, c)).
Proof. exact C06_aux_compact. Qed.
Print Assumptions C06_compact_chunking_irrelevant.

Definition C06_prog : rprog (Z * bytes) :=
  PCall CI32 (fun n _ => PCall CString (fun s e => PDone (n, s))).
Example C06_case :
  run (binaryR true) C06_prog [([0; 0], None); ([0; 5; 0; 0; 0; 2; 65], None); ([66; 1], None)] =
    Ok ((5, [65; 66]), [([1], None)]) /\
  run (binaryR true) C06_prog [([0], None); ([0; 0; 5; 0; 0], None); ([0; 2; 65; 66; 1], None)] =
    Ok ((5, [65; 66]), [([1], None)]).
Proof. split; vm_compute; reflexivity. Qed.

(** ** C07 *)
Lemma C07_aux : forall strict v p q f r, wf v -> sb_val v = p ++ q -> q <> [] ->
  (need v <= f)%nat -> benign r -> content r = p ->
  exists e r', read_val (binaryR strict) f (vtype v) r = Ok (inr e, r').
Proof.
  intros strict v p q f r H E N Hf B X. destruct (bgood_val strict v H f Hf) as [_ T].
  apply (T r q B eq_refl); [rewrite X; auto|assumption].
Qed.
Theorem C07_truncated_binary_reported : forall strict v p q f r,
  wf v -> sb_val v = p ++ q -> q <> [] ->
  (need v <= f)%nat -> benign r -> content r = p ->
  exists e r', read_val (binaryR strict) f (vtype v) r = Ok (inr e, r').
Proof. exact C07_aux. Qed.
Print Assumptions C07_truncated_binary_reported.

Example C07_case : sb_val sample = firstn 30 (sb_val sample) ++ skipn 30 (sb_val sample) /\
  skipn 30 (sb_val sample) <> [] /\
  read_val (binaryR true) 20 STRUCT [(firstn 30 (sb_val sample), None)] =
    Ok (inr (ETransport UNKNOWN_TRANSPORT_EXCEPTION), []).
Proof. concrete. Qed.

(** ** C08 *)
Lemma C08_aux : forall strict M v f d r rest, wf v -> (need v <= f)%nat ->
  benign r -> content r = sb_val v ++ rest ->
  exists r', skip (binaryR strict) M f (vtype v) d r = Ok (None, r') /\ benign r' /\
             content r' = rest.
Proof.
  intros strict M v f d r rest H Hf B X.
  destruct (skip_beats strict M v H f d Hf r rest B eq_refl X) as (r' & R & B' & _ & X'). eauto.
Qed.
Theorem C08_skip_binary_exact : forall strict M v f d r rest,
  wf v -> (need v <= f)%nat -> benign r -> content r = sb_val v ++ rest ->
  exists r', skip (binaryR strict) M f (vtype v) d r = Ok (None, r') /\ benign r' /\
             content r' = rest.
Proof. exact C08_aux. Qed.
Print Assumptions C08_skip_binary_exact.

Example C08_case :
  skip (binaryR true) 64 20 STRUCT 64 [(sb_val sample ++ [1; 2; 3], None)] =
    Ok (None, [([1; 2; 3], None)]).
Proof. vm_compute. reflexivity. Qed.

(** ** C09 *)
(** False as stated: a list cut off right after its header is skipped without an error. *)
Theorem C09_skip_reports_truncation_refuted : exists v p q r,
  wf v /\ sb_val v = p ++ q /\ q <> [] /\ benign r /\ content r = p /\
  skip (binaryR true) 64 10 (vtype v) 64 r = Ok (None, []).
Proof.
  exists (VList I32 [VI32 5]), [8; 0; 0; 0; 1], [0; 0; 0; 5], [([8; 0; 0; 0; 1], None)].
  concrete.
Qed.
Print Assumptions C09_skip_reports_truncation_refuted.

(** What holds: truncation inside a scalar or string is reported ... *)
Definition is_container (v : tval) : bool :=
  match v with VList _ _ | VSet _ _ | VMap _ _ _ | VStruct _ => true | _ => false end.
Lemma C09_aux : forall strict M v p q f d r,
  wf v -> is_container v = false -> sb_val v = p ++ q -> q <> [] ->
  benign r -> content r = p ->
  exists e r', skip (binaryR strict) M (S f) (vtype v) d r = Ok (Some e, r').
Proof.
  intros strict M v p q f d r H C E N B X. symmetry in E. rewrite <- X in E.
  destruct v; try discriminate; cbn [sb_val] in E;
    (eapply trunc_skip_scalar; [|exact B|exact E|exact N]).
  - apply btrunc_bool.
  - apply btrunc_byte.
  - apply btrunc_i16.
  - apply btrunc_i32.
  - apply btrunc_i64.
  - apply btrunc_double.
  - apply btrunc_string, H.
Qed.
Theorem C09_skip_reports_truncation_partial : forall strict M v p q f d r,
  wf v -> is_container v = false -> sb_val v = p ++ q -> q <> [] ->
  benign r -> content r = p ->
  exists e r', skip (binaryR strict) M (S f) (vtype v) d r = Ok (Some e, r').
Proof. exact C09_aux. Qed.
Print Assumptions C09_skip_reports_truncation_partial.
(** ... and no struct, however broken the input, ever yields an error. *)
Theorem C09_skip_struct_never_reports : forall strict M f d r e r',
  skip (binaryR strict) M f STRUCT d r = Ok (e, r') -> e = None.
Proof. exact skip_struct_silent. Qed.
Print Assumptions C09_skip_struct_never_reports.
Theorem C09_skip_list_reports_header_only : forall strict M f d r e r',
  skip (binaryR strict) M f LIST d r = Ok (e, r') ->
  exists h e1 r1, rListBegin (binaryR strict) r = Ok (h, e1, r1) /\ (e <> None <-> e1 <> None).
Proof. exact skip_list_header. Qed.
Print Assumptions C09_skip_list_reports_header_only.
(** The part of an encoding whose truncation a skip reports: all of a scalar or string, the
    header of a container, nothing of a struct. *)
Definition reported_part (v : tval) : nat :=
  match v with
  | VList _ _ | VSet _ _ => 5
  | VMap _ _ _ => 6
  | VStruct _ => 0
  | _ => length (sb_val v)
  end.
Lemma cut_header : forall A (m : rop rt A) (hd rest : bytes) a (r : rt) q,
  bdec (hlift m) hd a -> btrunc (hlift m) hd -> benign r -> content r ++ q = hd ++ rest -> q <> [] ->
  forall x e r1, m r = Ok (x, e, r1) -> (e <> None <-> (length (content r) < length hd)%nat).
Proof.
  intros A m hd rest a r q D T B X N x e r1 R.
  destruct (Nat.lt_ge_cases (length (content r)) (length hd)) as [L|L].
  - split; [intros _; exact L|intros _].
    assert (P : exists q', content r ++ q' = hd /\ q' <> []).
    { exists (skipn (length (content r)) hd).
      assert (E : firstn (length (content r)) hd = content r).
      { apply (f_equal (firstn (length (content r)))) in X.
        rewrite firstn_app, firstn_all, Nat.sub_diag in X. cbn [firstn] in X. rewrite app_nil_r in X.
        rewrite firstn_app in X. replace (length (content r) - length hd)%nat with O in X by lia.
        cbn [firstn] in X. rewrite app_nil_r in X. symmetry. exact X. }
      split; [rewrite <- E at 1; apply firstn_skipn|].
      intro Z0. apply (f_equal (@length Z)) in Z0. rewrite skipn_length in Z0. cbn in Z0. lia. }
    destruct P as (q' & X' & N'). destruct (T r q' B eq_refl X' N') as (e' & r' & R').
    unfold hlift in R'. rewrite R in R'. cbn in R'. destruct e; [discriminate|discriminate].
  - split; [|lia]. intros E. exfalso.
    assert (P : exists p, content r = hd ++ p).
    { exists (skipn (length hd) (content r)).
      apply (f_equal (firstn (length hd))) in X. rewrite firstn_app in X.
      replace (length hd - length (content r))%nat with O in X by lia. cbn [firstn] in X.
      rewrite app_nil_r in X. rewrite firstn_app, firstn_all, Nat.sub_diag in X. cbn [firstn] in X.
      rewrite app_nil_r in X. rewrite <- X at 1. symmetry. apply firstn_skipn. }
    destruct P as (p & X'). destruct (bdec_inv _ _ _ _ D r p B X') as (r' & R' & _).
    rewrite R in R'. congruence.
Qed.
Theorem C09_exact : forall strict M v p q f d r e r',
  wf v -> sb_val v = p ++ q -> q <> [] -> benign r -> content r = p ->
  skip (binaryR strict) M f (vtype v) d r = Ok (e, r') ->
  (e <> None <-> (length p < reported_part v)%nat).
Proof.
  intros strict M v p q f d r e r' W E N B X R. destruct f as [|f]; [discriminate|].
  destruct (is_container v) eqn:C.
  - subst p. symmetry in E. destruct v; try discriminate C; cbn [sb_val reported_part] in *.
    + destruct W as (T & L & _). pose proof (len_in_s32 _ L) as L'.
      change (vtype (VList et l)) with LIST in R. rewrite skip_list in R.
      cbn [rListBegin rListEnd binaryR] in R.
      destruct (bReadListBegin r) as [[[[t n] e1] r1]| |] eqn:H; cbn [obind] in R; try discriminate.
      pose proof (cut_header _ _ _ _ _ _ _ (bdec_list et _ L') (btrunc_list et _ L') B E N _ _ _ H) as I.
      change (length (sb_list et (Z.of_nat (length l)))) with 5%nat in I. rewrite <- I.
      destruct e1; [injection R; intros; subst; reflexivity|].
      destruct (repeat_ignoring _ _ _) in R; cbn in R; try discriminate. injection R; intros; subst.
      reflexivity.
    + destruct W as (T & L & _). pose proof (len_in_s32 _ L) as L'.
      change (vtype (VSet et l)) with SET in R. rewrite skip_set in R.
      cbn [rSetBegin rSetEnd binaryR] in R.
      destruct (bReadSetBegin r) as [[[[t n] e1] r1]| |] eqn:H; cbn [obind] in R; try discriminate.
      pose proof (cut_header _ _ _ _ _ _ _ (bdec_list et _ L') (btrunc_list et _ L') B E N _ _ _ H) as I.
      change (length (sb_list et (Z.of_nat (length l)))) with 5%nat in I. rewrite <- I.
      destruct e1; [injection R; intros; subst; reflexivity|].
      destruct (repeat_ignoring _ _ _) in R; cbn in R; try discriminate. injection R; intros; subst.
      reflexivity.
    + destruct W as (T & T2 & L & _). pose proof (len_in_s32 _ L) as L'.
      change (vtype (VMap kt vt l)) with MAP in R. rewrite skip_map in R.
      cbn [rMapBegin rMapEnd binaryR] in R.
      destruct (bReadMapBegin r) as [[[[[kt0 vt0] n] e1] r1]| |] eqn:H; cbn [obind] in R; try discriminate.
      pose proof (cut_header _ _ _ _ _ _ _ (bdec_map kt vt _ L') (btrunc_map kt vt _ L') B E N _ _ _ H) as I.
      change (length (sb_map kt vt (Z.of_nat (length l)))) with 6%nat in I. rewrite <- I.
      destruct e1; [injection R; intros; subst; reflexivity|].
      destruct (repeat_ignoring _ _ _) in R; cbn in R; try discriminate. injection R; intros; subst.
      reflexivity.
    + apply skip_struct_silent in R. subst. split; [congruence|lia].
  - destruct (C09_aux strict M v p q f d r W C E N B X) as (e' & r'' & R'). rewrite R in R'.
    injection R'; intros; subst. split; [intros _|discriminate].
    replace (reported_part v) with (length (sb_val v)) by (destruct v; try discriminate C; reflexivity).
    rewrite E, app_length. destruct q; [congruence|cbn; lia].
Qed.
Print Assumptions C09_exact.
Example C09_exact_ex :
  let v := VMap I32 (LIST) [(VI32 5, VList BYTE [VByte 1])] in
  wf v /\ reported_part v = 6%nat /\
  (exists r', skip (binaryR true) 64 10 MAP 64 [([8; 15; 0; 0; 0], None)] = Ok (Some (ETransport 0), r')) /\
  (exists r', skip (binaryR true) 64 10 MAP 64 [([8; 15; 0; 0; 0; 1; 0; 0; 0; 5; 3; 0], None)] = Ok (None, r')).
Proof.
  cbv zeta. split; [concrete|]. split; [reflexivity|].
  split; eexists; vm_compute; reflexivity.
Qed.

Example C09_case :
  skip (binaryR true) 64 1 STRING 64 [([0; 0; 0; 3; 65], None)] =
    Ok (Some (ETransport 0), []) /\
  skip (binaryR true) 64 3 STRUCT 64 [] = Ok (None, []).
Proof. split; vm_compute; reflexivity. Qed.

(** ** C10 *)
Fixpoint vdepth (v : tval) : nat :=
  match v with
  | VList _ l | VSet _ l => S (max_list (map vdepth l))
  | VMap _ _ l => S (max_list (map (fun kv => Nat.max (vdepth (fst kv)) (vdepth (snd kv))) l))
  | VStruct fs => S (max_list (map (fun f => vdepth (snd f)) fs))
  | _ => 1
  end.
Theorem C10_skip_depth_limit_refuted : exists limit v r,
  wf v /\ (Z.to_nat limit < vdepth v)%nat /\ benign r /\ content r = sb_val v /\
  skip (binaryR true) limit 10 (vtype v) limit r = Ok (None, []).
Proof.
  exists 2, (VList LIST [VList LIST [VList BOOL [VBool true]]]),
    [([15; 0; 0; 0; 1; 15; 0; 0; 0; 1; 2; 0; 0; 0; 1; 1], None)].
  concrete. cbn; lia.
Qed.
Print Assumptions C10_skip_depth_limit_refuted.
(** In fact no limit has any effect at all. *)
Theorem C10_skip_depth_ignored : forall strict limit limit' f t d d' r,
  skip (binaryR strict) limit f t d r = skip (binaryR strict) limit' f t d' r.
Proof.
  intros strict limit limit'.
  assert (G : forall f, (forall t d d' r, skip (binaryR strict) limit f t d r
                                        = skip (binaryR strict) limit' f t d' r) /\
                        (forall d d' r, skip_fields (binaryR strict) limit f d r
                                        = skip_fields (binaryR strict) limit' f d' r)).
  { assert (RI : forall n (b1 b2 : wop rt), (forall s, b1 s = b2 s) ->
               forall s, repeat_ignoring n b1 s = repeat_ignoring n b2 s).
    { induction n as [|n IH]; intros b1 b2 H s; cbn [repeat_ignoring]; [reflexivity|].
      rewrite H. destruct (b2 s) as [[e s']| |]; cbn; [apply IH, H|reflexivity|reflexivity]. }
    induction f as [|f [IHs IHf]]; [split; reflexivity|]. split.
    - intros t d d' r. cbn [skip].
      repeat match goal with
      | |- (if ?c then _ else _) = _ => destruct c; [try reflexivity|]
      end; try reflexivity.
      + cbn [binaryR rStructBegin obind]. rewrite (IHf d d'). reflexivity.
      + destruct (rMapBegin (binaryR strict) r) as [[[[[k v] n] [e|]] r1]| |]; cbn [obind]; auto.
        erewrite RI; [reflexivity|]. intro s. cbn beta.
        rewrite (IHs k (d - 1) (d' - 1) s).
        destruct (skip (binaryR strict) limit' f k (d' - 1) s) as [[e' s']| |]; cbn [obind]; auto.
      + destruct (rSetBegin (binaryR strict) r) as [[[[k n] [e|]] r1]| |]; cbn [obind]; auto.
        erewrite RI; [reflexivity|]. intro s. apply IHs.
      + destruct (rListBegin (binaryR strict) r) as [[[[k n] [e|]] r1]| |]; cbn [obind]; auto.
        erewrite RI; [reflexivity|]. intro s. apply IHs.
    - intros d d' r. rewrite !skip_fields_S.
      destruct (rFieldBegin (binaryR strict) r) as [[[[[nm t] id] e] r1]| |]; cbn [obind]; auto.
      destruct (t =? STOP); [reflexivity|].
      rewrite (IHs t (d - 1) (d' - 1) r1).
      destruct (skip (binaryR strict) limit' f t (d' - 1) r1) as [[e' s']| |]; cbn [obind]; auto.
      cbn. apply IHf. }
  intros. apply G.
Qed.
Print Assumptions C10_skip_depth_ignored.
(** The limit 0 does not stop a nesting of three. *)
Example C10_case :
  skip (binaryR true) 0 10 LIST 0
    [([15; 0; 0; 0; 1; 15; 0; 0; 0; 1; 2; 0; 0; 0; 1; 1; 99], None)] = Ok (None, [([99], None)]).
Proof. vm_compute. reflexivity. Qed.

(** ** C11 *)
Theorem C11_binary_malformed_length_refuted : exists r,
  benign r /\ is_bytes (content r) /\ rBinary (binaryR true) r = Panic.
Proof.
  exists [([255; 255; 255; 255], None)]. concrete.
Qed.
Print Assumptions C11_binary_malformed_length_refuted.
(** Negative sizes are handed on without an error. *)
Theorem C11_binary_negative_size_refuted : exists r,
  benign r /\ is_bytes (content r) /\
  rString (binaryR true) r = Ok ([], None, [([7; 7], None)]) /\
  rListBegin (binaryR true) (([8], None) :: r) = Ok ((8, -1), None, [([7; 7], None)]).
Proof.
  exists [([255; 255; 255; 255], None); ([7; 7], None)].
  concrete.
Qed.
Print Assumptions C11_binary_negative_size_refuted.

Definition not_binary_or_skip {A} (c : rcall A) : Prop :=
  match c with CBinary | CSkip _ _ _ _ => False | _ => True end.
Lemma C11_aux : forall strict A (c : rcall A) r, not_binary_or_skip c ->
  exists a e r', call (binaryR strict) c r = Ok (a, e, r').
Proof.
  intros strict A c r H. destruct c; cbn [not_binary_or_skip] in H; try contradiction;
    cbn [call binaryR rMessageBegin rMessageEnd rStructBegin rStructEnd rFieldBegin rFieldEnd
         rMapBegin rMapEnd rListBegin rListEnd rSetBegin rSetEnd rBool rByte rI16 rI32 rI64
         rDouble rString rBinary]; try (eexists _, _, _; reflexivity).
  - unfold bReadMessageBegin. destruct (bReadI32_mono r) as (n & e & r1 & -> & _). cbn [obind].
    destruct e; [eauto|]. destruct (n <? 0).
    + destruct (negb _); [eauto|]. destruct (bString_mono r1) as (s & e & r2 & -> & _). cbn [obind].
      destruct e; [eauto|]. destruct (bReadI32_mono r2) as (n3 & e & r3 & -> & _). cbn. eauto.
    + destruct strict; [eauto|]. destruct (body_mono n r1) as (s & e & r2 & -> & _). cbn [obind].
      destruct e; [eauto|]. destruct (bReadByte_mono r2) as (b & e & r3 & -> & _). cbn [obind].
      destruct e; [eauto|]. destruct (bReadI32_mono r3) as (n3 & e & r4 & -> & _). cbn. eauto.
  - destruct (bField_mono r) as (? & ? & ? & ? & ? & -> & _). eauto.
  - destruct (bMap_mono r) as (? & ? & ? & ? & ? & -> & _). eauto.
  - destruct (bList_mono r) as (? & ? & ? & ? & -> & _). eauto.
  - rewrite set_list. destruct (bList_mono r) as (? & ? & ? & ? & -> & _). eauto.
  - destruct (bReadBool_mono r) as (? & ? & ? & -> & _). eauto.
  - destruct (bReadByte_mono r) as (? & ? & ? & -> & _). eauto.
  - destruct (bReadI16_mono r) as (? & ? & ? & -> & _). eauto.
  - destruct (bReadI32_mono r) as (? & ? & ? & -> & _). eauto.
  - unfold bReadI64. destruct (b_readAll_mono 8 r) as (? & ? & ? & ? & -> & _). cbn. eauto.
  - unfold bReadDouble. destruct (b_readAll_mono 8 r) as (? & ? & ? & ? & -> & _). cbn. eauto.
  - destruct (bString_mono r) as (? & ? & ? & -> & _). eauto.
Qed.
(** What holds: on every transport whatsoever each read other than ReadBinary returns, and
    ReadBinary panics only on a negative length (missing: that last case). *)
Theorem C11_binary_reads_total_partial : forall strict A (c : rcall A) r,
  not_binary_or_skip c -> exists a e r', call (binaryR strict) c r = Ok (a, e, r').
Proof. exact C11_aux. Qed.
Print Assumptions C11_binary_reads_total_partial.
Lemma C11_aux2 : forall strict r,
  (exists a e r', rBinary (binaryR strict) r = Ok (a, e, r')) \/
  (exists n r', rI32 (binaryR strict) r = Ok (n, None, r') /\ n < 0).
Proof.
  intros strict r. cbn [binaryR rBinary rI32]. unfold bReadBinary.
  destruct (bReadI32_mono r) as (n & e & r1 & -> & _). cbn [obind]. destruct e; [left; eauto|].
  destruct (n <? 0) eqn:E; [right; exists n, r1; split; [reflexivity|lia]|].
  left. destruct (read_all (Z.to_nat n) r1) as [[[c b] e] r2]. eauto.
Qed.
Theorem C11_read_binary_partial : forall strict r,
  (exists a e r', rBinary (binaryR strict) r = Ok (a, e, r')) \/
  (exists n r', rI32 (binaryR strict) r = Ok (n, None, r') /\ n < 0).
Proof. exact C11_aux2. Qed.
Print Assumptions C11_read_binary_partial.
Example C11_case :
  call (binaryR true) CMapBegin [([13; 12], Some (EOther 3)); ([], None)] =
    Ok ((13, 0, 0), Some (EProtocol 0), [([], None)]) /\
  call (binaryR true) CString [([255; 0; 0; 0], None)] = Ok ([], None, []).
Proof. split; vm_compute; reflexivity. Qed.

(** ** C12 *)
Theorem C12_skip_binary_terminates : forall strict M f t d r,
  (2 * length (content r) + 2 <= f)%nat ->
  exists e r', skip (binaryR strict) M f t d r = Ok (e, r') /\
               (length (content r') <= length (content r))%nat.
Proof. exact skip_binary_term. Qed.
Print Assumptions C12_skip_binary_terminates.
(** Garbage with an empty read and an error in the middle. *)
Example C12_case :
  skip (binaryR true) 64 100 STRUCT 64
    [([13; 0; 1; 15; 14], None); ([0; 0; 0; 2], Some (EOther 5)); ([1; 2; 3], None); ([], None); ([9], None)] =
  Ok (None, [([9], None)]).
Proof. vm_compute. reflexivity. Qed.
