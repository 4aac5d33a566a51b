(** Properties of ReadAll, error classification and write errors: C26, C42, C61. *)
From Coq Require Import ZArith List Bool Lia.
From Verif Require Import Base Errors Transport Proto TransportProofs Binary Compact WriteErr WfDec.
Import ListNotations.
Open Scope Z_scope.

(** ** C26 *)
(** False for transports that may return (0, nil): ReadAll then stops, short and without
    error. *)
Theorem C26_read_all_refuted : exists n r buf r',
  read_all n r = (0, buf, None, r') /\ n = 4%nat /\ buf <> firstn n (content r) /\
  content r = [1; 2; 3; 4; 5].
Proof.
  exists 4%nat, [([1; 2], None); ([], None); ([3; 4; 5], None)], [1; 2; 0; 0], [([3; 4; 5], None)].
  concrete.
Qed.
Print Assumptions C26_read_all_refuted.

(** No Read returns (0, nil). *)
Definition no_empty_reads (r : rt) : Prop := Forall (fun ev => ev <> ([], None)) r.

Lemma read_all_loop_no_empty : forall r n got e c d r',
  no_empty_reads r -> read_all_loop n got e r = (c, d, None, r') ->
  c = Z.of_nat (got + n) /\ length d = n.
Proof.
  induction r as [|[bs e0] r IH]; intros n got e c d r' N H.
  - destruct n; cbn in H; inversion H; subst. rewrite Nat.add_0_r. auto.
  - inversion N as [|? ? N1 N2]; subst. destruct n as [|n].
    + cbn in H. inversion H; subst. rewrite Nat.add_0_r. auto.
    + cbn [read_all_loop] in H. destruct bs as [|b bs].
      * destruct e0; [discriminate|]. destruct (N1 eq_refl).
      * destruct (S n <? length (b :: bs))%nat eqn:E.
        -- apply Nat.ltb_lt in E. pinj H. subst c d r'.
           rewrite firstn_length_le by lia. auto.
        -- apply Nat.ltb_ge in E.
           destruct (read_all_loop (S n - length (b :: bs)) (got + length (b :: bs)) e0 r)
             as [[[c1 d1] e1] r1] eqn:R. pinj H. subst c d e1 r'.
           apply IH in R; [|assumption]. destruct R as [R1 R2]. rewrite app_length, R2, R1.
           split; [f_equal|]; lia.
Qed.

Lemma C26_aux : forall r n c buf e r', no_empty_reads r ->
  read_all n r = (c, buf, e, r') ->
  (e = None -> c = Z.of_nat n /\ length buf = n /\ content r = buf ++ content r') /\
  (c = Z.of_nat n \/ c = 0) /\ length buf = n /\
  exists d, content r = d ++ content r' /\ buf = pad n d.
Proof.
  intros r n c buf e r' N H. pose proof (read_all_any _ _ _ _ _ _ H) as (d & C & B & L & D).
  assert (Hl : length buf = n) by (subst buf; unfold pad; rewrite app_length, repeat_length; lia).
  split; [|split; [|split]].
  - intros ->. unfold read_all in H.
    destruct (read_all_loop n 0 None r) as [[[c1 d1] e1] r1] eqn:R. pinj H. subst c buf e1 r'.
    apply read_all_loop_no_empty in R as R'; try assumption. destruct R' as [R1 R2].
    split; [exact R1|]. split; [assumption|].
    rewrite pad_exact by assumption. apply read_all_loop_any in R. tauto.
  - tauto.
  - assumption.
  - eauto.
Qed.
(** Without (0, nil) reads: success means the buffer is full of exactly the next bytes; in
    every case nothing is lost or invented (missing: transports with (0, nil) reads). *)
Theorem C26_read_all_partial : forall r n c buf e r', no_empty_reads r ->
  read_all n r = (c, buf, e, r') ->
  (e = None -> c = Z.of_nat n /\ length buf = n /\ content r = buf ++ content r') /\
  (c = Z.of_nat n \/ c = 0) /\ length buf = n /\
  exists d, content r = d ++ content r' /\ buf = pad n d.
Proof. exact C26_aux. Qed.
Print Assumptions C26_read_all_partial.
(** And a stream that delivers without failing always succeeds, a short one always fails. *)
Theorem C26_read_all_complete : forall r n, benign r ->
  exists r', benign r' /\
    if (n <=? length (content r))%nat
    then read_all n r = (Z.of_nat n, firstn n (content r), None, r')
         /\ content r' = skipn n (content r)
    else read_all n r = (0, pad n (content r), Some (ETransport UNKNOWN_TRANSPORT_EXCEPTION), r')
         /\ content r' = [].
Proof. exact read_all_benign. Qed.
Print Assumptions C26_read_all_complete.
Example C26_case :
  no_empty_reads [([1; 2], None); ([3], None); ([4; 5], Some (EOther 1))] /\
  read_all 4 [([1; 2], None); ([3], None); ([4; 5], Some (EOther 1))] =
    (4, [1; 2; 3; 4], None, [([5], Some (EOther 1))]) /\
  read_all 5 [([1; 2], None); ([3], None); ([4; 5], Some (EOther 1))] =
    (5, [1; 2; 3; 4; 5], Some (EOther 1), []).
Proof. split; [repeat constructor; discriminate|]. concrete. Qed.

(** ** C42 *)
(** False: the end of the input while reading a field is reported as BAD_VERSION. *)
Theorem C42_classification_refuted : exists e e1,
  transport_exc_from_os (Some EEof) = Some e /\ e = ETransport END_OF_FILE /\
  protocol_exc_from_os (Some e) = Some e1 /\
  protocol_exc_wrap e1 = EProtocol BAD_VERSION.
Proof. exists (ETransport END_OF_FILE), (ETransport END_OF_FILE). concrete. Qed.
Print Assumptions C42_classification_refuted.

(** The class and code an error carries; [None] for errors of other packages. *)
Definition class (e : err) : option (bool * Z) :=
  match e with ETransport t => Some (true, t) | EProtocol t => Some (false, t) | _ => None end.

Lemma C42_aux :
  (forall e, transport_exc_from_os e = None <-> e = None) /\
  (forall e, protocol_exc_from_os e = None <-> e = None) /\
  (forall e, protocol_exc_from_transport e = None <-> e = None) /\
  transport_exc_from_os (Some EEof) = Some (ETransport END_OF_FILE) /\
  protocol_exc_from_os (Some EBase64) = Some (EProtocol INVALID_DATA) /\
  (forall e k, class e = Some k -> transport_exc_from_os (Some e) = Some e /\
                                   protocol_exc_from_os (Some e) = Some e /\
                                   protocol_exc_from_transport (Some e) = Some e) /\
  (forall e, class e = None ->
     (exists t, transport_exc_from_os (Some e) = Some (ETransport t)) /\
     (exists t, protocol_exc_from_os (Some e) = Some (EProtocol t))) /\
  (forall t, protocol_exc_wrap (EProtocol t) =
     EProtocol (if t =? UNKNOWN_PROTOCOL_EXCEPTION then INVALID_DATA else t)).
Proof.
  repeat match goal with |- _ /\ _ => split end.
  - intros [[]|]; split; intro; cbn in *; congruence.
  - intros [[]|]; split; intro; cbn in *; congruence.
  - intros [[]|]; split; intro; cbn in *; congruence.
  - reflexivity.
  - reflexivity.
  - intros [] k H; cbn in *; try discriminate; auto.
  - intros [] H; cbn in *; try discriminate; split; eauto.
  - reflexivity.
Qed.
(** What holds (missing: the last clause of the claim, refuted above). *)
Theorem C42_classification_partial :
  (forall e, transport_exc_from_os e = None <-> e = None) /\
  (forall e, protocol_exc_from_os e = None <-> e = None) /\
  (forall e, protocol_exc_from_transport e = None <-> e = None) /\
  transport_exc_from_os (Some EEof) = Some (ETransport END_OF_FILE) /\
  protocol_exc_from_os (Some EBase64) = Some (EProtocol INVALID_DATA) /\
  (forall e k, class e = Some k -> transport_exc_from_os (Some e) = Some e /\
                                   protocol_exc_from_os (Some e) = Some e /\
                                   protocol_exc_from_transport (Some e) = Some e) /\
  (forall e, class e = None ->
     (exists t, transport_exc_from_os (Some e) = Some (ETransport t)) /\
     (exists t, protocol_exc_from_os (Some e) = Some (EProtocol t))) /\
  (forall t, protocol_exc_wrap (EProtocol t) =
     EProtocol (if t =? UNKNOWN_PROTOCOL_EXCEPTION then INVALID_DATA else t)).
Proof. exact C42_aux. Qed.
Print Assumptions C42_classification_partial.
Example C42_case : class (EProtocol NEGATIVE_SIZE) = Some (false, 2) /\
  protocol_exc_from_os (Some (ETransport TIMED_OUT)) = Some (ETransport TIMED_OUT) /\
  protocol_exc_wrap (EProtocol NEGATIVE_SIZE) = EProtocol NEGATIVE_SIZE.
Proof. concrete. Qed.

(** ** C61 *)
(** From [w] to [w'] every Write of the transport succeeded if there is no error; otherwise
    all but the last succeeded, the last failed with [e0] and [x] is what [e0] is turned into. *)
Theorem C61_binary_write_errors : forall strict c w e w',
  wexec (binaryW strict) c w = Ok (e, w') ->
  (exists out, w_out w' = w_out w ++ out) /\
  match e with
  | None => exists pre, Forall (eq WOk) pre /\ w_sched w = pre ++ w_sched w'
  | Some x => exists pre k e0, Forall (eq WOk) pre /\
                w_sched w = pre ++ WFail k e0 :: w_sched w' /\
                protocol_exc_from_os (Some e0) = Some x
  end.
Proof. exact binary_write_used. Qed.
Print Assumptions C61_binary_write_errors.
Theorem C61_compact_write_errors : forall c w e w',
  wexec compactW c w = Ok (e, w') ->
  (exists out, w_out (fst w') = w_out (fst w) ++ out) /\
  match e with
  | None => exists pre, Forall (eq WOk) pre /\ w_sched (fst w) = pre ++ w_sched (fst w')
  | Some x => exists pre k e0, Forall (eq WOk) pre /\
                w_sched (fst w) = pre ++ WFail k e0 :: w_sched (fst w') /\
                protocol_exc_from_os (Some e0) = Some x
  end.
Proof. exact compact_write_used. Qed.
Print Assumptions C61_compact_write_errors.
Example C61_case :
  wexec (binaryW true) (WcMapBegin BOOL I32 3) (MkWt [] [WOk; WOk; WFail 2 (EOther 7); WOk]) =
    Ok (Some (EProtocol UNKNOWN_PROTOCOL_EXCEPTION), MkWt [2; 8; 0; 0] [WOk]) /\
  wexec compactW (WcListBegin BOOL 3) (MkWt [] [WFail 0 (ETransport NOT_OPEN); WOk], cinit) =
    Ok (Some (ETransport NOT_OPEN), (MkWt [] [WOk], cinit)).
Proof. concrete. Qed.
