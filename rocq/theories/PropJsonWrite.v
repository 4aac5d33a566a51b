(** C68: write errors of the JSON protocols. *)
From Coq Require Import ZArith List Bool Lia String.
From Verif Require Import Base Arith Errors Transport TransportProofs Proto JsonText Strconv F64 GoVal Names
  Json WriteErr PropJson.
Import ListNotations.
Local Open Scope list_scope.
Local Notation length := List.length.
Open Scope Z_scope.

Notation jgood := (ugood (@fst wt (list ctx)) wrapped).

Lemma with_ctx_good : forall (k : ctx -> wop jw), (forall c, jgood (k c)) -> jgood (with_ctx k).
Proof. intros k H [w l] e s' E. unfold with_ctx in E. cbn [snd] in E. destruct l as [|c l]; [discriminate|]. exact (H c _ _ _ E). Qed.
Lemma out_raw_good : forall bs, jgood (out_raw bs).
Proof.
  intros bs [w l] e [w' l'] H. unfold out_raw in H. destruct (twrite bs w) as [[n e1] w1] eqn:T.
  injection H as <- <- <-. apply twrite_used in T. eapply used_wrap; [|exact T]. auto.
Qed.
Lemma out_data_good : forall bs, jgood (OutputStringData bs).
Proof.
  intros bs [w l] e [w' l'] H. unfold OutputStringData in H. destruct (copy_n bs w) as [e1 w1] eqn:T.
  injection H as <- <- <-. apply copy_blocks_used in T. eapply used_wrap; [|exact T]. auto.
Qed.
Lemma pre_good : jgood OutputPreValue.
Proof. apply with_ctx_good. intros []; first [apply out_raw_good|apply ugood_nop]. Qed.
Lemma post_good : jgood OutputPostValue.
Proof. apply with_ctx_good. intros c [w l] e s' H. injection H as <- <-. apply used_refl. Qed.
Lemma push_good : forall c, jgood (push c).
Proof. intros c [w l] e s' H. injection H as <- <-. apply used_refl. Qed.
Lemma pop_good : jgood pop.
Proof. intros [w [|c l]] e s' H; [discriminate|]. injection H as <- <-. apply used_refl. Qed.
Lemma out_op_good : forall f, (forall w e w', f w = (e, w') -> used eq w e w') -> jgood (out_op f).
Proof.
  intros f Hf [w l] e [w' l'] H. unfold out_op in H. destruct (f w) as [e1 w1] eqn:T.
  injection H as <- <- <-. eapply used_wrap; [|apply Hf, T]. auto.
Qed.
Lemma b64_write_used : forall n v w e w', b64_write n v w = (e, w') -> used eq w e w'.
Proof.
  induction n as [|n IH]; intros v w e w' H; cbn [b64_write] in H; [injection H as <- <-; apply used_refl|].
  destruct (length v <? 3)%nat; [injection H as <- <-; apply used_refl|].
  destruct (twrite _ w) as [[m e1] w1] eqn:T. apply twrite_used in T.
  destruct e1; [injection H as <- <-; exact T|]. eapply used_trans; [exact T|eapply IH, H].
Qed.
Lemma b64_close_used : forall v w e w', b64_close v w = (e, w') -> used eq w e w'.
Proof.
  intros v w e w' H. unfold b64_close in H.
  destruct (b64_rest v) as [|c r]; [injection H as <- <-; apply used_refl|].
  destruct (twrite _ w) as [[m e1] w1] eqn:T. injection H as <- <-. eapply twrite_used, T.
Qed.
Ltac jg := repeat first
  [ apply ugood_seq | apply ugood_nop | apply pre_good | apply post_good | apply push_good | apply pop_good
  | apply out_raw_good | apply out_data_good
  | apply out_op_good; intros ? ? ?; first [apply b64_write_used|apply b64_close_used]
  | apply with_ctx_good; intros ? ].
Lemma bool_good : forall J b, jgood (OutputBool J b). Proof. intros. unfold OutputBool. jg. Qed.
Lemma f64_good : forall J b, jgood (OutputF64 J b). Proof. intros. unfold OutputF64. jg. Qed.
Lemma i64_good : forall J b, jgood (OutputI64 J b). Proof. intros. unfold OutputI64. jg. Qed.
Lemma string_good : forall J b, jgood (OutputString J b). Proof. intros. unfold OutputString. jg. Qed.

Theorem json_write_used : forall J c,
  jgood (wexec (simpleW J) c) /\ (match c with WcBinary _ => False | _ => True end -> jgood (wexec (jsonW J) c)).
Proof.
  intros J c. split; [|intros Hc]; destruct c; try destruct Hc; cbn [wexec simpleW jsonW wMessageBegin wMessageEnd wStructBegin wStructEnd
    wFieldBegin wFieldEnd wFieldStop wMapBegin wMapEnd wListBegin wListEnd wSetBegin wSetEnd
    wBool wByte wI16 wI32 wI64 wDouble wString wBinary];
  unfold OutputListBegin, OutputListEnd, OutputObjectBegin, OutputObjectEnd, OutputElemListBegin, OutputListBegin,
    sWriteBinary, WriteByte, WriteI16, WriteI32, WriteI64;
  repeat first [apply bool_good|apply f64_good|apply i64_good|apply string_good|jg].
Qed.

(** ** C68 *)
(** From [w] to [w'] every Write of the transport succeeded if there is no error; otherwise
    all but the last succeeded, the last failed with [e0] and [x] is what [e0] is turned into. *)
Theorem C68_simple_json : forall J c w l e w' l',
  wexec (simpleW J) c (w, l) = Ok (e, (w', l')) ->
  (exists out, w_out w' = w_out w ++ out) /\
  match e with
  | None => exists pre, Forall (eq WOk) pre /\ w_sched w = pre ++ w_sched w'
  | Some x => exists pre k e0, Forall (eq WOk) pre /\
                w_sched w = pre ++ WFail k e0 :: w_sched w' /\
                protocol_exc_from_os (Some e0) = Some x
  end.
Proof. intros J c w l e w' l' H. exact (proj1 (json_write_used J c) _ _ _ H). Qed.
Print Assumptions C68_simple_json.

(** TJSONProtocol, every call but WriteBinary. *)
Theorem C68_json_partial : forall J c w l e w' l',
  match c with WcBinary _ => False | _ => True end ->
  wexec (jsonW J) c (w, l) = Ok (e, (w', l')) ->
  (exists out, w_out w' = w_out w ++ out) /\
  match e with
  | None => exists pre, Forall (eq WOk) pre /\ w_sched w = pre ++ w_sched w'
  | Some x => exists pre k e0, Forall (eq WOk) pre /\
                w_sched w = pre ++ WFail k e0 :: w_sched w' /\
                protocol_exc_from_os (Some e0) = Some x
  end.
Proof. intros J c w l e w' l' Hc H. exact (proj2 (json_write_used J c) Hc _ _ _ H). Qed.
Print Assumptions C68_json_partial.

(** TJSONProtocol.WriteBinary says nothing when all its Writes fail. *)
Theorem C68_json_binary_refuted : exists v w w' l',
  length v = 2%nat /\
  wexec (jsonW J0) (WcBinary v) (json_w w) = Ok (None, (w', l')) /\
  w_sched w = [WFail 0 (ETransport NOT_OPEN); WFail 0 (ETransport NOT_OPEN); WFail 0 (ETransport NOT_OPEN)] /\ w_sched w' = [] /\
  w_out w = [] /\ w_out w' = [].
Proof.
  exists [1; 2], (MkWt [] [WFail 0 (ETransport NOT_OPEN); WFail 0 (ETransport NOT_OPEN); WFail 0 (ETransport NOT_OPEN)]).
  eexists _, _. split; [reflexivity|]. split; [vm_compute; reflexivity|]. repeat split; reflexivity.
Qed.
Print Assumptions C68_json_binary_refuted.

(** The second of three Writes fails. *)
Example C68_ex : exists w',
  wexec (simpleW J0) (WcI32 7) (MkWt [] [WOk; WFail 0 EEof; WOk], [InList]) = Ok (Some (EProtocol UNKNOWN_PROTOCOL_EXCEPTION), (w', [InList])) /\
  w_out w' = [44] /\ w_sched w' = [WOk] /\
  wexec (jsonW J0) (WcI32 7) (MkWt [] [WOk; WFail 0 EEof; WOk], [InList]) = Ok (Some (EProtocol UNKNOWN_PROTOCOL_EXCEPTION), (w', [InList])).
Proof. eexists. split; [vm_compute; reflexivity|]. repeat split; vm_compute; reflexivity. Qed.
