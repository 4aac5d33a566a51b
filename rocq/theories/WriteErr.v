(** Write operations over a transport whose Write calls may fail. *)
From Coq Require Import ZArith List Bool Lia.
From Verif Require Import Base Errors Transport Proto Arith TransportProofs Values Codec
  Binary Compact BinaryProofs.
Import ListNotations.
Open Scope Z_scope.

(** One call of the writing interface (tprotocol.go:30-50). *)
Inductive wcall : Type :=
| WcMessageBegin (name : bytes) (t seqid : Z)
| WcMessageEnd
| WcStructBegin (name : bytes)
| WcStructEnd
| WcFieldBegin (name : bytes) (t id : Z)
| WcFieldEnd
| WcFieldStop
| WcMapBegin (k v n : Z)
| WcMapEnd
| WcListBegin (t n : Z)
| WcListEnd
| WcSetBegin (t n : Z)
| WcSetEnd
| WcBool (b : bool)
| WcByte (v : Z)
| WcI16 (v : Z)
| WcI32 (v : Z)
| WcI64 (v : Z)
| WcDouble (v : Z)
| WcString (v : bytes)
| WcBinary (v : bytes).

Definition wexec {S} (W : wproto S) (c : wcall) : wop S :=
  match c with
  | WcMessageBegin n t s => wMessageBegin W n t s
  | WcMessageEnd => wMessageEnd W
  | WcStructBegin n => wStructBegin W n
  | WcStructEnd => wStructEnd W
  | WcFieldBegin n t i => wFieldBegin W n t i
  | WcFieldEnd => wFieldEnd W
  | WcFieldStop => wFieldStop W
  | WcMapBegin k v n => wMapBegin W k v n
  | WcMapEnd => wMapEnd W
  | WcListBegin t n => wListBegin W t n
  | WcListEnd => wListEnd W
  | WcSetBegin t n => wSetBegin W t n
  | WcSetEnd => wSetEnd W
  | WcBool b => wBool W b
  | WcByte v => wByte W v
  | WcI16 v => wI16 W v
  | WcI32 v => wI32 W v
  | WcI64 v => wI64 W v
  | WcDouble v => wDouble W v
  | WcString v => wString W v
  | WcBinary v => wBinary W v
  end.

(** How an operation used up the results its Write calls were going to have: without an error,
    all the Writes it made succeeded; with an error [x], the last Write it made failed
    with some [e0] related to [x], and the ones before succeeded.  Bytes are only ever
    appended to the output. *)
Definition used (cls : err -> err -> Prop) (w : wt) (e : option err) (w' : wt) : Prop :=
  (exists out, w_out w' = w_out w ++ out) /\
  match e with
  | None => exists pre, Forall (eq WOk) pre /\ w_sched w = pre ++ w_sched w'
  | Some x => exists pre k e0, Forall (eq WOk) pre /\
                w_sched w = pre ++ WFail k e0 :: w_sched w' /\ cls e0 x
  end.

Definition wrapped (e0 x : err) : Prop := protocol_exc_from_os (Some e0) = Some x.
Definition loose (e0 x : err) : Prop := x = e0 \/ wrapped e0 x.

Lemma used_refl : forall cls w, used cls w None w.
Proof.
  intros. split; [exists []; now rewrite app_nil_r|]. exists []. split; [constructor|reflexivity].
Qed.
Lemma used_trans : forall cls w w1 w2 e, used cls w None w1 -> used cls w1 e w2 -> used cls w e w2.
Proof.
  intros cls w w1 w2 e [[o1 O1] (p1 & P1 & S1)] [[o2 O2] H2]. split.
  - exists (o1 ++ o2). rewrite O2, O1, app_assoc. reflexivity.
  - destruct e as [x|].
    + destruct H2 as (p2 & k & e0 & P2 & S2 & C). exists (p1 ++ p2), k, e0.
      split; [apply Forall_app; auto|]. split; [|assumption].
      rewrite S1, S2, <- app_assoc. reflexivity.
    + destruct H2 as (p2 & P2 & S2). exists (p1 ++ p2).
      split; [apply Forall_app; auto|]. rewrite S1, S2, <- app_assoc. reflexivity.
Qed.
Lemma used_mono : forall (cls cls' : err -> err -> Prop) w e w',
  (forall a b, cls a b -> cls' a b) -> used cls w e w' -> used cls' w e w'.
Proof.
  intros cls cls' w e w' H [O U]. split; [assumption|]. destruct e; [|assumption].
  destruct U as (p & k & e0 & P & S & C). exists p, k, e0. auto.
Qed.

Lemma twrite_used : forall bs w n e w',
  twrite bs w = (n, e, w') -> used eq w e w'.
Proof.
  intros bs [o sch] n e w' H. unfold twrite in H. cbn in H.
  destruct sch as [|[|k e0] sch]; inversion H; subst; (split; [cbn; eauto|]).
  - exists []. split; [constructor|reflexivity].
  - exists [WOk]. split; [repeat constructor|reflexivity].
  - exists [], k, e0. repeat split. constructor.
Qed.

Lemma copy_blocks_used : forall f bs w e w',
  copy_blocks f bs w = (e, w') -> used eq w e w'.
Proof.
  induction f as [|f IH]; intros bs w e w' H; cbn [copy_blocks] in H.
  - inversion H; subst. apply used_refl.
  - destruct bs as [|b bs]; [inversion H; subst; apply used_refl|].
    destruct (twrite (firstn copy_block (b :: bs)) w) as [[n e1] w1] eqn:T.
    apply twrite_used in T. destruct e1 as [e1|].
    + inversion H; subst. exact T.
    + eapply used_trans; [exact T|]. eapply IH, H.
Qed.

Definition ugood {S} (view : S -> wt) (cls : err -> err -> Prop) (op : wop S) : Prop :=
  forall s e s', op s = Ok (e, s') -> used cls (view s) e (view s').

Lemma ugood_seq : forall S (view : S -> wt) cls m k,
  ugood view cls m -> ugood view cls k -> ugood view cls (m >>> k).
Proof.
  intros S view cls m k M K s e s' H. unfold wseq in H.
  destruct (m s) as [[e1 s1]| |] eqn:E; cbn [obind] in H; try discriminate.
  apply M in E. destruct e1 as [e1|].
  - injection H; intros; subst. exact E.
  - eapply used_trans; [exact E|]. apply K, H.
Qed.
Lemma ugood_nop : forall S (view : S -> wt) cls, ugood view cls nop.
Proof. intros S view cls s e s' H. inversion H; subst. apply used_refl. Qed.

(** ** Binary *)
Lemma used_wrap : forall (cls : err -> err -> Prop) w e w', (forall a b, cls a b -> a = b \/ wrapped a b) ->
  used cls w e w' -> used wrapped w (protocol_exc_from_os e) w'.
Proof.
  intros cls w e w' H [O U]. split; [assumption|]. destruct e as [x|]; [|exact U].
  destruct (pefo_some x) as [x' X]. rewrite X.
  destruct U as (p & k & e0 & P & S & C). exists p, k, e0. split; [assumption|].
  split; [assumption|]. destruct (H _ _ C) as [->|C']; [exact X|].
  unfold wrapped in *. rewrite <- X, <- C', pefo_idem. reflexivity.
Qed.

Lemma b_write_good : forall bs, ugood (fun w => w) wrapped (b_write bs).
Proof.
  intros bs w e w' H. unfold b_write in H.
  destruct (twrite bs w) as [[n e1] w1] eqn:T. inversion H; subst.
  apply twrite_used in T. eapply used_wrap; [|exact T]. auto.
Qed.
Lemma copy_good : forall bs, ugood (fun w => w) wrapped
  (fun w => let '(e, w') := copy_n bs w in Ok (protocol_exc_from_os e, w')).
Proof.
  intros bs w e w' H. destruct (copy_n bs w) as [e1 w1] eqn:T. inversion H; subst.
  apply copy_blocks_used in T. eapply used_wrap; [|exact T]. auto.
Qed.

Ltac ug := repeat first [apply ugood_seq | apply ugood_nop | apply b_write_good | apply copy_good].

Theorem binary_write_used : forall strict c, ugood (fun w => w) wrapped (wexec (binaryW strict) c).
Proof.
  intros strict c. destruct c; cbn [wexec binaryW wMessageBegin wMessageEnd wStructBegin wStructEnd
    wFieldBegin wFieldEnd wFieldStop wMapBegin wMapEnd wListBegin wListEnd wSetBegin wSetEnd
    wBool wByte wI16 wI32 wI64 wDouble wString wBinary];
  unfold bWriteMessageBegin, bWriteFieldBegin, bWriteFieldStop, bWriteMapBegin, bWriteListBegin,
    bWriteSetBegin, bWriteBool, bWriteDouble, bWriteString, bWriteBinary, bWriteI64, bWriteI32,
    bWriteI16, bWriteByte; try solve [ug].
  - destruct strict; ug.
  - destruct b; ug.
Qed.

(** ** Compact *)
Lemma c_raw_good : forall bs, ugood (@fst wt cstate) eq (c_write_raw bs).
Proof.
  intros bs [w c] e [w' c'] H. unfold c_write_raw in H.
  destruct (twrite bs w) as [[n e1] w1] eqn:T. inversion H; subst.
  apply twrite_used in T. exact T.
Qed.
Lemma ugood_loose : forall (cls : err -> err -> Prop) op, (forall a b, cls a b -> a = b \/ wrapped a b) ->
  ugood (@fst wt cstate) cls op -> ugood fst loose op.
Proof.
  intros cls op H G s e s' E. apply G in E. eapply used_mono; [|exact E].
  intros a b C. destruct (H _ _ C); [left; symmetry|right]; assumption.
Qed.
Lemma wrap_good : forall op, ugood (@fst wt cstate) loose op -> ugood fst wrapped (wrap_exc op).
Proof.
  intros op G s e s' H. unfold wrap_exc in H.
  destruct (op s) as [[e1 s1]| |] eqn:E; cbn [obind] in H; try discriminate.
  injection H; intros; subst. apply G in E. eapply used_wrap; [|exact E].
  intros a b [->|C]; auto.
Qed.
Lemma raw_loose : forall bs, ugood (@fst wt cstate) loose (c_write_raw bs).
Proof. intros. eapply ugood_loose; [|apply c_raw_good]. auto. Qed.
Lemma wrapped_loose : forall op, ugood (@fst wt cstate) wrapped op -> ugood fst loose op.
Proof. intros. eapply ugood_loose; [|eassumption]. auto. Qed.
Lemma varint32_loose : forall n, ugood (@fst wt cstate) loose (writeVarint32 n).
Proof.
  intros n s e s' H. unfold writeVarint32 in H. destruct (varint32_bytes 5 n); cbn in H; try discriminate.
  eapply raw_loose, H.
Qed.
Lemma varint64_loose : forall n, ugood (@fst wt cstate) loose (writeVarint64 n).
Proof.
  intros n s e s' H. unfold writeVarint64 in H. destruct (varint64_bytes 10 n); cbn in H; try discriminate.
  eapply raw_loose, H.
Qed.
Lemma state_good : forall cls (f : cstate -> cstate),
  ugood (@fst wt cstate) cls (fun '(w, c) => Ok (None, (w, f c))).
Proof. intros cls f [w c] e [w' c'] H. inversion H; subst. apply used_refl. Qed.

Ltac cg := repeat first
  [ apply ugood_seq | apply ugood_nop | apply wrap_good | apply raw_loose
  | apply varint32_loose | apply varint64_loose ].

Lemma fbi_loose : forall t id ov, ugood (@fst wt cstate) loose (writeFieldBeginInternal t id ov).
Proof.
  intros t id ov [w c] e s' H. unfold writeFieldBeginInternal in H.
  destruct (if ov =? 255 then getCompactType t else Ok ov); cbn [obind] in H; try discriminate.
  revert H. apply ugood_seq with (s := (w, c)).
  - destruct (_ && _); [apply raw_loose|]. apply ugood_seq; [apply raw_loose|].
    apply wrapped_loose. unfold cWriteI16. cg.
  - apply (state_good loose (fun c => set_last c (lastField c) id)).
Qed.

Theorem compact_write_used : forall c, ugood fst wrapped (wexec compactW c).
Proof.
  intros c. destruct c; cbn [wexec compactW wMessageBegin wMessageEnd wStructBegin wStructEnd
    wFieldBegin wFieldEnd wFieldStop wMapBegin wMapEnd wListBegin wListEnd wSetBegin wSetEnd
    wBool wByte wI16 wI32 wI64 wDouble wString wBinary];
  unfold cWriteMessageBegin, cWriteFieldStop, cWriteListBegin, cWriteSetBegin, cWriteDouble,
    cWriteString, cWriteBinary, cWriteI64, cWriteI32, cWriteI16, cWriteByte, writeByteDirect;
  try solve [cg].
  - cg. destruct (_ <? _)%nat; cg.
  - apply (state_good wrapped (fun c => set_last c (lastFieldId c :: lastField c) 0)).
  - intros [w c] e s' H. unfold cWriteStructEnd in H. destruct (lastField c); [discriminate|].
    inversion H; subst. apply used_refl.
  - intros [w c] e s' H. unfold cWriteFieldBegin in H. destruct (t =? BOOL).
    + inversion H; subst. apply used_refl.
    + eapply wrap_good; [apply fbi_loose|exact H].
  - unfold cWriteMapBegin, writeByteDirect. destruct (n =? 0); [cg|].
    apply ugood_seq; [cg|]. intros s e s' H.
    destruct (getCompactType k); cbn [obind] in H; try discriminate.
    destruct (getCompactType v); cbn [obind] in H; try discriminate.
    revert H. apply wrap_good. cg.
  - apply wrap_good. intros s e s' H. unfold writeCollectionBegin, writeByteDirect in H.
    destruct (getCompactType t); cbn [obind] in H; try discriminate.
    destruct (n <=? 14); revert H; [apply raw_loose|].
    apply ugood_seq; cg.
  - apply wrap_good. intros s e s' H. unfold writeCollectionBegin, writeByteDirect in H.
    destruct (getCompactType t); cbn [obind] in H; try discriminate.
    destruct (n <=? 14); revert H; [apply raw_loose|].
    apply ugood_seq; cg.
  - intros [w c] e s' H. unfold cWriteBool, writeByteDirect in H.
    destruct (booleanField c) as [[t id]|].
    + destruct (writeFieldBeginInternal t id _ (w, c)) as [[e1 [w1 c1]]| |] eqn:E;
        cbn [obind] in H; try discriminate.
      inversion H; subst. apply fbi_loose in E. eapply used_wrap; [|exact E].
      intros a b0 [->|C]; auto.
    + revert H. apply wrap_good. cg.
  - cg. destruct (_ <? _)%nat; cg.
  - cg. destruct (_ <? _)%nat; cg.
Qed.
