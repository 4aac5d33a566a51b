(** Programs of read calls, and their independence of how the transport cuts the stream. *)
From Coq Require Import ZArith List Bool Lia.
From Verif Require Import Base Errors Transport Proto Arith TransportProofs Values Codec
  Binary Skip Compact.
Import ListNotations.
Open Scope Z_scope.

(** One call of the reading interface (tprotocol.go:52-73). *)
Inductive rcall : Type -> Type :=
| CMessageBegin : rcall (bytes * Z * Z)
| CMessageEnd : rcall unit
| CStructBegin : rcall bytes
| CStructEnd : rcall unit
| CFieldBegin : rcall (bytes * Z * Z)
| CFieldEnd : rcall unit
| CMapBegin : rcall (Z * Z * Z)
| CMapEnd : rcall unit
| CListBegin : rcall (Z * Z)
| CListEnd : rcall unit
| CSetBegin : rcall (Z * Z)
| CSetEnd : rcall unit
| CBool : rcall bool
| CByte : rcall Z
| CI16 : rcall Z
| CI32 : rcall Z
| CI64 : rcall Z
| CDouble : rcall Z
| CString : rcall bytes
| CBinary : rcall bytes
| CSkip (fuel : nat) (M t d : Z) : rcall unit.

Definition unit_op {S} (m : wop S) : rop S unit :=
  fun s => '(e, s') <- m s ;; Ok (tt, e, s').

Definition call {S A} (R : rproto S) (c : rcall A) : rop S A :=
  match c with
  | CMessageBegin => rMessageBegin R
  | CMessageEnd => unit_op (rMessageEnd R)
  | CStructBegin => rStructBegin R
  | CStructEnd => unit_op (rStructEnd R)
  | CFieldBegin => rFieldBegin R
  | CFieldEnd => unit_op (rFieldEnd R)
  | CMapBegin => rMapBegin R
  | CMapEnd => unit_op (rMapEnd R)
  | CListBegin => rListBegin R
  | CListEnd => unit_op (rListEnd R)
  | CSetBegin => rSetBegin R
  | CSetEnd => unit_op (rSetEnd R)
  | CBool => rBool R
  | CByte => rByte R
  | CI16 => rI16 R
  | CI32 => rI32 R
  | CI64 => rI64 R
  | CDouble => rDouble R
  | CString => rString R
  | CBinary => rBinary R
  | CSkip f M t d => unit_op (skip R M f t d)
  end.

(** A program of read calls: each step may depend on all results and errors so far. *)
Inductive rprog (X : Type) : Type :=
| PDone (x : X)
| PCall {A : Type} (c : rcall A) (k : A -> option err -> rprog X).
Arguments PDone {X} x.
Arguments PCall {X A} c k.

Fixpoint run {S X} (R : rproto S) (p : rprog X) : S -> outcome (X * S) :=
  fun s =>
    match p with
    | PDone x => Ok (x, s)
    | PCall c k => '(a, e, s') <- call R c s ;; run R (k a e) s'
    end.

Section Sim.
Context {S : Type}.
Variable sim : S -> S -> Prop.

Definition same {A} (o1 o2 : outcome (A * S)) : Prop :=
  match o1, o2 with
  | Ok (a1, s1), Ok (a2, s2) => a1 = a2 /\ sim s1 s2
  | Panic, Panic => True
  | OutOfFuel, OutOfFuel => True
  | _, _ => False
  end.
Definition same1 (o1 o2 : outcome S) : Prop :=
  match o1, o2 with
  | Ok s1, Ok s2 => sim s1 s2
  | Panic, Panic => True
  | OutOfFuel, OutOfFuel => True
  | _, _ => False
  end.
Definition resp {A} (op : S -> outcome (A * S)) : Prop :=
  forall s1 s2, sim s1 s2 -> same (op s1) (op s2).

Lemma same_bind : forall A B (o1 o2 : outcome (A * S)) (k1 k2 : A * S -> outcome (B * S)),
  same o1 o2 -> (forall a s1 s2, sim s1 s2 -> same (k1 (a, s1)) (k2 (a, s2))) ->
  same (obind o1 k1) (obind o2 k2).
Proof.
  intros A B [[a1 s1]| |] [[a2 s2]| |] k1 k2 H K; cbn in *; try contradiction; auto.
  destruct H as [-> H]. apply K, H.
Qed.
Lemma same_ok : forall A (a : A) s1 s2, sim s1 s2 -> same (Ok (a, s1)) (Ok (a, s2)).
Proof. intros; cbn; auto. Qed.
Lemma same1_bind : forall A (o1 o2 : outcome S) (k1 k2 : S -> outcome (A * S)),
  same1 o1 o2 -> (forall s1 s2, sim s1 s2 -> same (k1 s1) (k2 s2)) ->
  same (obind o1 k1) (obind o2 k2).
Proof.
  intros A [s1| |] [s2| |] k1 k2 H K; cbn in *; try contradiction; auto.
Qed.
Lemma same_bind1 : forall A (o1 o2 : outcome (A * S)) (k1 k2 : A * S -> outcome S),
  same o1 o2 -> (forall a s1 s2, sim s1 s2 -> same1 (k1 (a, s1)) (k2 (a, s2))) ->
  same1 (obind o1 k1) (obind o2 k2).
Proof.
  intros A [[a1 s1]| |] [[a2 s2]| |] k1 k2 H K; cbn in *; try contradiction; auto.
  destruct H as [-> H]. apply K, H.
Qed.

Lemma unit_op_resp : forall m : wop S, resp m -> resp (unit_op m).
Proof.
  intros m H s1 s2 E. eapply same_bind; [apply H, E|]. intros. apply same_ok. assumption.
Qed.

Lemma repeat_resp : forall n (body : wop S), resp body ->
  forall s1 s2, sim s1 s2 -> same1 (repeat_ignoring n body s1) (repeat_ignoring n body s2).
Proof.
  induction n as [|n IH]; intros body H s1 s2 E; cbn [repeat_ignoring]; [exact E|].
  eapply same_bind1; [apply H, E|]. intros. apply IH; assumption.
Qed.

Variable R : rproto S.
Hypothesis HMessageBegin : resp (rMessageBegin R).
Hypothesis HMessageEnd : resp (rMessageEnd R).
Hypothesis HStructBegin : resp (rStructBegin R).
Hypothesis HStructEnd : resp (rStructEnd R).
Hypothesis HFieldBegin : resp (rFieldBegin R).
Hypothesis HFieldEnd : resp (rFieldEnd R).
Hypothesis HMapBegin : resp (rMapBegin R).
Hypothesis HMapEnd : resp (rMapEnd R).
Hypothesis HListBegin : resp (rListBegin R).
Hypothesis HListEnd : resp (rListEnd R).
Hypothesis HSetBegin : resp (rSetBegin R).
Hypothesis HSetEnd : resp (rSetEnd R).
Hypothesis HBool : resp (rBool R).
Hypothesis HByte : resp (rByte R).
Hypothesis HI16 : resp (rI16 R).
Hypothesis HI32 : resp (rI32 R).
Hypothesis HI64 : resp (rI64 R).
Hypothesis HDouble : resp (rDouble R).
Hypothesis HString : resp (rString R).
Hypothesis HBinary : resp (rBinary R).

Lemma lift_resp : forall A (op : rop S A), resp op ->
  resp (fun s => '(_, e, s1) <- op s ;; Ok (e, s1)).
Proof.
  intros A op H s1 s2 E. eapply same_bind; [apply H, E|].
  intros [a e] t1 t2 E'. apply same_ok; assumption.
Qed.

Lemma skip_resp : forall M f, (forall t d, resp (skip R M f t d)) /\
  (forall d s1 s2, sim s1 s2 -> same1 (skip_fields R M f d s1) (skip_fields R M f d s2)).
Proof.
  intros M. induction f as [|f [IHs IHf]].
  - split; [intros t d s1 s2 E; exact I|intros; exact I].
  - split.
    + intros t d s1 s2 E. cbn [skip].
      repeat match goal with
      | |- same (if ?c then _ else _) _ =>
        destruct c eqn:?; [first [apply same_ok; exact E | apply lift_resp; assumption | idtac]|]
      end; [| | | |apply same_ok; exact E].
      * eapply same_bind; [apply HStructBegin, E|]. intros [a [e|]] t1 t2 E';
          [apply same_ok; exact E'|].
        eapply same1_bind; [apply IHf, E'|]. intros; apply HStructEnd; assumption.
      * eapply same_bind; [apply HMapBegin, E|]. intros [[[k v] n] [e|]] t1 t2 E';
          [apply same_ok; exact E'|].
        eapply same1_bind; [apply repeat_resp; [|exact E']|intros; apply HMapEnd; assumption].
        intros u1 u2 Eu. eapply same_bind; [apply IHs, Eu|]. intros; apply IHs; assumption.
      * eapply same_bind; [apply HSetBegin, E|]. intros [[et n] [e|]] t1 t2 E';
          [apply same_ok; exact E'|].
        eapply same1_bind; [apply repeat_resp; [apply IHs|exact E']|
                            intros; apply HSetEnd; assumption].
      * eapply same_bind; [apply HListBegin, E|]. intros [[et n] [e|]] t1 t2 E';
          [apply same_ok; exact E'|].
        eapply same1_bind; [apply repeat_resp; [apply IHs|exact E']|
                            intros; apply HListEnd; assumption].
    + intros d s1 s2 E.
      change (same1
        ('((_, typeId, _), _, s1) <- rFieldBegin R s1 ;;
         if typeId =? STOP then Ok s1
         else '(_, s2) <- skip R M f typeId (d - 1) s1 ;;
              '(_, s3) <- rFieldEnd R s2 ;; skip_fields R M f d s3)
        ('((_, typeId, _), _, s1) <- rFieldBegin R s2 ;;
         if typeId =? STOP then Ok s1
         else '(_, s2) <- skip R M f typeId (d - 1) s1 ;;
              '(_, s3) <- rFieldEnd R s2 ;; skip_fields R M f d s3)).
      eapply same_bind1; [apply HFieldBegin, E|]. intros [[[nm t] id] e] t1 t2 E'.
      destruct (t =? STOP); [exact E'|].
      eapply same_bind1; [apply IHs, E'|]. intros e2 u1 u2 E2.
      eapply same_bind1; [apply HFieldEnd, E2|]. intros e3 v1 v2 E3. apply IHf, E3.
Qed.

Theorem call_resp : forall A (c : rcall A), resp (call R c).
Proof.
  intros A c. destruct c; cbn [call]; try assumption;
    apply unit_op_resp; try assumption. apply skip_resp.
Qed.

Theorem run_resp : forall X (p : rprog X), resp (run R p).
Proof.
  intros X p. induction p as [x|A c k IH]; intros s1 s2 E; cbn [run].
  - apply same_ok, E.
  - eapply same_bind; [apply call_resp, E|]. intros [a e] t1 t2 E'. apply IH, E'.
Qed.
End Sim.

(** ** Binary protocol *)
Definition bsim (r1 r2 : rt) : Prop := benign r1 /\ benign r2 /\ content r1 = content r2.

Lemma read_all_sim : forall n r1 r2, bsim r1 r2 ->
  exists c b e r1' r2', read_all n r1 = (c, b, e, r1') /\ read_all n r2 = (c, b, e, r2') /\
                        bsim r1' r2'.
Proof.
  intros n r1 r2 (B1 & B2 & E).
  destruct (read_all_benign r1 n B1) as (r1' & B1' & H1).
  destruct (read_all_benign r2 n B2) as (r2' & B2' & H2).
  rewrite <- E in H2. unfold bsim.
  destruct (n <=? length (content r1))%nat; destruct H1 as [-> C1]; destruct H2 as [-> C2];
    eexists _, _, _, r1', r2'; (split; [reflexivity|split; [reflexivity|]]);
    (split; [assumption|split; [assumption|congruence]]).
Qed.

Lemma b_readAll_resp : forall n, resp bsim (b_readAll n).
Proof.
  intros n r1 r2 E. unfold b_readAll.
  destruct (read_all_sim n r1 r2 E) as (c & b & e & r1' & r2' & -> & -> & E'). cbn. auto.
Qed.

Lemma body_resp : forall n, resp bsim (bReadStringBody n).
Proof.
  intros n r1 r2 E. unfold bReadStringBody. destruct (n <? 0); [cbn; auto|].
  destruct (read_all_sim (Z.to_nat n) r1 r2 E) as (c & b & e & r1' & r2' & -> & -> & E').
  cbn. auto.
Qed.

Ltac rs :=
  repeat match goal with
  | |- resp _ (fun _ => _) => let s1 := fresh "s" in let s2 := fresh "s" in
                              let E := fresh "E" in intros s1 s2 E
  | |- same _ (obind ?a _) (obind ?b _) =>
    eapply same_bind; [solve [eauto with resp]|]; intros [? ?] ? ? ?
  | |- same _ (Ok _) (Ok _) => apply same_ok; assumption
  | |- same _ Panic Panic => exact I
  | |- same _ (match ?e with Some _ => _ | None => _ end) _ => destruct e
  | |- same _ (if ?c then _ else _) _ => destruct c
  | |- same _ (let '(_, _) := ?x in _) _ => destruct x
  | |- same _ (?f ?s1) (?f ?s2) => solve [eauto with resp]
  end.

Lemma resp_app : forall S (sim : S -> S -> Prop) A (op : S -> outcome (A * S)),
  resp sim op -> forall s1 s2, sim s1 s2 -> same sim (op s1) (op s2).
Proof. auto. Qed.
#[export] Hint Resolve b_readAll_resp body_resp resp_app : resp.

Lemma bByte_resp : resp bsim bReadByte. Proof. unfold bReadByte. rs. Qed.
Lemma bI16_resp : resp bsim bReadI16. Proof. unfold bReadI16. rs. Qed.
Lemma bI32_resp : resp bsim bReadI32. Proof. unfold bReadI32. rs. Qed.
Lemma bI64_resp : resp bsim bReadI64. Proof. unfold bReadI64. rs. Qed.
Lemma bDouble_resp : resp bsim bReadDouble. Proof. unfold bReadDouble. rs. Qed.
#[export] Hint Resolve bByte_resp bI16_resp bI32_resp bI64_resp bDouble_resp : resp.
Lemma bBool_resp : resp bsim bReadBool. Proof. unfold bReadBool. rs. Qed.
Lemma bString_resp : resp bsim bReadString. Proof. unfold bReadString. rs. Qed.
#[export] Hint Resolve bBool_resp bString_resp : resp.
Lemma bBinary_resp : resp bsim bReadBinary.
Proof.
  unfold bReadBinary. intros s1 s2 E. eapply same_bind; [apply bI32_resp, E|].
  intros [n [e|]] t1 t2 E'; [apply same_ok, E'|]. destruct (n <? 0); [exact I|].
  destruct (read_all_sim (Z.to_nat n) _ _ E') as (c & b & e & r1' & r2' & -> & -> & E'').
  cbn. auto.
Qed.
Lemma bField_resp : resp bsim bReadFieldBegin. Proof. unfold bReadFieldBegin. rs. Qed.
Lemma bMap_resp : resp bsim bReadMapBegin. Proof. unfold bReadMapBegin. rs. Qed.
Lemma bList_resp : resp bsim bReadListBegin. Proof. unfold bReadListBegin. rs. Qed.
Lemma bMessage_resp : forall strict, resp bsim (bReadMessageBegin strict).
Proof. unfold bReadMessageBegin. intros. rs. Qed.
Lemma nop_resp : forall S (sim : S -> S -> Prop), resp sim nop.
Proof. intros S sim s1 s2 E. apply same_ok, E. Qed.
#[export] Hint Resolve bBinary_resp bField_resp bMap_resp bList_resp bMessage_resp nop_resp : resp.

Theorem binary_run_resp : forall strict X (p : rprog X), resp bsim (run (binaryR strict) p).
Proof.
  intros strict X p. apply run_resp; cbn [binaryR rMessageBegin rMessageEnd rStructBegin
    rStructEnd rFieldBegin rFieldEnd rMapBegin rMapEnd rListBegin rListEnd rSetBegin rSetEnd
    rBool rByte rI16 rI32 rI64 rDouble rString rBinary]; eauto with resp.
  intros s1 s2 E. apply same_ok, E.
Qed.

(** ** Compact protocol *)
Definition csim (s1 s2 : cr) : Prop := bsim (fst s1) (fst s2) /\ snd s1 = snd s2.

Lemma cReadByte_resp : resp csim cReadByte.
Proof.
  intros [r1 c1] [r2 c2] [E1 E2]. cbn in E1, E2; subst c2. unfold cReadByte.
  destruct (read_all_sim 1 r1 r2 E1) as (c & b & e & r1' & r2' & -> & -> & E').
  destruct e; cbn; unfold csim; auto.
Qed.
#[export] Hint Resolve cReadByte_resp : resp.
Lemma varint_loop_resp : forall f sh res, resp csim (readVarint64_loop f sh res).
Proof.
  induction f as [|f IH]; intros sh res s1 s2 E; cbn [readVarint64_loop]; [exact I|].
  eapply same_bind; [eauto with resp|]. intros [b [e|]] t1 t2 E'; [apply same_ok, E'|].
  destruct (negb _); [apply same_ok, E'|apply IH, E'].
Qed.
Lemma varint64_resp : resp csim readVarint64.
Proof.
  intros s1 s2 E. unfold readVarint64.
  replace (rt_size (fst s2)) with (rt_size (fst s1)).
  - apply varint_loop_resp, E.
  - destruct E as [(_ & _ & E) _]. unfold rt_size. unfold content in E. now rewrite E.
Qed.
#[export] Hint Resolve varint64_resp : resp.
Lemma varint32_resp : resp csim readVarint32. Proof. unfold readVarint32. rs. Qed.
#[export] Hint Resolve varint32_resp : resp.
Lemma cI32_resp : resp csim cReadI32. Proof. unfold cReadI32. rs. Qed.
#[export] Hint Resolve cI32_resp : resp.
Lemma cI16_resp : resp csim cReadI16. Proof. unfold cReadI16. rs. Qed.
Lemma cI64_resp : resp csim cReadI64. Proof. unfold cReadI64. rs. Qed.
Lemma cDouble_resp : resp csim cReadDouble.
Proof.
  intros [r1 c1] [r2 c2] [E1 E2]. cbn in E1, E2; subst c2. unfold cReadDouble.
  destruct (read_all_sim 8 r1 r2 E1) as (c & b & e & r1' & r2' & -> & -> & E').
  destruct e; cbn; unfold csim; auto.
Qed.
Lemma cBinary_resp : resp csim cReadBinary.
Proof.
  unfold cReadBinary. intros s1 s2 E. eapply same_bind; [apply varint32_resp, E|].
  intros [n e] [r1 c1] [r2 c2] [E1 E2]. cbn in E1, E2; subst c2.
  destruct e; [apply same_ok; split; auto|]. destruct (n =? 0); [apply same_ok; split; auto|].
  destruct (n <? 0); [exact I|].
  destruct (read_all_sim (Z.to_nat n) r1 r2 E1) as (c & b & e & r1' & r2' & -> & -> & E').
  cbn; unfold csim; auto.
Qed.
#[export] Hint Resolve cI16_resp cI64_resp cDouble_resp cBinary_resp : resp.
Lemma cString_resp : resp csim cReadString. Proof. unfold cReadString. rs. Qed.
#[export] Hint Resolve cString_resp : resp.
Lemma cBool_resp : resp csim cReadBool.
Proof.
  intros [r1 c1] [r2 c2] [E1 E2]. cbn in E1, E2; subst c2. unfold cReadBool.
  destruct (boolValueIsNotNull c1); [apply same_ok; split; auto|].
  eapply same_bind; [apply cReadByte_resp; split; auto|]. intros [v e] t1 t2 E.
  apply same_ok, E.
Qed.
Lemma cMessage_resp : resp csim cReadMessageBegin. Proof. unfold cReadMessageBegin. rs. Qed.
Lemma cStructBegin_resp : resp csim cReadStructBegin.
Proof.
  intros [r1 c1] [r2 c2] [E1 E2]. cbn in E1, E2; subst c2. unfold cReadStructBegin.
  apply same_ok; split; auto.
Qed.
Lemma cStructEnd_resp : resp csim cReadStructEnd.
Proof.
  intros [r1 c1] [r2 c2] [E1 E2]. cbn in E1, E2; subst c2. unfold cReadStructEnd.
  destruct (lastField c1); [exact I|]. apply same_ok; split; auto.
Qed.
Lemma cField_resp : resp csim cReadFieldBegin.
Proof.
  unfold cReadFieldBegin. intros s1 s2 E. eapply same_bind; [apply cReadByte_resp, E|].
  intros [t [e|]] t1 t2 E'; [apply same_ok, E'|].
  destruct (Z.land t 15 =? STOP); [apply same_ok, E'|].
  eapply same_bind.
  - destruct (wraps 16 (Z.shiftr (Z.land t 240) 4) =? 0); [apply cI16_resp, E'|].
    destruct E' as [E1 E2]. rewrite E2. apply same_ok; split; assumption.
  - intros [id [e|]] u1 u2 Eu; [apply same_ok, Eu|].
    destruct (getTType (Z.land t 15)) as [ty [e|]]; [apply same_ok, Eu|].
    destruct u1 as [r1 c1], u2 as [r2 c2]. destruct Eu as [E1 E2]. cbn in E1, E2; subst c2.
    apply same_ok. split; auto.
Qed.
Lemma cMap_resp : resp csim cReadMapBegin.
Proof.
  unfold cReadMapBegin. intros s1 s2 E. eapply same_bind; [apply varint32_resp, E|].
  intros [n [e|]] t1 t2 E'; [apply same_ok, E'|].
  eapply same_bind.
  - destruct (negb (n =? 0)); [apply cReadByte_resp, E'|apply same_ok, E'].
  - intros [kv [e|]] u1 u2 Eu; apply same_ok, Eu.
Qed.
Lemma cList_resp : resp csim cReadListBegin.
Proof.
  unfold cReadListBegin. intros s1 s2 E. eapply same_bind; [apply cReadByte_resp, E|].
  intros [st [e|]] t1 t2 E'; [apply same_ok, E'|].
  eapply same_bind.
  - destruct (_ =? 15); [apply varint32_resp, E'|apply same_ok, E'].
  - intros [n [e|]] u1 u2 Eu; [apply same_ok, Eu|].
    destruct (getTType st). apply same_ok, Eu.
Qed.
#[export] Hint Resolve cBool_resp cMessage_resp cStructBegin_resp cStructEnd_resp cField_resp
  cMap_resp cList_resp : resp.

Theorem compact_run_resp : forall X (p : rprog X), resp csim (run compactR p).
Proof.
  intros X p. apply run_resp; cbn [compactR rMessageBegin rMessageEnd rStructBegin
    rStructEnd rFieldBegin rFieldEnd rMapBegin rMapEnd rListBegin rListEnd rSetBegin rSetEnd
    rBool rByte rI16 rI32 rI64 rDouble rString rBinary]; eauto with resp.
Qed.
