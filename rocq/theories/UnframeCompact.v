(** What arrives over TFramedTransport read by TCompactProtocol. *)
From Coq Require Import ZArith List Bool Lia.
From Coq Require Import ZifyBool ZifyNat.
From Verif Require Import Base Errors Arith Transport TransportProofs Proto Buffer Framed Binary Compact Over Het OverSim OverInst Unframe.
Import ListNotations.
Open Scope Z_scope.

(** Bytes other than 0.  Frames may be filled up with zeros, but a zero ends a varint. *)
Fixpoint nz (bs : bytes) : nat := match bs with [] => O | b :: l => ((if Z.eqb b 0 then 0 else 1) + nz l)%nat end.
Lemma nz_app : forall a b, nz (a ++ b) = (nz a + nz b)%nat.
Proof. induction a as [|c a IH]; intro b; cbn; [reflexivity|]. rewrite IH. lia. Qed.
Lemma nz_le : forall a, (nz a <= length a)%nat.
Proof. induction a as [|c a IH]; cbn; [lia|]. destruct (c =? 0); lia. Qed.
Lemma nz_zeros : forall n, nz (repeat 0 n) = 0%nat.
Proof. induction n as [|n IH]; cbn; [reflexivity|exact IH]. Qed.
Lemma nz_read : forall r n c b e r', read_all n r = (c, b, e, r') ->
  (nz b + length (content r') <= length (content r))%nat /\ (nz b + nz (content r') <= nz (content r))%nat.
Proof.
  intros r n c b e r' E. unfold read_all in E. destruct (read_all_loop n 0 None r) as [[[c1 d1] e1] r1] eqn:R. injection E as <- <- <- <-.
  pose proof (read_all_loop_any _ _ _ _ _ _ _ _ R) as (C & Ld & _). rewrite C, app_length, nz_app. unfold pad. rewrite nz_app, nz_zeros.
  pose proof (nz_le d1). lia.
Qed.
Lemma nz_frame : forall intw r o r', next_frame intw r = (o, r') ->
  (match o with Some b => nz b | None => 0 end + length (content r') <= length (content r))%nat.
Proof.
  intros intw r o r' E. unfold next_frame in E. destruct (read_all 4 r) as [[[c1 hd] e1] r1] eqn:E1. apply nz_read in E1. destruct E1 as [E1 _].
  destruct e1; [injection E as <- <-; lia|]. destruct (_ <=? 0); [injection E as <- <-; lia|].
  destruct (read_all _ r1) as [[[c2 bd] e2] r2] eqn:E2. apply nz_read in E2. destruct E2 as [E2 _]. injection E as <- <-. destruct e2; lia.
Qed.
Lemma nz_unframed : forall intw r, (nz (content (unframed intw r)) <= length (content r))%nat.
Proof.
  intros intw r. unfold unframed. generalize (rt_work r). intro n. revert r. induction n as [|n IH]; intros r; cbn [unframe]; [cbn; lia|].
  destruct r as [|ev r]; [cbn; lia|]. destruct (next_frame intw (ev :: r)) as [o r'] eqn:E. apply nz_frame in E. specialize (IH r').
  change (content (frame_event o :: unframe intw n r')) with (fst (frame_event o) ++ content (unframe intw n r')). rewrite nz_app.
  destruct o; cbn [frame_event fst nz]; lia.
Qed.

Section Exact.
Context {T : Type}.
Variable ra : nat -> T -> Z * bytes * option err * T.
Variable sim : T -> rt -> Prop.
Hypothesis RA : forall n s r, sim s r -> exists c b e s' r', ra n s = (c, b, e, s') /\ read_all n r = (c, b, e, r') /\ sim s' r'.
Variable unread : T -> nat.
Hypothesis U : forall s r, sim s r -> (nz (content r) <= unread s)%nat.
Definition rsimc (s : T * cstate) (r : cr) : Prop := sim (fst s) (fst r) /\ snd s = snd r.
Notation hresp := (hresp false).
Notation hsame := (hsame false).
Lemma oc_byte_len : forall s r c, sim s r -> exists b e s' r',
  o_cReadByte ra (s, c) = Ok (b, e, (s', c)) /\ cReadByte (r, c) = Ok (b, e, (r', c)) /\ sim s' r' /\
  (b <> 0 -> (nz (content r') < nz (content r))%nat).
Proof.
  intros s r c E. unfold o_cReadByte, cReadByte.
  destruct (RA 1%nat s r E) as (n & b & e & s' & r' & -> & Er & E'). rewrite Er.
  pose proof (read_all_work _ _ _ _ _ _ Er) as (_ & _ & Lb & _). apply nz_read in Er. destruct Er as [_ L].
  destruct e as [e|].
  - eexists _, _, _, _. split; [reflexivity|]. split; [reflexivity|]. split; [exact E'|]. intro N. destruct (N eq_refl).
  - eexists _, _, _, _. split; [reflexivity|]. split; [reflexivity|]. split; [exact E'|].
    intro N. destruct b as [|b0 b]; [discriminate Lb|]. cbn in N. cbn [nz] in L. replace (b0 =? 0) with false in L by lia. lia.
Qed.
Lemma oc_byte : hresp rsimc (o_cReadByte ra) cReadByte.
Proof.
  intros [s c] [r c2] [E1 E2]. cbn in E1, E2; subst c2.
  destruct (oc_byte_len s r c E1) as (b & e & s' & r' & -> & -> & E' & _). cbn. unfold rsimc. auto.
Qed.
Lemma oc_loop : forall f1 f2 sh res s r c, sim s r ->
  (nz (content r) < f1)%nat -> (nz (content r) < f2)%nat ->
  hsame rsimc (o_readVarint64_loop ra f1 sh res (s, c)) (readVarint64_loop f2 sh res (r, c)).
Proof.
  induction f1 as [|f1 IH]; intros f2 sh res s r c E L1 L2; [lia|]. destruct f2 as [|f2]; [lia|].
  cbn [o_readVarint64_loop readVarint64_loop].
  destruct (oc_byte_len s r c E) as (b & e & s' & r' & -> & -> & E' & L). cbn [obind].
  destruct e as [e|]; [apply hsame_ok; split; [exact E'|reflexivity]|].
  destruct (negb (Z.land b 128 =? 128)) eqn:B; [apply hsame_ok; split; [exact E'|reflexivity]|].
  assert (N : b <> 0) by (intros ->; discriminate B). specialize (L N). apply IH; [exact E'|lia|lia].
Qed.
Lemma oc_v64 : hresp rsimc (o_readVarint64 ra unread) readVarint64.
Proof.
  intros [s c] [r c2] [E1 E2]. cbn in E1, E2; subst c2. unfold o_readVarint64, readVarint64. cbn [fst].
  apply oc_loop; [exact E1| |].
  - apply U in E1. lia.
  - unfold rt_size. fold (content r). pose proof (nz_le (content r)). lia.
Qed.
Lemma ex_app : forall S1 S2 (sim : S1 -> S2 -> Prop) A (f1 : S1 -> outcome (A * S1)) (f2 : S2 -> outcome (A * S2)),
  hresp sim f1 f2 -> forall s1 s2, sim s1 s2 -> hsame sim (f1 s1) (f2 s2).
Proof. auto. Qed.
Hint Resolve oc_byte oc_v64 ex_app hnop : exd.
Ltac xs :=
  repeat match goal with
  | |- Het.hresp _ _ (fun _ => _) (fun _ => _) => let s1 := fresh "s" in let s2 := fresh "s" in
                              let E := fresh "E" in intros s1 s2 E
  | |- Het.hsame _ _ (obind ?a _) (obind ?b _) =>
    eapply hsame_bind; [solve [eauto with exd]|]; intros [? ?] ? ? ?
  | |- Het.hsame _ _ (Ok _) (Ok _) => apply hsame_ok; assumption
  | |- Het.hsame _ _ Panic Panic => exact I
  | |- Het.hsame _ _ (match ?e with Some _ => _ | None => _ end) _ => destruct e
  | |- Het.hsame _ _ (if ?c then _ else _) _ => destruct c
  | |- Het.hsame _ _ (let '(_, _) := ?x in _) _ => destruct x
  | |- Het.hsame _ _ _ _ => solve [eauto with exd]
  end.
Lemma oc_v32 : hresp rsimc (o_readVarint32 ra unread) readVarint32. Proof. unfold o_readVarint32, readVarint32. xs. Qed.
Hint Resolve oc_v32 : exd.
Lemma oc_i32 : hresp rsimc (o_cReadI32 ra unread) cReadI32. Proof. unfold o_cReadI32, cReadI32. xs. Qed.
Hint Resolve oc_i32 : exd.
Lemma oc_i16 : hresp rsimc (o_cReadI16 ra unread) cReadI16. Proof. unfold o_cReadI16, cReadI16. xs. Qed.
Lemma oc_i64 : hresp rsimc (o_cReadI64 ra unread) cReadI64. Proof. unfold o_cReadI64, cReadI64. xs. Qed.
Lemma oc_dbl : hresp rsimc (o_cReadDouble ra) cReadDouble.
Proof.
  intros [r1 c1] [r2 c2] [E1 E2]. cbn in E1, E2; subst c2. unfold o_cReadDouble, cReadDouble.
  destruct (RA 8 r1 r2 E1) as (c & b & e & r1' & r2' & -> & -> & E').
  destruct e; cbn; unfold rsimc; auto.
Qed.
Lemma oc_bin : hresp rsimc (o_cReadBinary ra unread) cReadBinary.
Proof.
  unfold o_cReadBinary, cReadBinary. intros s1 s2 E. eapply hsame_bind; [apply oc_v32, E|].
  intros [n e] [r1 c1] [r2 c2] [E1 E2]. cbn in E1, E2; subst c2.
  destruct e; [apply hsame_ok; split; auto|]. destruct (n =? 0); [apply hsame_ok; split; auto|].
  destruct (n <? 0); [exact I|].
  destruct (RA (Z.to_nat n) r1 r2 E1) as (c & b & e & r1' & r2' & -> & -> & E').
  cbn; unfold rsimc; auto.
Qed.
Hint Resolve oc_i16 oc_i64 oc_dbl oc_bin : exd.
Lemma oc_str : hresp rsimc (o_cReadString ra unread) cReadString. Proof. unfold o_cReadString, cReadString. xs. Qed.
Hint Resolve oc_str : exd.
Lemma oc_bool : hresp rsimc (o_cReadBool ra) cReadBool.
Proof.
  intros [r1 c1] [r2 c2] [E1 E2]. cbn in E1, E2; subst c2. unfold o_cReadBool, cReadBool.
  destruct (boolValueIsNotNull c1); [apply hsame_ok; split; auto|].
  eapply hsame_bind; [apply oc_byte; split; auto|]. intros [v e] t1 t2 E.
  apply hsame_ok, E.
Qed.
Lemma oc_msg : hresp rsimc (o_cReadMessageBegin ra unread) cReadMessageBegin.
Proof. unfold o_cReadMessageBegin, cReadMessageBegin. xs. Qed.
Lemma oc_sb : hresp rsimc o_cReadStructBegin cReadStructBegin.
Proof.
  intros [r1 c1] [r2 c2] [E1 E2]. cbn in E1, E2; subst c2. apply hsame_ok; split; auto.
Qed.
Lemma oc_se : hresp rsimc o_cReadStructEnd cReadStructEnd.
Proof.
  intros [r1 c1] [r2 c2] [E1 E2]. cbn in E1, E2; subst c2. unfold o_cReadStructEnd, cReadStructEnd.
  destruct (lastField c1); [exact I|]. apply hsame_ok; split; auto.
Qed.
Lemma oc_field : hresp rsimc (o_cReadFieldBegin ra unread) cReadFieldBegin.
Proof.
  unfold o_cReadFieldBegin, cReadFieldBegin. intros s1 s2 E. eapply hsame_bind; [apply oc_byte, E|].
  intros [t [e|]] t1 t2 E'; [apply hsame_ok, E'|].
  destruct (Z.land t 15 =? STOP); [apply hsame_ok, E'|].
  eapply hsame_bind.
  - destruct (wraps 16 (Z.shiftr (Z.land t 240) 4) =? 0); [apply oc_i16, E'|].
    destruct E' as [E1 E2]. rewrite E2. apply hsame_ok; split; assumption.
  - intros [id [e|]] u1 u2 Eu; [apply hsame_ok, Eu|].
    destruct (getTType (Z.land t 15)) as [ty [e|]]; [apply hsame_ok, Eu|].
    destruct u1 as [r1 c1], u2 as [r2 c2]. destruct Eu as [E1 E2]. cbn in E1, E2; subst c2.
    apply hsame_ok. split; auto.
Qed.
Lemma oc_map : hresp rsimc (o_cReadMapBegin ra unread) cReadMapBegin.
Proof.
  unfold o_cReadMapBegin, cReadMapBegin. intros s1 s2 E. eapply hsame_bind; [apply oc_v32, E|].
  intros [n [e|]] t1 t2 E'; [apply hsame_ok, E'|].
  eapply hsame_bind.
  - destruct (negb (n =? 0)); [apply oc_byte, E'|apply hsame_ok, E'].
  - intros [kv [e|]] u1 u2 Eu; apply hsame_ok, Eu.
Qed.
Lemma oc_list : hresp rsimc (o_cReadListBegin ra unread) cReadListBegin.
Proof.
  unfold o_cReadListBegin, cReadListBegin. intros s1 s2 E. eapply hsame_bind; [apply oc_byte, E|].
  intros [st [e|]] t1 t2 E'; [apply hsame_ok, E'|].
  eapply hsame_bind.
  - destruct (_ =? 15); [apply oc_v32, E'|apply hsame_ok, E'].
  - intros [n [e|]] u1 u2 Eu; [apply hsame_ok, Eu|].
    destruct (getTType st). apply hsame_ok, Eu.
Qed.
Hint Resolve oc_bool oc_msg oc_sb oc_se oc_field oc_map oc_list : exd.
Theorem ex_compactR : rrel false rsimc (o_compactR ra unread) compactR.
Proof.
  constructor; cbn [o_compactR compactR rMessageBegin rMessageEnd rStructBegin
    rStructEnd rFieldBegin rFieldEnd rMapBegin rMapEnd rListBegin rListEnd rSetBegin rSetEnd
    rBool rByte rI16 rI32 rI64 rDouble rString rBinary]; eauto with exd.
Qed.
End Exact.

Definition fsimc (intw : Z) : framed * cstate -> cr -> Prop := rsimc (fsim intw).
Lemma unframe_compactR : forall intw, rrel false (fsimc intw) (o_compactR (read_all_over (framed_read intw)) framed_unread) compactR.
Proof.
  intro intw. apply ex_compactR.
  - intros n s r S. apply fsim_read_all, S.
  - intros s r ->. unfold framed_unread, rt_size. fold (content (f_r s)). pose proof (nz_unframed intw (f_r s)).
    unfold content at 1. rewrite map_app, concat_app, nz_app. fold (content (unframed intw (f_r s))).
    pose proof (nz_le (bBytes (f_rbuf s))). unfold content in *.
    destruct (bBytes (f_rbuf s)) as [|b l]; cbn [lead map concat fst app]; rewrite ?app_nil_r; (apply Nat.add_le_mono; [apply nz_le|assumption]).
Qed.
