(** Skip over TCompactProtocol on arbitrary input. *)
From Coq Require Import ZArith List Bool Lia.
From Coq Require Import ZifyBool ZifyNat.
From Verif Require Import Base Arith Errors Transport TransportProofs Proto Values Codec Binary BinaryProofs Compact CompactRead Skip SkipProofs.
Import ListNotations.
Open Scope Z_scope.

(** ** Termination of Skip relative to an invariant

    [Inv b]: [b] says whether a struct has been begun. *)
Section Term.
Context {S : Type}.
Variable R : rproto S.
Variable M : Z.
Variable len : S -> nat.
Variable pan : Prop.
Variable Inv : bool -> S -> Prop.
Hypothesis Inv_true : forall b s, Inv true s -> Inv b s.
Notation okish := (okish pan).

Definition keeps {A} (op : rop S A) : Prop :=
  forall b s, Inv b s -> okish (op s) (fun '(_, _, s') => Inv b s' /\ (len s' <= len s)%nat).
Definition wkeeps (op : wop S) : Prop :=
  forall b s, Inv b s -> okish (op s) (fun '(_, s') => Inv b s' /\ (len s' <= len s)%nat).

Hypothesis Hbool : keeps (rBool R).
Hypothesis Hbyte : keeps (rByte R).
Hypothesis Hi16 : keeps (rI16 R).
Hypothesis Hi32 : keeps (rI32 R).
Hypothesis Hi64 : keeps (rI64 R).
Hypothesis Hdouble : keeps (rDouble R).
Hypothesis Hstring : keeps (rString R).
Hypothesis Hse : forall s, Inv true s -> okish (rStructEnd R s) (fun '(_, s') => Inv true s' /\ (len s' <= len s)%nat).
Hypothesis Hfe : wkeeps (rFieldEnd R).
Hypothesis Hme : wkeeps (rMapEnd R).
Hypothesis Hle : wkeeps (rListEnd R).
Hypothesis Hsete : wkeeps (rSetEnd R).
Hypothesis Hsb : forall b s, Inv b s -> okish (rStructBegin R s)
  (fun '(_, e, s') => Inv b s' /\ (e = None -> Inv true s') /\ (len s' <= len s)%nat).
Hypothesis Hfb : forall b s, Inv b s -> okish (rFieldBegin R s)
  (fun '((_, t, _), _, s') => Inv b s' /\ (len s' <= len s)%nat /\ (t <> STOP -> (len s' < len s)%nat)).
Hypothesis Hlb : forall b s, Inv b s -> okish (rListBegin R s)
  (fun '((_, n), e, s') => Inv b s' /\ (len s' <= len s)%nat /\ (e = None -> 0 < n -> (len s' < len s)%nat)).
Hypothesis Hsetb : forall b s, Inv b s -> okish (rSetBegin R s)
  (fun '((_, n), e, s') => Inv b s' /\ (len s' <= len s)%nat /\ (e = None -> 0 < n -> (len s' < len s)%nat)).
Hypothesis Hmb : forall b s, Inv b s -> okish (rMapBegin R s)
  (fun '((_, n), e, s') => Inv b s' /\ (len s' <= len s)%nat /\ (e = None -> 0 < n -> (len s' < len s)%nat)).

Lemma lift_keeps : forall A (op : rop S A), keeps op -> forall b s, Inv b s ->
  okish ('(_, e, s1) <- op s ;; Ok (e, s1)) (fun '(_, s') => Inv b s' /\ (len s' <= len s)%nat).
Proof. intros A op H b s Hs. eapply okish_bind; [apply H; exact Hs|]. intros [[a e] s'] L. exact L. Qed.
Lemma repeat_keeps : forall b n body k,
  (forall s, Inv b s -> (len s <= k)%nat -> okish (body s) (fun '(_, s') => Inv b s' /\ (len s' <= len s)%nat)) ->
  forall s, Inv b s -> (len s <= k)%nat ->
  okish (repeat_ignoring n body s) (fun s' => Inv b s' /\ (len s' <= len s)%nat).
Proof.
  induction n as [|n IH]; intros body k H s Hs L; cbn [repeat_ignoring].
  - split; [exact Hs|lia].
  - eapply okish_bind; [apply H; assumption|]. intros [e s'] [I' L'].
    eapply okish_mono; [eapply IH; [exact H|exact I'|lia]|]. cbn. intros s2 [I2 L2]. split; [exact I2|lia].
Qed.
Lemma elements_keep : forall b n body fin s0 s1, wkeeps fin -> Inv b s1 -> (len s1 <= len s0)%nat ->
  (0 < n -> forall s, Inv b s -> (len s <= len s1)%nat ->
     okish (body s) (fun '(_, s') => Inv b s' /\ (len s' <= len s)%nat)) ->
  okish (s2 <- repeat_ignoring (Z.to_nat n) body s1 ;; fin s2) (fun '(_, s') => Inv b s' /\ (len s' <= len s0)%nat).
Proof.
  intros b n body fin s0 s1 Hfin I1 L1 H.
  eapply okish_bind with (Q := fun s' => Inv b s' /\ (len s' <= len s1)%nat).
  - destruct (Z.ltb_spec 0 n).
    + eapply repeat_keeps with (k := len s1); auto.
    + replace (Z.to_nat n) with 0%nat by lia. cbn. auto.
  - intros s2 [I2 L2]. eapply okish_mono; [apply Hfin, I2|]. intros [e s3] [I3 L3]. split; [exact I3|lia].
Qed.

Theorem skip_keeps : forall f,
  (forall b t d s, Inv b s -> (2 * len s + 2 <= f)%nat ->
     okish (skip R M f t d s) (fun '(_, s') => Inv b s' /\ (len s' <= len s)%nat)) /\
  (forall b d s, Inv b s -> (2 * len s + 1 <= f)%nat ->
     okish (skip_fields R M f d s) (fun s' => Inv b s' /\ (len s' <= len s)%nat)).
Proof.
  induction f as [|f [IHs IHf]]; [split; intros; lia|]. split.
  - intros b t d s Hs L.
    destruct (Z.eq_dec t STRUCT) as [->|N1]; [rewrite skip_struct|
    destruct (Z.eq_dec t MAP) as [->|N2]; [rewrite skip_map|
    destruct (Z.eq_dec t SET) as [->|N3]; [rewrite skip_set|
    destruct (Z.eq_dec t LIST) as [->|N4]; [rewrite skip_list|]]]].
    + eapply okish_bind; [apply Hsb, Hs|]. intros [[a [e|]] s1] (I1 & I1' & L1); [cbn; auto|].
      eapply okish_bind; [apply (IHf true); [apply I1'; reflexivity|lia]|]. intros s2 [I2 L2].
      eapply okish_mono; [apply Hse, I2|]. intros [e s3] [I3 L3]. split; [apply Inv_true, I3|lia].
    + eapply okish_bind; [apply Hmb, Hs|]. intros [[[[kt vt] n] [e|]] s1] (I1 & L1 & L1'); [cbn; auto|].
      apply elements_keep; auto. intros Hn s' S' L'. specialize (L1' eq_refl Hn).
      eapply okish_bind; [apply (IHs b); [exact S'|lia]|]. intros [e2 s2] [I2 L2].
      eapply okish_mono; [apply (IHs b); [exact I2|lia]|]. intros [e3 s3] [I3 L3]. split; [exact I3|lia].
    + eapply okish_bind; [apply Hsetb, Hs|]. intros [[[et n] [e|]] s1] (I1 & L1 & L1'); [cbn; auto|].
      apply elements_keep; auto. intros Hn s' S' L'. specialize (L1' eq_refl Hn).
      apply IHs; [exact S'|lia].
    + eapply okish_bind; [apply Hlb, Hs|]. intros [[[et n] [e|]] s1] (I1 & L1 & L1'); [cbn; auto|].
      apply elements_keep; auto. intros Hn s' S' L'. specialize (L1' eq_refl Hn).
      apply IHs; [exact S'|lia].
    + cbn [skip].
      repeat match goal with
      | |- context [if ?c then _ else _] =>
        destruct c eqn:?; [first [lia | apply lift_keeps; assumption | cbn; split; [assumption|lia]]|]
      end.
      cbn; split; [assumption|lia].
  - intros b d s Hs L. rewrite skip_fields_S.
    eapply okish_bind; [apply Hfb, Hs|]. intros [[[[nm t] id] e] s1] (I1 & L1 & L1').
    destruct (t =? STOP) eqn:E; [cbn; auto|].
    assert (Lt : (len s1 < len s)%nat) by (apply L1'; lia).
    eapply okish_bind; [apply (IHs b); [exact I1|lia]|]. intros [e2 s2] [I2 L2].
    eapply okish_bind; [apply Hfe, I2|]. intros [e3 s3] [I3 L3].
    eapply okish_mono; [apply (IHf b); [exact I3|lia]|]. intros s4 [I4 L4]. split; [exact I4|lia].
Qed.
End Term.

(** ** TCompactProtocol *)

(** [r'] is what is left of [r] after reading some bytes. *)
Definition left_of (r r' : rt) : Prop := exists d, content r = d ++ content r'.
Lemma left_refl : forall r, left_of r r.
Proof. intros. exists []. reflexivity. Qed.
Lemma left_trans : forall a b c, left_of a b -> left_of b c -> left_of a c.
Proof. intros a b c [d H] [d' H']. exists (d ++ d'). rewrite H, H', app_assoc. reflexivity. Qed.
Lemma left_len : forall a b, left_of a b -> (length (content b) <= length (content a))%nat.
Proof. intros a b [d H]. rewrite H, app_length. lia. Qed.
Lemma read_all_left : forall n r k b e r', read_all n r = (k, b, e, r') -> left_of r r'.
Proof. intros n r k b e r' H. apply read_all_any in H as (d & H & _). exists d. exact H. Qed.

Lemma byte_left : forall r c, exists b e r', cReadByte (r, c) = Ok (b, e, (r', c)) /\ left_of r r' /\
  (b <> 0 -> (length (content r') < length (content r))%nat).
Proof.
  intros r c. destruct (cReadByte_any r c) as (b & e & r' & E & L & Lt). exists b, e, r'.
  split; [exact E|]. split; [|exact Lt]. unfold cReadByte in E.
  destruct (read_all 1 r) as [[[n buf] e1] r1] eqn:X. apply read_all_left in X.
  destruct e1; injection E as _ _ <-; exact X.
Qed.
Lemma varint_left_loop : forall fuel sh res r c v e r',
  readVarint64_loop fuel sh res (r, c) = Ok (v, e, (r', c)) -> left_of r r' /\
  (e = None -> v <> res -> (length (content r') < length (content r))%nat).
Proof.
  induction fuel as [|fuel IH]; intros sh res r c v e r' H; [discriminate|]. cbn [readVarint64_loop] in H.
  destruct (byte_left r c) as (b & e1 & r1 & E & L & Lt). rewrite E in H. cbn [obind] in H.
  destruct e1; [injection H as <- <- <-; split; [exact L|discriminate]|].
  destruct (Z.eq_dec b 0) as [->|Nb].
  - change (negb (Z.land 0 128 =? 128)) with true in H. cbv iota in H.
    injection H as <- <- <-. split; [exact L|]. intros _ N. exfalso. apply N.
    change (Z.land 0 127) with 0. rewrite Z.shiftl_0_l. change (wraps 64 0) with 0.
    destruct (sh <? 64); apply Z.lor_0_r.
  - destruct (negb _).
    + injection H as <- <- <-. auto.
    + apply IH in H as [H1 H2]. split; [eapply left_trans; eauto|]. intros _ _. apply left_len in H1. specialize (Lt Nb). lia.
Qed.
Lemma varint64_left : forall r c, exists v e r', readVarint64 (r, c) = Ok (v, e, (r', c)) /\ left_of r r' /\
  (e = None -> v <> 0 -> (length (content r') < length (content r))%nat).
Proof.
  intros r c. destruct (readVarint64_any r c) as (v & e & r' & E & _). exists v, e, r'. split; [exact E|].
  unfold readVarint64 in E. apply varint_left_loop in E. exact E.
Qed.
Lemma varint32_left : forall r c, exists v e r', readVarint32 (r, c) = Ok (v, e, (r', c)) /\ left_of r r' /\
  (e = None -> v <> 0 -> (length (content r') < length (content r))%nat).
Proof.
  intros r c. unfold readVarint32. destruct (varint64_left r c) as (v & e & r' & -> & L & Lt). cbn [obind].
  exists (wraps 32 v), e, r'. split; [reflexivity|]. split; [exact L|]. intros En Nv. apply Lt; [exact En|].
  intros ->. apply Nv. reflexivity.
Qed.

Section Compact.
Variable r0 : rt.
(** Somewhere on the way a varint is read that is a negative 32-bit number. *)
Definition negative_varint : Prop :=
  exists r c n s', left_of r0 r /\ readVarint32 (r, c) = Ok (n, None, s') /\ n < 0.
Definition clen (s : cr) : nat := length (content (fst s)).
Definition cinv (b : bool) (s : cr) : Prop := left_of r0 (fst s) /\ (b = true -> lastField (snd s) <> []).
Notation okish := (okish negative_varint).

Lemma fin : forall (b : bool) r c r' c', cinv b (r, c) -> left_of r r' -> lastField c' = lastField c ->
  cinv b (r', c') /\ (clen (r', c') <= clen (r, c))%nat.
Proof.
  intros b r c r' c' [H1 H2] L E. split; [split|]; cbn [fst snd] in *.
  - eapply left_trans; eauto.
  - rewrite E. exact H2.
  - apply left_len in L. exact L.
Qed.
Ltac go := cbn [obind]; eapply fin; [eassumption|assumption|reflexivity].

Lemma k_byte : keeps clen negative_varint cinv cReadByte.
Proof. intros b [r c] H. destruct (byte_left r c) as (v & e & r' & -> & L & _). go. Qed.
Lemma k_bool : keeps clen negative_varint cinv cReadBool.
Proof.
  intros b [r c] H. unfold cReadBool. destruct (boolValueIsNotNull c).
  - unfold SkipProofs.okish. eapply fin; [eassumption|apply left_refl|reflexivity].
  - destruct (byte_left r c) as (v & e & r' & -> & L & _). go.
Qed.
Lemma k_i32 : keeps clen negative_varint cinv cReadI32.
Proof.
  intros b [r c] H. unfold cReadI32. destruct (varint32_left r c) as (v & e & r' & -> & L & _).
  destruct e; go.
Qed.
Lemma k_i16 : keeps clen negative_varint cinv cReadI16.
Proof.
  intros b [r c] H. unfold cReadI16, cReadI32. destruct (varint32_left r c) as (v & e & r' & -> & L & _).
  destruct e; go.
Qed.
Lemma k_i64 : keeps clen negative_varint cinv cReadI64.
Proof.
  intros b [r c] H. unfold cReadI64. destruct (varint64_left r c) as (v & e & r' & -> & L & _).
  destruct e; go.
Qed.
Lemma k_double : keeps clen negative_varint cinv cReadDouble.
Proof.
  intros b [r c] H. unfold cReadDouble. destruct (read_all 8 r) as [[[n buf] e] r'] eqn:E.
  apply read_all_left in E. destruct e; go.
Qed.
Lemma k_string : keeps clen negative_varint cinv cReadString.
Proof.
  intros b [r c] H. unfold cReadString, cReadBinary.
  destruct (varint32_left r c) as (v & e & r' & E & L & _). rewrite E. cbn [obind].
  destruct e; [go|]. destruct (v =? 0); [go|].
  destruct (v <? 0) eqn:N.
  - unfold SkipProofs.okish. exists r, c, v, (r', c). split; [apply H|]. split; [exact E|lia].
  - destruct (read_all (Z.to_nat v) r') as [[[n buf] e] r2] eqn:E2. apply read_all_left in E2.
    cbn [obind]. eapply fin; [eassumption|eapply left_trans; eauto|reflexivity].
Qed.
Lemma k_list : forall b s, cinv b s -> okish (cReadListBegin s)
  (fun '((_, n), e, s') => cinv b s' /\ (clen s' <= clen s)%nat /\ (e = None -> 0 < n -> (clen s' < clen s)%nat)).
Proof.
  intros b [r c] H. unfold cReadListBegin. destruct (byte_left r c) as (v & e & r1 & -> & L & Lt). cbn [obind].
  destruct e.
  { unfold SkipProofs.okish. rewrite <- and_assoc. split; [eapply fin; eauto|]. intros; lia. }
  cbv zeta. destruct (Z.land (Z.shiftr v 4) 15 =? 15) eqn:F.
  - assert (Nv : v <> 0) by (intros ->; discriminate F). specialize (Lt Nv).
    destruct (varint32_left r1 c) as (n & e & r2 & -> & L2 & _). cbn [obind].
    pose proof (left_len _ _ L2).
    assert (K : cinv b (r2, c) /\ (clen (r2, c) <= clen (r, c))%nat) by (eapply fin; [eassumption|eapply left_trans; eauto|reflexivity]).
    destruct e; [|destruct (getTType v)]; unfold SkipProofs.okish; (split; [apply K|]); (split; [apply K|]); intros; unfold clen in *; cbn [fst] in *; lia.
  - cbn [obind]. destruct (getTType v) as [t e2]. unfold SkipProofs.okish.
    assert (K : cinv b (r1, c) /\ (clen (r1, c) <= clen (r, c))%nat) by (eapply fin; eauto).
    split; [apply K|]. split; [apply K|]. intros _ N. apply Lt. intros ->. cbn in N. lia.
Qed.
Lemma k_map : forall b s, cinv b s -> okish (cReadMapBegin s)
  (fun '((_, n), e, s') => cinv b s' /\ (clen s' <= clen s)%nat /\ (e = None -> 0 < n -> (clen s' < clen s)%nat)).
Proof.
  intros b [r c] H. unfold cReadMapBegin. destruct (varint32_left r c) as (n & e & r1 & -> & L & Lt). cbn [obind].
  assert (K : cinv b (r1, c) /\ (clen (r1, c) <= clen (r, c))%nat) by (eapply fin; eauto).
  destruct e as [e|].
  { unfold SkipProofs.okish. split; [apply K|]. split; [apply K|]. destruct (pefo_some e) as [e' ->]. discriminate. }
  specialize (Lt eq_refl). destruct (n =? 0) eqn:Z0; cbn [negb].
  - cbn [obind]. unfold SkipProofs.okish. split; [apply K|]. split; [apply K|]. intros; lia.
  - assert (Nn : n <> 0) by lia. specialize (Lt Nn).
    destruct (byte_left r1 c) as (v & e & r2 & -> & L2 & _). cbn [obind]. pose proof (left_len _ _ L2).
    assert (K2 : cinv b (r2, c) /\ (clen (r2, c) <= clen (r, c))%nat) by (eapply fin; [eassumption|eapply left_trans; eauto|reflexivity]).
    destruct e; unfold SkipProofs.okish; (split; [apply K2|]); (split; [apply K2|]); intros; unfold clen in *; cbn [fst] in *; lia.
Qed.
Lemma k_field : forall b s, cinv b s -> okish (cReadFieldBegin s)
  (fun '((_, t, _), _, s') => cinv b s' /\ (clen s' <= clen s)%nat /\ (t <> STOP -> (clen s' < clen s)%nat)).
Proof.
  intros b [r c] H. unfold cReadFieldBegin. destruct (byte_left r c) as (v & e & r1 & -> & L & Lt). cbn [obind].
  assert (K : cinv b (r1, c) /\ (clen (r1, c) <= clen (r, c))%nat) by (eapply fin; eauto).
  destruct e as [e|]; [unfold SkipProofs.okish; split; [apply K|]; split; [apply K|]; unfold STOP; lia|].
  destruct (Z.land v 15 =? STOP) eqn:F; [unfold SkipProofs.okish; split; [apply K|]; split; [apply K|]; unfold STOP; lia|].
  assert (Nv : v <> 0) by (intros ->; discriminate F). specialize (Lt Nv).
  cbv zeta.
  assert (G : forall id r2, left_of r1 r2 -> okish
    (let '(typeId, e2) := getTType (Z.land v 15) in
          match e2 with
          | Some _ => Ok (([] : bytes, typeId, id), protocol_exc_from_os e2, (r2, c))
          | None =>
            let '(r, c) := (r2, c) in
            let c1 := if isBoolType v
                      then set_boolValue c (Z.land v 15 =? COMPACT_BOOLEAN_TRUE) true
                      else c in
            Ok (([] : bytes, typeId, id), None, (r, set_last c1 (lastField c1) id))
          end) (fun '((_, t, _), _, s') => cinv b s' /\ (clen s' <= clen (r, c))%nat /\ (t <> STOP -> (clen s' < clen (r, c))%nat))).
  { intros id r2 L2. pose proof (left_len _ _ L2). assert (L3 : left_of r r2) by (eapply left_trans; eauto).
    destruct (getTType (Z.land v 15)) as [t [e2|]]; unfold SkipProofs.okish.
    - rewrite <- and_assoc. split; [eapply fin; eauto|]. intros _. unfold clen; cbn [fst]. lia.
    - cbv zeta. rewrite <- and_assoc. split; [eapply fin; eauto|intros _; unfold clen; cbn [fst]; lia].
      destruct (isBoolType v); reflexivity. }
  destruct (wraps 16 (Z.shiftr (Z.land v 240) 4) =? 0).
  - unfold cReadI16, cReadI32. destruct (varint32_left r1 c) as (n & e & r2 & -> & L2 & _). cbn [obind].
    assert (K2 : cinv b (r2, c) /\ (clen (r2, c) <= clen (r, c))%nat) by (eapply fin; [eassumption|eapply left_trans; eauto|reflexivity]).
    destruct e as [e|]; cbn [obind].
    + destruct (pefo_some e) as [e' ->]. unfold SkipProofs.okish. split; [apply K2|]. split; [apply K2|]. unfold STOP. lia.
    + apply G. exact L2.
  - cbn [obind]. apply G. apply left_refl.
Qed.

Theorem skip_compact_keeps : forall M f t d c, (2 * length (content r0) + 2 <= f)%nat ->
  okish (skip compactR M f t d (r0, c)) (fun '(_, s') => left_of r0 (fst s')).
Proof.
  intros M f t d c L. eapply okish_mono.
  - apply (skip_keeps compactR M clen negative_varint cinv) with (b := false); [..|exact L];
      cbn [compactR rBool rByte rI16 rI32 rI64 rDouble rString rStructEnd
        rFieldEnd rMapEnd rListEnd rSetEnd rStructBegin rFieldBegin rListBegin rSetBegin rMapBegin];
      auto using k_bool, k_byte, k_i16, k_i32, k_i64, k_double, k_string, k_field, k_list, k_map;
      try (intros b s H; unfold nop, SkipProofs.okish; auto; fail).
    + intros b s [H1 H2]. split; [exact H1|]. intros _. apply H2. reflexivity.
    + intros [r c1] [H1 H2]. unfold cReadStructEnd. cbn [snd] in H2. destruct (lastField c1) eqn:E; [destruct (H2 eq_refl eq_refl)|].
      unfold SkipProofs.okish. eapply fin; [split; [exact H1|]|apply left_refl|]; cbn [snd set_last lastField]; auto.
      intros _. rewrite E. discriminate.
    + intros b [r c1] [H1 H2]. unfold cReadStructBegin, SkipProofs.okish. unfold cinv, clen. cbn [fst snd set_last lastField].
      repeat split; auto; discriminate.
    + split; [apply left_refl|discriminate].
  - intros [e s'] [[H _] _]. exact H.
Qed.
End Compact.
