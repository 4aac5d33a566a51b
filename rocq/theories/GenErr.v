(** Generated writers over a transport whose Write calls may fail. *)
From Coq Require Import ZArith List Bool Lia.
From Verif Require Import Base Errors Transport Proto Arith Values Codec Binary Compact BinaryProofs WriteErr.
From Verif Require Import TField GoVal Compare TMap Gen.
Import ListNotations.
Open Scope Z_scope.

(** A predicate on write operations that the ways of composing them keep holds of the generated
    writers when it holds of the calls of the protocol, with their errors wrapped. *)
Section Closed.
Context {S : Type}.
Variable W : wproto S.
Variable x : ext.
Variable P : wop S -> Prop.
Hypothesis Pcall : forall c, P (wwrap (wexec W c)).
Hypothesis Pwrap : forall m, P m -> P (wwrap m).
Hypothesis Pseq : forall m k, P m -> P k -> P (m >>> k).
Hypothesis Pnop : P nop.
Hypothesis Pbad : forall r : outcome (option err * S), (forall v, r <> Ok v) -> P (fun _ => r).

Ltac pc := match goal with
  | C : (forall c, _ (wwrap (wexec ?W c))) |- _ (wwrap (?o ?W)) => first [exact (C WcListEnd)|exact (C WcSetEnd)|exact (C WcMapEnd)|exact (C WcFieldStop)|exact (C WcStructEnd)|exact (C WcFieldEnd)]
  | C : (forall c, _ (wwrap (wexec ?W c))) |- _ (wwrap (?o ?W ?a)) => first [exact (C (WcBool a))|exact (C (WcByte a))|exact (C (WcI16 a))|exact (C (WcI32 a))|exact (C (WcI64 a))
      |exact (C (WcDouble a))|exact (C (WcString a))|exact (C (WcBinary a))|exact (C (WcStructBegin a))]
  | C : (forall c, _ (wwrap (wexec ?W c))) |- _ (wwrap (?o ?W ?a ?b)) => first [exact (C (WcListBegin a b))|exact (C (WcSetBegin a b))]
  | C : (forall c, _ (wwrap (wexec ?W c))) |- _ (wwrap (?o ?W ?a ?b ?d)) => first [exact (C (WcMapBegin a b d))|exact (C (WcFieldBegin a b d))]
  end.
Lemma closed_seqs : forall l, (forall m, In m l -> P m) -> P (wseqs l).
Proof.
  induction l as [|m l IH]; intro H; cbn [wseqs]; [exact Pnop|].
  apply Pseq; [apply H; left; reflexivity|apply IH; intros k Hk; apply H; right; exact Hk].
Qed.
Lemma closed_map : forall A (g : A -> wop S) l, (forall a, P (g a)) -> P (wseqs (map g l)).
Proof.
  intros A g l H. apply closed_seqs. intros m Hm. apply in_map_iff in Hm. destruct Hm as (a & <- & _). apply H.
Qed.
Lemma closed_gwrite : forall f, (forall t v, P (gwrite W x f t v)) /\ (forall m v, P (gwrite_field W x f m v)).
Proof.
  assert (Bp : P panic_w) by (apply (Pbad Panic); discriminate).
  induction f as [|f [IH IHf]].
  - split; intros; cbn [gwrite gwrite_field]; apply Pbad; discriminate.
  - split.
    + intros t v. destruct t, v; cbn [gwrite]; try exact Bp; try solve [pc];
        try (destruct (str_eq _ _); [|exact Bp]); try (destruct (_ =? _); [|exact Bp]; pc);
        repeat (apply Pseq; [try solve [pc]|try solve [pc]]); try (apply closed_map; intro; auto).
      destruct (map_entries _ _ _ _ _); cbn [obind]; [|apply Pbad; discriminate|apply Pbad; discriminate].
      apply (closed_map _ (fun kv => gwrite W x f t1 (fst kv) >>> gwrite W x f t2 (snd kv))).
      intros [? ?]. apply Pseq; apply IH.
    + intros m v. cbn [gwrite_field]. destruct (gemits m v); [|exact Pnop].
      apply Pseq; [pc|]. apply Pseq; [apply Pwrap, IH|pc].
Qed.
Lemma closed_result : forall f name ms attrs, P (gwrite_result W x f name ms attrs).
Proof.
  intros. unfold gwrite_result. apply Pseq; [pc|]. apply Pseq; [|apply Pseq; pc].
  destruct (result_pick _ _ _); [apply (proj2 (closed_gwrite f))|exact Pnop].
Qed.
End Closed.

(** ** Errors *)

(** The error a generated writer returns when a Write of the transport returned [e0]: a protocol
    exception with the number of the transport's error, INVALID_DATA when that has none. *)
Definition reported (e0 e : err) : Prop :=
  e = EProtocol (match e0 with
                 | ETransport t | EProtocol t => if t =? 0 then INVALID_DATA else t
                 | _ => INVALID_DATA
                 end).

Lemma wrap_wrapped : forall e0 e, wrapped e0 e -> reported e0 (protocol_exc_wrap e).
Proof.
  intros e0 e H. unfold wrapped, protocol_exc_from_os in H. unfold reported, protocol_exc_wrap.
  destruct e0; cbn in H; injection H; intros; subst; reflexivity.
Qed.
Lemma wrap_reported : forall e0 e, reported e0 e -> reported e0 (protocol_exc_wrap e).
Proof.
  intros e0 e ->. unfold reported, protocol_exc_wrap. cbn [typeid_int]. f_equal.
  destruct e0; try reflexivity; unfold UNKNOWN_PROTOCOL_EXCEPTION, INVALID_DATA; destruct (t =? 0) eqn:E; auto; now rewrite E.
Qed.

Section Used.
Context {S : Type}.
Variable W : wproto S.
Variable view : S -> wt.
Hypothesis Wu : forall c, ugood view wrapped (wexec W c).
Lemma used_wwrap : forall (cls cls' : err -> err -> Prop) m,
  (forall e0 e, cls e0 e -> cls' e0 (protocol_exc_wrap e)) -> ugood view cls m -> ugood view cls' (wwrap m).
Proof.
  intros cls cls' m Hc G s e s' H. unfold wwrap in H.
  destruct (m s) as [[e1 s1]| |] eqn:E; cbn [obind] in H; try discriminate.
  apply G in E. destruct e1 as [e1|]; injection H; intros; subst.
  - destruct E as [O (p & k & e0 & F & D & C)]. split; [exact O|]. exists p, k, e0. auto.
  - exact E.
Qed.
Lemma used_bad : forall r : outcome (option err * S), (forall v, r <> Ok v) -> ugood view reported (fun _ => r).
Proof. intros r H s e s' E. destruct (H _ E). Qed.
Lemma used_gwrite : forall x f t v, ugood view reported (gwrite W x f t v).
Proof.
  intros. apply closed_gwrite.
  - intro c. eapply used_wwrap; [exact wrap_wrapped|apply Wu].
  - intros m. apply used_wwrap. exact wrap_reported.
  - intros. apply ugood_seq; assumption.
  - apply ugood_nop.
  - apply used_bad.
Qed.
Lemma used_result : forall x f name ms attrs, ugood view reported (gwrite_result W x f name ms attrs).
Proof.
  intros. apply closed_result.
  - intro c. eapply used_wwrap; [exact wrap_wrapped|apply Wu].
  - intros m. apply used_wwrap. exact wrap_reported.
  - intros. apply ugood_seq; assumption.
  - apply ugood_nop.
  - apply used_bad.
Qed.
End Used.

(** ** What an operation without an error did *)

(** The same transport, all of whose Write calls are going to succeed. *)
Definition calm (w : wt) : wt := MkWt (w_out w) [].
Definition calmed {S} (f : S -> S) (op : wop S) : Prop :=
  forall s s', op s = Ok (None, s') -> op (f s) = Ok (None, f s').

Lemma calmed_seq : forall S (f : S -> S) m k, calmed f m -> calmed f k -> calmed f (m >>> k).
Proof.
  intros S f m k M K s s' H. unfold wseq in *.
  destruct (m s) as [[[e1|] s1]| |] eqn:E; cbn [obind] in H; try discriminate.
  rewrite (M _ _ E). cbn [obind]. apply K, H.
Qed.
Lemma calmed_nop : forall S (f : S -> S), calmed f nop.
Proof. intros S f s s' H. inversion H; subst. reflexivity. Qed.
Lemma calmed_bad : forall S (f : S -> S) (r : outcome (option err * S)), (forall v, r <> Ok v) -> calmed f (fun _ => r).
Proof. intros S f r H s s' E. destruct (H _ E). Qed.
Lemma calmed_wwrap : forall S (f : S -> S) m, calmed f m -> calmed f (wwrap m).
Proof.
  intros S f m M s s' H. unfold wwrap in *.
  destruct (m s) as [[[e1|] s1]| |] eqn:E; cbn [obind] in H; try discriminate.
  rewrite (M _ _ E). cbn [obind]. injection H; intros; subst. reflexivity.
Qed.
Section Calmed.
Context {S : Type}.
Variable W : wproto S.
Variable f : S -> S.
Hypothesis Wc : forall c, calmed f (wexec W c).
Lemma calmed_gwrite : forall x n t v, calmed f (gwrite W x n t v).
Proof.
  intros. apply closed_gwrite.
  - intro c. apply calmed_wwrap, Wc.
  - intros m. apply calmed_wwrap.
  - apply calmed_seq.
  - apply calmed_nop.
  - apply calmed_bad.
Qed.
Lemma calmed_result : forall x n name ms attrs, calmed f (gwrite_result W x n name ms attrs).
Proof.
  intros. apply closed_result.
  - intro c. apply calmed_wwrap, Wc.
  - intros m. apply calmed_wwrap.
  - apply calmed_seq.
  - apply calmed_nop.
  - apply calmed_bad.
Qed.
End Calmed.

Lemma pefo_none : forall e, protocol_exc_from_os e = None -> e = None.
Proof. intros [e|] H; [|reflexivity]. destruct (pefo_some e) as [y Y]. congruence. Qed.
Lemma twrite_calm : forall bs w n w', twrite bs w = (n, None, w') -> twrite bs (calm w) = (n, None, calm w').
Proof.
  intros bs [o sch] n w' H. unfold twrite in *. cbn in *.
  destruct sch as [|[|k e0] sch]; inversion H; subst; reflexivity.
Qed.
Lemma copy_calm : forall f bs w w', copy_blocks f bs w = (None, w') -> copy_blocks f bs (calm w) = (None, calm w').
Proof.
  induction f as [|f IH]; intros bs w w' H; cbn [copy_blocks] in *; [now inversion H|].
  destruct bs as [|b bs]; [now inversion H|].
  destruct (twrite (firstn copy_block (b :: bs)) w) as [[n [e1|]] w1] eqn:T; [discriminate|].
  rewrite (twrite_calm _ _ _ _ T). apply IH, H.
Qed.
Lemma b_write_calm : forall bs, calmed calm (b_write bs).
Proof.
  intros bs w w' H. unfold b_write in *.
  destruct (twrite bs w) as [[n e1] w1] eqn:T. injection H; intros; subst.
  match goal with E : _ = None |- _ => apply pefo_none in E; subst end.
  rewrite (twrite_calm _ _ _ _ T). reflexivity.
Qed.
Lemma copy_n_calm : forall bs, calmed calm
  (fun w => let '(e, w') := copy_n bs w in Ok (protocol_exc_from_os e, w')).
Proof.
  intros bs w w' H. destruct (copy_n bs w) as [e1 w1] eqn:T. injection H; intros; subst.
  match goal with E : _ = None |- _ => apply pefo_none in E; subst end.
  unfold copy_n in *. rewrite (copy_calm _ _ _ _ T). reflexivity.
Qed.
Ltac bcalm := repeat first [apply calmed_seq | apply calmed_nop | apply b_write_calm | apply copy_n_calm].
Theorem binary_calm : forall strict c, calmed calm (wexec (binaryW strict) c).
Proof.
  intros strict c. destruct c; cbn [wexec binaryW wMessageBegin wMessageEnd wStructBegin wStructEnd
    wFieldBegin wFieldEnd wFieldStop wMapBegin wMapEnd wListBegin wListEnd wSetBegin wSetEnd
    wBool wByte wI16 wI32 wI64 wDouble wString wBinary];
  unfold bWriteMessageBegin, bWriteFieldBegin, bWriteFieldStop, bWriteMapBegin, bWriteListBegin,
    bWriteSetBegin, bWriteBool, bWriteDouble, bWriteString, bWriteBinary, bWriteI64, bWriteI32,
    bWriteI16, bWriteByte; try solve [bcalm].
  - destruct strict; bcalm.
  - destruct b; bcalm.
Qed.

Definition ccalm (s : cw) : cw := (calm (fst s), snd s).
Lemma raw_calm : forall bs, calmed ccalm (c_write_raw bs).
Proof.
  intros bs [w c] [w' c'] H. unfold c_write_raw, ccalm in *. cbn [fst snd].
  destruct (twrite bs w) as [[n e1] w1] eqn:T. injection H; intros; subst.
  rewrite (twrite_calm _ _ _ _ T). reflexivity.
Qed.
Lemma wrap_calm : forall op, calmed ccalm op -> calmed ccalm (wrap_exc op).
Proof.
  intros op G s s' H. unfold wrap_exc in *.
  destruct (op s) as [[e1 s1]| |] eqn:E; cbn [obind] in H; try discriminate.
  injection H; intros; subst.
  match goal with E : _ = None |- _ => apply pefo_none in E; subst end.
  rewrite (G _ _ E). reflexivity.
Qed.
Lemma varint32_calm : forall n, calmed ccalm (writeVarint32 n).
Proof.
  intros n s s' H. unfold writeVarint32 in *. destruct (varint32_bytes 5 n); cbn [obind] in *; try discriminate.
  apply raw_calm, H.
Qed.
Lemma varint64_calm : forall n, calmed ccalm (writeVarint64 n).
Proof.
  intros n s s' H. unfold writeVarint64 in *. destruct (varint64_bytes 10 n); cbn [obind] in *; try discriminate.
  apply raw_calm, H.
Qed.
Lemma state_calm : forall (f : cstate -> cstate), calmed ccalm (fun '(w, c) => Ok (None, (w, f c))).
Proof. intros f [w c] [w' c'] H. inversion H; subst. reflexivity. Qed.
Ltac ccl := repeat first
  [ apply calmed_seq | apply calmed_nop | apply wrap_calm | apply raw_calm
  | apply varint32_calm | apply varint64_calm ].
Lemma fbi_calm : forall t id ov, calmed ccalm (writeFieldBeginInternal t id ov).
Proof.
  intros t id ov [w c] s' H. unfold writeFieldBeginInternal in *. unfold ccalm at 1. cbn [fst snd].
  destruct (if ov =? 255 then getCompactType t else Ok ov); cbn [obind] in *; try discriminate.
  revert H. change (calm w, c) with (ccalm (w, c)). apply calmed_seq with (s := (w, c)).
  - destruct (_ && _); [apply raw_calm|]. apply calmed_seq; [apply raw_calm|]. unfold cWriteI16. ccl.
  - apply (state_calm (fun c => set_last c (lastField c) id)).
Qed.
Theorem compact_calm : forall c, calmed ccalm (wexec compactW c).
Proof.
  intros c. destruct c; cbn [wexec compactW wMessageBegin wMessageEnd wStructBegin wStructEnd
    wFieldBegin wFieldEnd wFieldStop wMapBegin wMapEnd wListBegin wListEnd wSetBegin wSetEnd
    wBool wByte wI16 wI32 wI64 wDouble wString wBinary];
  unfold cWriteMessageBegin, cWriteFieldStop, cWriteListBegin, cWriteSetBegin, cWriteDouble,
    cWriteString, cWriteBinary, cWriteI64, cWriteI32, cWriteI16, cWriteByte, writeByteDirect;
  try solve [ccl].
  - ccl. destruct (_ <? _)%nat; ccl.
  - apply (state_calm (fun c => set_last c (lastFieldId c :: lastField c) 0)).
  - intros [w c] s' H. unfold cWriteStructEnd, ccalm in *. cbn [fst snd]. destruct (lastField c); [discriminate|].
    inversion H; subst. reflexivity.
  - intros [w c] s' H. unfold cWriteFieldBegin in *. unfold ccalm at 1. cbn [fst snd]. destruct (t =? BOOL).
    + inversion H; subst. reflexivity.
    + apply (wrap_calm _ (fbi_calm _ _ _)) in H. exact H.
  - unfold cWriteMapBegin, writeByteDirect. destruct (n =? 0); [ccl|].
    apply calmed_seq; [ccl|]. intros s s' H.
    destruct (getCompactType k); cbn [obind] in *; try discriminate.
    destruct (getCompactType v); cbn [obind] in *; try discriminate.
    revert H. apply wrap_calm. ccl.
  - apply wrap_calm. intros s s' H. unfold writeCollectionBegin, writeByteDirect in *.
    destruct (getCompactType t); cbn [obind] in *; try discriminate.
    destruct (n <=? 14); revert H; [apply raw_calm|].
    apply calmed_seq; ccl.
  - apply wrap_calm. intros s s' H. unfold writeCollectionBegin, writeByteDirect in *.
    destruct (getCompactType t); cbn [obind] in *; try discriminate.
    destruct (n <=? 14); revert H; [apply raw_calm|].
    apply calmed_seq; ccl.
  - intros [w c] s' H. unfold cWriteBool, writeByteDirect in *. unfold ccalm at 1. cbn [fst snd].
    destruct (booleanField c) as [[t id]|].
    + destruct (writeFieldBeginInternal t id _ (w, c)) as [[e1 [w1 c1]]| |] eqn:E;
        cbn [obind] in H; try discriminate.
      injection H; intros; subst.
      match goal with E : _ = None |- _ => apply pefo_none in E; subst end.
      apply fbi_calm in E. unfold ccalm in E. cbn [fst snd] in E. rewrite E. reflexivity.
    + revert H. change (calm w, c) with (ccalm (w, c)). apply wrap_calm. ccl.
  - ccl. destruct (_ <? _)%nat; ccl.
  - ccl. destruct (_ <? _)%nat; ccl.
Qed.
