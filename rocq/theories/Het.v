(** Two protocols over different states that answer alike: everything written against the
    protocol interface, the library's or generated, cannot tell them apart. *)
From Coq Require Import ZArith List Bool Lia.
From Verif Require Import Base Errors Transport Proto Skip Values ReadProg.
From Verif Require Import Arith TField GoVal Compare TSet TMap Gen AppExc Rpc.
Import ListNotations.
Open Scope Z_scope.

Section Het.
Variable pan : bool.     (* whether the first may panic where the second does not *)

Definition hsame {S1 S2 A} (sim : S1 -> S2 -> Prop) (o1 : outcome (A * S1)) (o2 : outcome (A * S2)) : Prop :=
  match o1, o2 with
  | Ok (a1, s1), Ok (a2, s2) => a1 = a2 /\ sim s1 s2
  | Panic, Panic => True
  | OutOfFuel, OutOfFuel => True
  | Panic, _ => pan = true
  | _, _ => False
  end.
Definition hsame1 {S1 S2} (sim : S1 -> S2 -> Prop) (o1 : outcome S1) (o2 : outcome S2) : Prop :=
  match o1, o2 with
  | Ok s1, Ok s2 => sim s1 s2
  | Panic, Panic => True
  | OutOfFuel, OutOfFuel => True
  | Panic, _ => pan = true
  | _, _ => False
  end.
Definition hresp {S1 S2 A} (sim : S1 -> S2 -> Prop) (op1 : S1 -> outcome (A * S1)) (op2 : S2 -> outcome (A * S2)) : Prop :=
  forall s1 s2, sim s1 s2 -> hsame sim (op1 s1) (op2 s2).

Lemma hsame_ok : forall S1 S2 (sim : S1 -> S2 -> Prop) A (a : A) s1 s2,
  sim s1 s2 -> hsame sim (Ok (a, s1)) (Ok (a, s2)).
Proof. intros. cbn. auto. Qed.
Lemma hsame_bind : forall S1 S2 S1' S2' (sim : S1 -> S2 -> Prop) (sim' : S1' -> S2' -> Prop) A B
    (o1 : outcome (A * S1)) (o2 : outcome (A * S2))
    (k1 : A * S1 -> outcome (B * S1')) (k2 : A * S2 -> outcome (B * S2')),
  hsame sim o1 o2 -> (forall a s1 s2, sim s1 s2 -> hsame sim' (k1 (a, s1)) (k2 (a, s2))) ->
  hsame sim' (obind o1 k1) (obind o2 k2).
Proof.
  intros S1 S2 S1' S2' sim sim' A B [[a1 s1]| |] [[a2 s2]| |] k1 k2 H K; cbn in *; try contradiction; auto.
  - destruct H as [-> H]. apply K, H.
  - destruct (k2 (a2, s2)) as [[]| |]; auto.
Qed.
Lemma hsame1_bind : forall S1 S2 S1' S2' (sim : S1 -> S2 -> Prop) (sim' : S1' -> S2' -> Prop) B
    (o1 : outcome S1) (o2 : outcome S2) (k1 : S1 -> outcome (B * S1')) (k2 : S2 -> outcome (B * S2')),
  hsame1 sim o1 o2 -> (forall s1 s2, sim s1 s2 -> hsame sim' (k1 s1) (k2 s2)) ->
  hsame sim' (obind o1 k1) (obind o2 k2).
Proof.
  intros S1 S2 S1' S2' sim sim' B [s1| |] [s2| |] k1 k2 H K; cbn in *; try contradiction; auto.
  destruct (k2 s2) as [[]| |]; auto.
Qed.
Lemma hsame_bind1 : forall S1 S2 S1' S2' (sim : S1 -> S2 -> Prop) (sim' : S1' -> S2' -> Prop) A
    (o1 : outcome (A * S1)) (o2 : outcome (A * S2)) (k1 : A * S1 -> outcome S1') (k2 : A * S2 -> outcome S2'),
  hsame sim o1 o2 -> (forall a s1 s2, sim s1 s2 -> hsame1 sim' (k1 (a, s1)) (k2 (a, s2))) ->
  hsame1 sim' (obind o1 k1) (obind o2 k2).
Proof.
  intros S1 S2 S1' S2' sim sim' A [[a1 s1]| |] [[a2 s2]| |] k1 k2 H K; cbn in *; try contradiction; auto.
  - destruct H as [-> H]. apply K, H.
  - destruct (k2 (a2, s2)) as [| |]; auto.
Qed.
Lemma hsame_pure : forall S1 S2 (sim : S1 -> S2 -> Prop) A B (o : outcome A)
    (k1 : A -> outcome (B * S1)) (k2 : A -> outcome (B * S2)),
  (forall a, hsame sim (k1 a) (k2 a)) -> hsame sim (obind o k1) (obind o k2).
Proof. intros S1 S2 sim A B [a| |] k1 k2 H; cbn; auto. Qed.

Section Protos.
Context {S1 S2 : Type}.
Variable sim : S1 -> S2 -> Prop.

Record rrel (R1 : rproto S1) (R2 : rproto S2) : Prop := MkRrel {
  qMessageBegin : hresp sim (rMessageBegin R1) (rMessageBegin R2);
  qMessageEnd : hresp sim (rMessageEnd R1) (rMessageEnd R2);
  qStructBegin : hresp sim (rStructBegin R1) (rStructBegin R2);
  qStructEnd : hresp sim (rStructEnd R1) (rStructEnd R2);
  qFieldBegin : hresp sim (rFieldBegin R1) (rFieldBegin R2);
  qFieldEnd : hresp sim (rFieldEnd R1) (rFieldEnd R2);
  qMapBegin : hresp sim (rMapBegin R1) (rMapBegin R2);
  qMapEnd : hresp sim (rMapEnd R1) (rMapEnd R2);
  qListBegin : hresp sim (rListBegin R1) (rListBegin R2);
  qListEnd : hresp sim (rListEnd R1) (rListEnd R2);
  qSetBegin : hresp sim (rSetBegin R1) (rSetBegin R2);
  qSetEnd : hresp sim (rSetEnd R1) (rSetEnd R2);
  qBool : hresp sim (rBool R1) (rBool R2);
  qByte : hresp sim (rByte R1) (rByte R2);
  qI16 : hresp sim (rI16 R1) (rI16 R2);
  qI32 : hresp sim (rI32 R1) (rI32 R2);
  qI64 : hresp sim (rI64 R1) (rI64 R2);
  qDouble : hresp sim (rDouble R1) (rDouble R2);
  qString : hresp sim (rString R1) (rString R2);
  qBinary : hresp sim (rBinary R1) (rBinary R2)
}.
Record wrel (W1 : wproto S1) (W2 : wproto S2) : Prop := MkWrel {
  pMessageBegin : forall n t i, hresp sim (wMessageBegin W1 n t i) (wMessageBegin W2 n t i);
  pMessageEnd : hresp sim (wMessageEnd W1) (wMessageEnd W2);
  pStructBegin : forall n, hresp sim (wStructBegin W1 n) (wStructBegin W2 n);
  pStructEnd : hresp sim (wStructEnd W1) (wStructEnd W2);
  pFieldBegin : forall n t i, hresp sim (wFieldBegin W1 n t i) (wFieldBegin W2 n t i);
  pFieldEnd : hresp sim (wFieldEnd W1) (wFieldEnd W2);
  pFieldStop : hresp sim (wFieldStop W1) (wFieldStop W2);
  pMapBegin : forall k v n, hresp sim (wMapBegin W1 k v n) (wMapBegin W2 k v n);
  pMapEnd : hresp sim (wMapEnd W1) (wMapEnd W2);
  pListBegin : forall t n, hresp sim (wListBegin W1 t n) (wListBegin W2 t n);
  pListEnd : hresp sim (wListEnd W1) (wListEnd W2);
  pSetBegin : forall t n, hresp sim (wSetBegin W1 t n) (wSetBegin W2 t n);
  pSetEnd : hresp sim (wSetEnd W1) (wSetEnd W2);
  pBool : forall v, hresp sim (wBool W1 v) (wBool W2 v);
  pByte : forall v, hresp sim (wByte W1 v) (wByte W2 v);
  pI16 : forall v, hresp sim (wI16 W1 v) (wI16 W2 v);
  pI32 : forall v, hresp sim (wI32 W1 v) (wI32 W2 v);
  pI64 : forall v, hresp sim (wI64 W1 v) (wI64 W2 v);
  pDouble : forall v, hresp sim (wDouble W1 v) (wDouble W2 v);
  pString : forall v, hresp sim (wString W1 v) (wString W2 v);
  pBinary : forall v, hresp sim (wBinary W1 v) (wBinary W2 v)
}.

Lemma hnop : hresp sim nop nop.
Proof. intros s1 s2 E. apply hsame_ok, E. Qed.
Lemma hunit : forall (m1 : wop S1) (m2 : wop S2), hresp sim m1 m2 -> hresp sim (unit_op m1) (unit_op m2).
Proof. intros m1 m2 H s1 s2 E. eapply hsame_bind; [apply H, E|]. intros. apply hsame_ok; assumption. Qed.
Lemma hdrop : forall A (m1 : rop S1 A) (m2 : rop S2 A), hresp sim m1 m2 ->
  hresp sim (fun s => '(_, e, s1) <- m1 s ;; Ok (e, s1)) (fun s => '(_, e, s1) <- m2 s ;; Ok (e, s1)).
Proof.
  intros A m1 m2 H s1 s2 E. eapply hsame_bind; [apply H, E|]. intros [a e] ? ? ?. apply hsame_ok; assumption.
Qed.
Lemma hrepeat_ignoring : forall n (b1 : wop S1) (b2 : wop S2), hresp sim b1 b2 ->
  forall s1 s2, sim s1 s2 -> hsame1 sim (repeat_ignoring n b1 s1) (repeat_ignoring n b2 s2).
Proof.
  induction n as [|n IH]; intros b1 b2 H s1 s2 E; cbn [repeat_ignoring]; [exact E|].
  eapply hsame_bind1; [apply H, E|]. intros. apply IH; assumption.
Qed.

(** ** Reading *)
Section R.
Variable R1 : rproto S1.
Variable R2 : rproto S2.
Hypothesis RR : rrel R1 R2.

Lemma hskip : forall M f, (forall t d, hresp sim (skip R1 M f t d) (skip R2 M f t d)) /\
  (forall d s1 s2, sim s1 s2 -> hsame1 sim (skip_fields R1 M f d s1) (skip_fields R2 M f d s2)).
Proof.
  intros M. destruct RR. induction f as [|f [IHs IHf]].
  - split; [intros t d s1 s2 E; exact I|intros; exact I].
  - split.
    + intros t d s1 s2 E. cbn [skip].
      repeat match goal with
      | |- hsame _ (if ?c then _ else _) _ =>
        destruct c eqn:?; [first [apply hsame_ok; exact E | apply hdrop; assumption | idtac]|]
      end; [| | | |apply hsame_ok; exact E].
      * eapply hsame_bind; [apply qStructBegin0, E|]. intros [a [e|]] t1 t2 E';
          [apply hsame_ok; exact E'|].
        eapply hsame1_bind; [apply IHf, E'|]. intros; apply qStructEnd0; assumption.
      * eapply hsame_bind; [apply qMapBegin0, E|]. intros [[[k v] n] [e|]] t1 t2 E';
          [apply hsame_ok; exact E'|].
        eapply hsame1_bind; [apply hrepeat_ignoring; [|exact E']|intros; apply qMapEnd0; assumption].
        intros u1 u2 Eu. eapply hsame_bind; [apply IHs, Eu|]. intros; apply IHs; assumption.
      * eapply hsame_bind; [apply qSetBegin0, E|]. intros [[et n] [e|]] t1 t2 E';
          [apply hsame_ok; exact E'|].
        eapply hsame1_bind; [apply hrepeat_ignoring; [apply IHs|exact E']|
                            intros; apply qSetEnd0; assumption].
      * eapply hsame_bind; [apply qListBegin0, E|]. intros [[et n] [e|]] t1 t2 E';
          [apply hsame_ok; exact E'|].
        eapply hsame1_bind; [apply hrepeat_ignoring; [apply IHs|exact E']|
                            intros; apply qListEnd0; assumption].
    + intros d s1 s2 E.
      change (hsame1 sim
        ('((_, typeId, _), _, s1) <- rFieldBegin R1 s1 ;;
         if typeId =? STOP then Ok s1
         else '(_, s2) <- skip R1 M f typeId (d - 1) s1 ;;
              '(_, s3) <- rFieldEnd R1 s2 ;; skip_fields R1 M f d s3)
        ('((_, typeId, _), _, s1) <- rFieldBegin R2 s2 ;;
         if typeId =? STOP then Ok s1
         else '(_, s2) <- skip R2 M f typeId (d - 1) s1 ;;
              '(_, s3) <- rFieldEnd R2 s2 ;; skip_fields R2 M f d s3)).
      eapply hsame_bind1; [apply qFieldBegin0, E|]. intros [[[nm t] id] e] t1 t2 E'.
      destruct (t =? STOP); [exact E'|].
      eapply hsame_bind1; [apply IHs, E'|]. intros e2 u1 u2 E2.
      eapply hsame_bind1; [apply qFieldEnd0, E2|]. intros e3 v1 v2 E3. apply IHf, E3.
Qed.
Lemma hskip_default : forall M f t, hresp sim (skip_default R1 M f t) (skip_default R2 M f t).
Proof. intros. unfold skip_default. apply hskip. Qed.

Theorem hcall : forall A (c : rcall A), hresp sim (ReadProg.call R1 c) (ReadProg.call R2 c).
Proof.
  intros A c. pose proof hskip as K. destruct RR. destruct c; cbn [ReadProg.call]; try assumption;
    apply hunit; try assumption. apply K.
Qed.
Theorem hrun : forall X (p : rprog X), hresp sim (run R1 p) (run R2 p).
Proof.
  intros X p. induction p as [x|A c k IH]; intros s1 s2 E; cbn [run].
  - apply hsame_ok, E.
  - eapply hsame_bind; [apply hcall, E|]. intros [a e] t1 t2 E'. apply IH, E'.
Qed.

Lemma h_ret : forall A (a : A), hresp sim (hret a) (hret a).
Proof. intros A a s1 s2 E. apply hsame_ok, E. Qed.
Lemma h_bind : forall A B (m1 : hop S1 A) (m2 : hop S2 A) (k1 : A -> hop S1 B) (k2 : A -> hop S2 B),
  hresp sim m1 m2 -> (forall a, hresp sim (k1 a) (k2 a)) -> hresp sim (hbind m1 k1) (hbind m2 k2).
Proof.
  intros A B m1 m2 k1 k2 H K s1 s2 E. unfold hbind. eapply hsame_bind; [apply H, E|].
  intros [a|e] t1 t2 E'; [apply K, E'|apply hsame_ok, E'].
Qed.
Lemma h_lift : forall A (m1 : rop S1 A) (m2 : rop S2 A), hresp sim m1 m2 -> hresp sim (hlift m1) (hlift m2).
Proof.
  intros A m1 m2 H s1 s2 E. unfold hlift. eapply hsame_bind; [apply H, E|].
  intros [a [e|]] t1 t2 E'; apply hsame_ok, E'.
Qed.
Lemma h_do : forall (m1 : wop S1) (m2 : wop S2), hresp sim m1 m2 -> hresp sim (hdo m1) (hdo m2).
Proof.
  intros m1 m2 H s1 s2 E. unfold hdo. eapply hsame_bind; [apply H, E|].
  intros [e|] t1 t2 E'; apply hsame_ok, E'.
Qed.
Lemma h_wrap : forall A (m1 : hop S1 A) (m2 : hop S2 A), hresp sim m1 m2 -> hresp sim (hwrap m1) (hwrap m2).
Proof.
  intros A m1 m2 H s1 s2 E. unfold hwrap. eapply hsame_bind; [apply H, E|].
  intros [a|e] t1 t2 E'; apply hsame_ok, E'.
Qed.
Lemma h_out : forall A (o : outcome A), hresp sim (hout o) (hout o).
Proof. intros A o s1 s2 E. unfold hout. apply hsame_pure. intro. apply hsame_ok, E. Qed.
Lemma h_fuel : forall A, hresp sim (fun _ => @OutOfFuel (A * S1)) (fun _ => OutOfFuel).
Proof. intros A s1 s2 E. exact I. Qed.
Lemma h_gfill : forall A B n (e1 : hop S1 B) (e2 : hop S2 B) (put : A -> B -> outcome A) a,
  hresp sim e1 e2 -> hresp sim (gfill n e1 put a) (gfill n e2 put a).
Proof.
  intros A B n e1 e2 put. induction n as [|n IH]; intros a H; cbn [gfill]; [apply h_ret|].
  apply h_bind; [exact H|]. intro v. apply h_bind; [apply h_out|]. intro a'. apply IH, H.
Qed.

Ltac hs := repeat first
  [ apply h_ret | apply h_out | apply h_wrap | apply h_lift | apply h_do | apply h_gfill
  | apply h_bind; [|intro] | assumption | apply hskip_default ].

Variable x : ext.
Variable M : Z.
Variable cf : nat.
Theorem hgread : forall f,
  (forall t, hresp sim (gread R1 x M cf f t) (gread R2 x M cf f t)) /\
  (forall ms a, hresp sim (gread_fields R1 x M cf f ms a) (gread_fields R2 x M cf f ms a)).
Proof.
  pose proof hskip_default as K. destruct RR. induction f as [|f [IHr IHf]].
  - split; intros; apply h_fuel.
  - split.
    + intros []; cbn [gread]; try solve [hs].
      * apply h_bind; [hs|]. intros [t0 n]. hs. apply IHr.
      * apply h_bind; [hs|]. intros [t0 n]. hs. apply IHr.
      * apply h_bind; [hs|]. intros [[k0 v0] n]. hs; apply IHr.
      * hs. apply IHf.
    + intros ms a. cbn [gread_fields].
      apply h_bind; [hs|]. intros [[nm t0] i]. cbv zeta.
      match goal with |- hresp _ (if ?c then _ else _) _ => destruct c end; [hs|].
      apply h_bind; [|intro; apply h_bind; [hs|intro; apply IHf]].
      destruct (find _ _) as [m|]; [|hs].
      match goal with |- hresp _ (if ?c then _ else _) _ => destruct c end; hs. apply IHr.
Qed.

Lemma happ_fields : forall f msg t, hresp sim (app_fields R1 M f msg t) (app_fields R2 M f msg t).
Proof.
  pose proof hskip_default as K. destruct RR.
  induction f as [|f IH]; intros msg t; cbn [app_fields]; [apply h_fuel|].
  apply h_bind; [hs|]. intros [[nm tt] id].
  destruct (tt =? STOP); [hs|]. apply h_bind; [|intros [m' t']; apply h_bind; [hs|intro; apply IH]].
  destruct (id =? 1), (id =? 2), (tt =? STRING), (tt =? I32); hs.
Qed.
Lemma happ_read : forall f, hresp sim (app_read R1 M f) (app_read R2 M f).
Proof.
  intros f s1 s2 E. unfold app_read. pose proof (happ_fields f) as K. destruct RR.
  eapply hsame_bind; [apply qStructBegin0, E|]. intros [nm [e|]] t1 t2 E'; [apply hsame_ok, E'|].
  eapply hsame_bind; [apply K, E'|]. intros [v|e] u1 u2 E2; [|apply hsame_ok, E2].
  eapply hsame_bind; [apply qStructEnd0, E2|]. intros e v1 v2 E3. apply hsame_ok, E3.
Qed.
Theorem hrecv_on : forall fuel f seq, hresp sim (recv_on R1 x M cf fuel f seq) (recv_on R2 x M cf fuel f seq).
Proof.
  intros fuel f seq s1 s2 E. unfold recv_on. cbv zeta.
  pose proof (happ_read fuel) as KA. pose proof (proj1 (hgread fuel)) as KG. destruct RR.
  eapply hsame_bind; [apply qMessageBegin0, E|]. intros [[[nm t] sq] [e|]] t1 t2 E'; [apply hsame_ok, E'|].
  destruct (t =? EXCEPTION).
  - eapply hsame_bind; [apply KA, E'|]. intros [ex [e|]] u1 u2 E2; [apply hsame_ok, E2|].
    eapply hsame_bind; [apply qMessageEnd0, E2|]. intros [e|] v1 v2 E3; apply hsame_ok, E3.
  - destruct (negb (seq =? sq)); [apply hsame_ok, E'|].
    eapply hsame_bind; [apply KG, E'|]. intros r u1 u2 E2.
    eapply hsame_bind; [apply qMessageEnd0, E2|]. intros e v1 v2 E3.
    destruct r; apply hsame_ok, E3.
Qed.
End R.

(** ** Writing *)
Section W.
Variable W1 : wproto S1.
Variable W2 : wproto S2.
Hypothesis WW : wrel W1 W2.

Lemma h_seq : forall (a1 b1 : wop S1) (a2 b2 : wop S2),
  hresp sim a1 a2 -> hresp sim b1 b2 -> hresp sim (a1 >>> b1) (a2 >>> b2).
Proof.
  intros a1 b1 a2 b2 H K s1 s2 E. unfold wseq. eapply hsame_bind; [apply H, E|].
  intros [e|] t1 t2 E'; [apply hsame_ok, E'|apply K, E'].
Qed.
Lemma h_seqs : forall A (f1 : A -> wop S1) (f2 : A -> wop S2) l,
  (forall a, hresp sim (f1 a) (f2 a)) -> hresp sim (wseqs (map f1 l)) (wseqs (map f2 l)).
Proof.
  intros A f1 f2 l H. induction l as [|a l IH]; cbn [map wseqs]; [apply hnop|]. apply h_seq; auto.
Qed.
Lemma h_wwrap : forall (m1 : wop S1) (m2 : wop S2), hresp sim m1 m2 -> hresp sim (wwrap m1) (wwrap m2).
Proof.
  intros m1 m2 H s1 s2 E. unfold wwrap. eapply hsame_bind; [apply H, E|].
  intros [e|] t1 t2 E'; apply hsame_ok, E'.
Qed.
Lemma h_panic : hresp sim panic_w panic_w.
Proof. intros s1 s2 E. exact I. Qed.

Ltac ws := repeat first
  [ apply hnop | apply h_panic | apply h_seq | apply h_wwrap | solve [auto] | apply h_seqs; intro ].

Variable x : ext.
Theorem hgwrite : forall f,
  (forall t v, hresp sim (gwrite W1 x f t v) (gwrite W2 x f t v)) /\
  (forall m v, hresp sim (gwrite_field W1 x f m v) (gwrite_field W2 x f m v)).
Proof.
  destruct WW. induction f as [|f [IHw IHf]].
  - split; intros; apply h_fuel.
  - split.
    + intros t v. destruct t; cbn [gwrite]; destruct v; try solve [ws].
      * destruct (_ =? _); ws.
      * apply h_seq; [ws|]. apply h_seq; [|ws]. intros s1 s2 E. apply hsame_pure. intro es.
        apply h_seqs; [|exact E]. intros [k w]. ws.
      * destruct (str_eq _ _); ws.
    + intros m v. cbn [gwrite_field]. destruct (gemits m v); ws.
Qed.
Theorem hgwrite_result : forall f name ms attrs,
  hresp sim (gwrite_result W1 x f name ms attrs) (gwrite_result W2 x f name ms attrs).
Proof.
  intros f name ms attrs. unfold gwrite_result. pose proof (proj2 (hgwrite f)) as K. destruct WW.
  destruct (result_pick _ _ _); ws.
Qed.
Lemma happ_write : forall ex, hresp sim (app_write W1 ex) (app_write W2 ex).
Proof.
  intros ex s1 s2 E. unfold app_write. destruct WW. eapply hsame_bind; [apply pStructBegin0, E|].
  intros e t1 t2 E'. revert t1 t2 E'. change (hresp sim
   (match x_msg ex with
      | [] => nop
      | m => wFieldBegin W1 s_message STRING 1 >>> wString W1 m >>> wFieldEnd W1
      end >>>
     wFieldBegin W1 s_type I32 2 >>> wI32 W1 (x_type ex) >>> wFieldEnd W1 >>>
     wFieldStop W1 >>> wStructEnd W1)
   (match x_msg ex with
      | [] => nop
      | m => wFieldBegin W2 s_message STRING 1 >>> wString W2 m >>> wFieldEnd W2
      end >>>
     wFieldBegin W2 s_type I32 2 >>> wI32 W2 (x_type ex) >>> wFieldEnd W2 >>>
     wFieldStop W2 >>> wStructEnd W2)).
  destruct (x_msg ex); ws.
Qed.
End W.
End Protos.

(** ** Processors *)
Section P.
Context {SR1 SR2 SW1 SW2 H : Type}.
Variable simi : SR1 -> SR2 -> Prop.
Variable simo : SW1 -> SW2 -> Prop.
Variable simf : SW1 -> SW2 -> Prop.       (* after Flush *)
Variable R1 : rproto SR1. Variable R2 : rproto SR2.
Variable W1 : wproto SW1. Variable W2 : wproto SW2.
Variable flush1 : wop SW1. Variable flush2 : wop SW2.
Hypothesis RR : rrel simi R1 R2.
Hypothesis WW : wrel simo W1 W2.
Hypothesis FF : forall s1 s2, simo s1 s2 -> hsame simf (flush1 s1) (flush2 s2).
Variable x : ext.
Variable M : Z.
Variable cf fuel : nat.
Variable errtext : err -> bytes.
Variable handle : H -> bytes -> list any -> (list (Z * any) * option bytes) * H.

Lemma hwrite_exception : forall name seq e s1 s2, simo s1 s2 ->
  hsame1 simf (write_exception W1 flush1 name seq e s1) (write_exception W2 flush2 name seq e s2).
Proof.
  intros name seq e s1 s2 E. unfold write_exception. pose proof (happ_write simo W1 W2 WW e) as K. destruct WW.
  eapply hsame_bind1; [apply pMessageBegin0, E|]. intros ? ? ? E1.
  eapply hsame_bind1; [apply K, E1|]. intros ? ? ? E2.
  eapply hsame_bind1; [apply pMessageEnd0, E2|]. intros ? ? ? E3.
  eapply hsame_bind1; [apply FF, E3|]. intros ? ? ? E4. exact E4.
Qed.

(** The outcomes of Process; [w]: whether something was written (and flushed). *)
Definition psame (so1 : SW1) (so2 : SW2) (o1 : outcome (@pout SR1 SW1 H)) (o2 : outcome (@pout SR2 SW2 H)) : Prop :=
  match o1, o2 with
  | Ok p1, Ok p2 => p_success p1 = p_success p2 /\ p_err p1 = p_err p2 /\ p_h p1 = p_h p2 /\
                    simi (p_in p1) (p_in p2) /\
                    ((p_out p1 = so1 /\ p_out p2 = so2) \/ simf (p_out p1) (p_out p2))
  | Panic, Panic => True
  | OutOfFuel, OutOfFuel => True
  | Panic, _ => pan = true
  | _, _ => False
  end.
Lemma psame_bind : forall S1 S2 (sim : S1 -> S2 -> Prop) A so1 so2 (o1 : outcome (A * S1)) (o2 : outcome (A * S2)) k1 k2,
  hsame sim o1 o2 -> (forall a s1 s2, sim s1 s2 -> psame so1 so2 (k1 (a, s1)) (k2 (a, s2))) ->
  psame so1 so2 (obind o1 k1) (obind o2 k2).
Proof.
  intros S1 S2 sim A so1 so2 [[a1 s1]| |] [[a2 s2]| |] k1 k2 Hs K; cbn in *; try contradiction; auto.
  - destruct Hs as [-> Hs]. apply K, Hs.
  - destruct (k2 (a2, s2)); auto.
Qed.
Lemma psame_bind1 : forall S1 S2 (sim : S1 -> S2 -> Prop) so1 so2 (o1 : outcome S1) (o2 : outcome S2) k1 k2,
  hsame1 sim o1 o2 -> (forall s1 s2, sim s1 s2 -> psame so1 so2 (k1 s1) (k2 s2)) ->
  psame so1 so2 (obind o1 k1) (obind o2 k2).
Proof.
  intros S1 S2 sim so1 so2 [s1| |] [s2| |] k1 k2 Hs K; cbn in *; try contradiction; auto.
  destruct (k2 s2); auto.
Qed.

Theorem hprocess : forall fs h si1 si2 so1 so2, simi si1 si2 -> simo so1 so2 ->
  psame so1 so2 (process R1 W1 flush1 x M cf fuel errtext handle fs h si1 so1)
                (process R2 W2 flush2 x M cf fuel errtext handle fs h si2 so2).
Proof.
  intros fs h si1 si2 so1 so2 Ei Eo. unfold process.
  pose proof (hskip_default simi R1 R2 RR M fuel STRUCT) as KS.
  pose proof (proj1 (hgread simi R1 R2 RR x M cf fuel)) as KG.
  eapply psame_bind; [apply (qMessageBegin _ _ _ RR), Ei|]. intros [[[nm t] sq] [e|]] t1 t2 E'; [cbn; auto 8|].
  destruct (lookup_fn fs nm) as [f|].
  - unfold process_fn. eapply psame_bind; [apply KG, E'|]. intros [args|e] u1 u2 E2.
    + eapply psame_bind; [apply (qMessageEnd _ _ _ RR), E2|]. intros e v1 v2 E3.
      destruct (handle h (fn_name f) _) as [[attrs [text|]] h'].
      * eapply psame_bind1; [apply hwrite_exception, Eo|]. intros o1 o2 E4. cbn; auto 8.
      * eapply psame_bind; [apply (pMessageBegin _ _ _ WW), Eo|]. intros e1 a1 a2 A.
        eapply psame_bind; [apply (hgwrite_result simo W1 W2 WW), A|]. intros e2 b1 b2 B.
        eapply psame_bind; [apply (pMessageEnd _ _ _ WW), B|]. intros e3 c1 c2 C.
        eapply psame_bind; [apply FF, C|]. intros e4 d1 d2 D.
        destruct (first_error _ _); cbn; auto 8.
    + eapply psame_bind; [apply (qMessageEnd _ _ _ RR), E2|]. intros e0 v1 v2 E3.
      eapply psame_bind1; [apply hwrite_exception, Eo|]. intros o1 o2 E4. cbn; auto 8.
  - eapply psame_bind; [apply KS, E'|]. intros e u1 u2 E2.
    eapply psame_bind; [apply (qMessageEnd _ _ _ RR), E2|]. intros e0 v1 v2 E3.
    eapply psame_bind1; [apply hwrite_exception, Eo|]. intros o1 o2 E4. cbn; auto 8.
Qed.

(** ** Sending *)
Variable fresh1 : SW1 -> SW1. Variable fresh2 : SW2 -> SW2.
Hypothesis FR : forall s1 s2, simo s1 s2 -> simo (fresh1 s1) (fresh2 s2).
(** What send gives, but for the states of protocols it does not touch. *)
Definition ssame (o1 : outcome (option err * client * @world SR1 SW1)) (o2 : outcome (option err * client * @world SR2 SW2)) w1 w2 : Prop :=
  match o1, o2 with
  | Ok (e1, c1, v1), Ok (e2, c2, v2) => e1 = e2 /\ c1 = c2 /\ simf (o_own v1) (o_own v2) /\
      o_given v1 = o_given w1 /\ o_given v2 = o_given w2 /\ i_own v1 = i_own w1 /\ i_own v2 = i_own w2 /\
      i_given v1 = i_given w1 /\ i_given v2 = i_given w2
  | Panic, Panic => True
  | OutOfFuel, OutOfFuel => True
  | Panic, _ => pan = true
  | _, _ => False
  end.
Lemma ssame_bind : forall S1 S2 (sim : S1 -> S2 -> Prop) A w1 w2 (o1 : outcome (A * S1)) (o2 : outcome (A * S2)) k1 k2,
  hsame sim o1 o2 -> (forall a s1 s2, sim s1 s2 -> ssame (k1 (a, s1)) (k2 (a, s2)) w1 w2) ->
  ssame (obind o1 k1) (obind o2 k2) w1 w2.
Proof.
  intros S1 S2 sim A w1 w2 [[a1 s1]| |] [[a2 s2]| |] k1 k2 Hs K; cbn in *; try contradiction; auto.
  - destruct Hs as [-> Hs]. apply K, Hs.
  - destruct (k2 (a2, s2)) as [[[]]| |]; auto.
Qed.
Theorem hsend : forall f args c (w1 : @world SR1 SW1) (w2 : @world SR2 SW2), simo (o_own w1) (o_own w2) ->
  ssame (send W1 flush1 fresh1 x fuel f args c w1) (send W2 flush2 fresh2 x fuel f args c w2) w1 w2.
Proof.
  intros f args c w1 w2 E. unfold send. destruct (c_out c); [|exact I].
  destruct (negb (c_factory c)); [exact I|]. cbv zeta.
  eapply ssame_bind; [apply (pMessageBegin _ _ _ WW), FR, E|]. intros e1 a1 a2 A.
  eapply ssame_bind; [apply (proj1 (hgwrite simo W1 W2 WW x fuel)), A|]. intros e2 b1 b2 B.
  eapply ssame_bind; [apply (pMessageEnd _ _ _ WW), B|]. intros e3 c1 c2 C.
  eapply ssame_bind; [apply FF, C|]. intros e4 d1 d2 D. cbn. auto 12.
Qed.
End P.
End Het.
