(** TApplicationException against any protocol. *)
From Coq Require Import ZArith List Bool Lia.
From Coq Require Import ZifyBool ZifyNat.
From Verif Require Import Base Errors Transport Proto Skip Arith Values SkipProofs.
From Verif Require Import Gen GenSpec GenProofs AppExc.
Import ListNotations.
Open Scope Z_scope.

(** What a list of fields says: the last string numbered 1 is the message, the last i32
    numbered 2 the type; everything else says nothing. *)
Definition said (x : appexc) (f : Z * tval) : appexc :=
  match f with
  | (1, VStr m) => MkExc (x_type x) m
  | (2, VI32 t) => MkExc t (x_msg x)
  | _ => x
  end.
Definition exc_of (fs : list (Z * tval)) : appexc := fold_left said fs (MkExc 0 []).

(** The fields an exception is sent as. *)
Definition exc_fields (x : appexc) : list (Z * tval) :=
  match x_msg x with [] => [] | m => [(1, VStr m)] end ++ [(2, VI32 (x_type x))].

Section P.
Context {St : Type}.

Lemma said_other : forall x id v, id <> 1 -> id <> 2 -> said x (id, v) = x.
Proof.
  intros x id v H1 H2. unfold said. destruct id as [|p|p]; try reflexivity.
  destruct p as [p|p|]; try reflexivity; [|congruence].
  destruct p; try reflexivity. congruence.
Qed.

Lemma app_fields_rd : forall bin (R : rproto St) M fs s s', rdf bin R fs s s' ->
  forall f m t, (fneed fs <= f)%nat ->
  app_fields R M f m t s = Ok (inl (fold_left said fs (MkExc t m)), s').
Proof.
  intros bin R M fs. induction fs as [|[id v] fs IH]; intros s s' H f m t N;
    inversion H; subst; cbn [fneed fold_right snd] in N; (destruct f as [|f]; [lia|]);
    cbn [app_fields]; unfold hbind at 1, hlift at 1.
  - match goal with X : rFieldBegin R s = _ |- _ => rewrite X end. reflexivity.
  - match goal with X : rFieldBegin R s = _ |- _ => rewrite X end. cbn [obind].
    fold (fneed fs) in N.
    replace (vtype v =? STOP) with false by (destruct v; reflexivity).
    match goal with X : rd bin R v ?a ?b, Y : rFieldEnd R ?b = Ok (None, ?c), Z : rdf bin R fs ?c _ |- _ =>
      rename X into Rv; rename Y into Re; rename Z into Rf; set (sa := a) in *; set (sb := b) in *;
      set (sc := c) in * end.
    pose proof (proj1 (rd_skip_all R bin M) v sa sb Rv f M ltac:(lia)) as Sk.
    assert (Skip : forall (k : bytes * Z -> hop St appexc),
      hbind (_ <-- hdo (skip_default R M f (vtype v)) ;; hret (m, t)) k sa = k (m, t) sb).
    { intro k. unfold hbind, hdo, skip_default. rewrite Sk. reflexivity. }
    cbn [fold_left].
    assert (End : forall m' t', (_ <-- hdo (rFieldEnd R) ;; app_fields R M f m' t') sb =
                  Ok (inl (fold_left said fs (MkExc t' m')), s')).
    { intros m' t'. unfold hbind, hdo. rewrite Re. cbn [obind]. apply IH; [exact Rf|lia]. }
    destruct (Z.eqb_spec id 1) as [->|N1]; [|destruct (Z.eqb_spec id 2) as [->|N2]].
    + destruct (Z.eqb_spec (vtype v) STRING) as [Et|Et].
      * destruct v; try discriminate. inversion Rv; subst.
        unfold hbind at 1. unfold hbind at 1. unfold hlift.
        match goal with X : rString R sa = _ |- _ => rewrite X end. apply End.
      * rewrite Skip. replace (said (MkExc t m) (1, v)) with (MkExc t m); [apply End|].
        destruct v; try reflexivity. exfalso. apply Et. reflexivity.
    + destruct (Z.eqb_spec (vtype v) I32) as [Et|Et].
      * destruct v; try discriminate. inversion Rv; subst.
        unfold hbind at 1. unfold hbind at 1. unfold hlift.
        match goal with X : rI32 R sa = _ |- _ => rewrite X end. apply End.
      * rewrite Skip. replace (said (MkExc t m) (2, v)) with (MkExc t m); [apply End|].
        destruct v; try reflexivity. exfalso. apply Et. reflexivity.
    + rewrite Skip, said_other by assumption. apply End.
Qed.

Lemma app_read_rd : forall bin (R : rproto St) M fs s s' f, rd bin R (VStruct fs) s s' -> (need (VStruct fs) <= f)%nat ->
  app_read R M f s = Ok (Some (exc_of fs), None, s').
Proof.
  intros bin R M fs s s' f H N. cbn [need] in N. fold (fneed fs) in N. inversion H; subst.
  unfold app_read. match goal with X : rStructBegin R s = _ |- _ => rewrite X end. cbn [obind].
  erewrite app_fields_rd; [|eassumption|lia]. cbn [obind].
  match goal with X : rStructEnd R _ = _ |- _ => rewrite X end. reflexivity.
Qed.

Lemma app_write_wr : forall bin (W : wproto St) x s s', wr bin W (VStruct (exc_fields x)) s s' ->
  app_write W x s = Ok (None, s').
Proof.
  intros bin W [t m] s s' H. unfold app_write, exc_fields in *. cbn [x_type x_msg] in *.
  inversion H as [| | | | | | | | | |fs s0 s1 s2 s3 s4 Hb Hf Hst He]; subst.
  rewrite Hb. cbn [obind].
  assert (T : forall q, wrf bin W [(2, VI32 t)] q s2 ->
    (wFieldBegin W s_type I32 2 >>> wI32 W t >>> wFieldEnd W >>> wFieldStop W >>> wStructEnd W) q =
    Ok (None, s')).
  { intros q Hq.
    inversion Hq as [|id0 v0 fs0 q0 q1 q2 q3 q4 Qb Qv Qe Qr]; subst.
    inversion Qr; subst. inversion Qv; subst.
    rewrite (wq _ _ _ _ (Qb s_type I32 (or_introl eq_refl))).
    erewrite wq by eassumption. erewrite wq by eassumption. erewrite wq by eassumption. assumption. }
  destruct m as [|b m]; [apply T, Hf|].
  cbn [app] in Hf.
  inversion Hf as [|id0 v0 fs0 q0 q1 q2 q3 q4 Qb Qv Qe Qr]; subst. inversion Qv; subst.
  unfold wseq at 1.
  rewrite (wq _ _ _ _ (Qb s_message STRING (or_introl eq_refl))).
  erewrite wq by eassumption. rewrite Qe. cbn [obind]. apply T, Qr.
Qed.
End P.

(** Fields with other ids, or other types, than the two known ones change nothing. *)
Definition known_field (f : Z * tval) : bool :=
  ((fst f =? 1) && (vtype (snd f) =? STRING)) || ((fst f =? 2) && (vtype (snd f) =? I32)).
Lemma said_unknown : forall x f, known_field f = false -> said x f = x.
Proof.
  intros x [id v] H. unfold known_field in H. cbn [fst snd] in H.
  destruct (Z.eq_dec id 1) as [->|N1].
  - destruct v; try reflexivity. discriminate.
  - destruct (Z.eq_dec id 2) as [->|N2]; [|apply said_other; assumption].
    destruct v; try reflexivity. discriminate.
Qed.
Lemma exc_of_extra : forall fs x0, fold_left said fs x0 = fold_left said (filter known_field fs) x0.
Proof.
  induction fs as [|f fs IH]; intro x0; [reflexivity|]. cbn [fold_left filter].
  destruct (known_field f) eqn:E; [apply IH|]. rewrite said_unknown by assumption. apply IH.
Qed.
Lemma exc_of_fields : forall x, exc_of (exc_fields x) = x.
Proof. intros [t [|b m]]; reflexivity. Qed.
