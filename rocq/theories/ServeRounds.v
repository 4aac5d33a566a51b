(** A connection ends: each request that is answered takes something from the input. *)
From Coq Require Import ZArith List Bool Lia.
From Coq Require Import ZifyBool ZifyNat.
From Verif Require Import Base Errors Transport Proto Skip Binary Compact Het.
From Verif Require Import TField GoVal Compare TMap Gen AppExc Rpc Serve ServeProofs.
Import ListNotations.
Open Scope Z_scope.

(** Bytes and events to come. *)
Definition size (r : rt) : nat := rt_size r + length r.

Lemma read_all_loop_size : forall k n got e r c d e' r', (n <= k)%nat -> read_all_loop n got e r = (c, d, e', r') ->
  (size r' <= size r)%nat /\ ((0 < n)%nat -> e' = None -> (size r' < size r)%nat).
Proof.
  unfold size, rt_size. induction k as [|k IH]; intros n got e r c d e' r' L E.
  - destruct n; [|lia]. destruct r; cbn in E; injection E; intros; subst; (split; [auto|lia]).
  - destruct n as [|n]; [destruct r; cbn in E; injection E; intros; subst; (split; [auto|lia])|].
    destruct r as [|[bs e1] r1]; cbn [read_all_loop] in E.
    + injection E; intros; subst. split; [auto|]. discriminate.
    + destruct bs as [|b bs].
      * injection E; intros; subst. cbn. split; [lia|]. intros _ _. lia.
      * destruct (S n <? length (b :: bs))%nat eqn:Q.
        -- injection E; intros; subst. cbn [map fst concat length skipn]. rewrite !app_length, skipn_length.
           cbn [length] in *. split; [|intros _ _]; lia.
        -- destruct (read_all_loop (S n - length (b :: bs)) (got + length (b :: bs)) e1 r1) as [[[c1 d1] e2] r2] eqn:E1.
           injection E; intros; subst. apply IH in E1; [|cbn [length]; lia].
           cbn [map fst concat length]. rewrite !app_length. cbn [length]. split; [|intros _ _]; lia.
Qed.
Lemma read_all_size : forall n r c d e r', read_all n r = (c, d, e, r') ->
  (size r' <= size r)%nat /\ ((0 < n)%nat -> e = None -> (size r' < size r)%nat).
Proof.
  intros n r c d e r' E. unfold read_all in E.
  destruct (read_all_loop n 0 None r) as [[[c1 d1] e1] r1] eqn:E1. injection E; intros; subst.
  eapply read_all_loop_size; [apply Nat.le_refl|exact E1].
Qed.

(** ** Operations that take, or do not add *)
Section Shrinks.
Context {S : Type}.
Variable mu : S -> nat.
Definition keeps {A} (o : S -> outcome (A * S)) : Prop := forall s a s', o s = Ok (a, s') -> (mu s' <= mu s)%nat.
Definition takes {A} (o : S -> outcome (A * option err * S)) : Prop :=
  forall s a s', o s = Ok (a, None, s') -> (mu s' < mu s)%nat.
Lemma keeps_ret : forall A (a : A), keeps (fun s => Ok (a, s)).
Proof. intros A a s b s' E. injection E; intros; subst. auto. Qed.
Lemma keeps_bind : forall A B (o : S -> outcome (A * S)) (k : A -> S -> outcome (B * S)), keeps o -> (forall a, keeps (k a)) ->
  keeps (fun s => obind (o s) (fun q => k (fst q) (snd q))).
Proof.
  intros A B o k Ko Kk s b s' E. destruct (o s) as [[a s1]| |] eqn:E1; cbn in E; try discriminate.
  apply Ko in E1. apply Kk in E. lia.
Qed.
Definition within (n : nat) (s1 s2 : S) : Prop := s1 = s2 /\ (mu s1 <= n)%nat.
Lemma keeps_resp : forall A (o : S -> outcome (A * S)) n, keeps o -> hresp false (within n) o o.
Proof.
  intros A o n K s1 s2 [-> L]. unfold hsame. destruct (o s2) as [[a s']| |] eqn:E; auto.
  apply K in E. split; [reflexivity|]. split; [reflexivity|]. lia.
Qed.
End Shrinks.

(** Destructs binds and branches of an equation between an operation and a result. *)
Ltac steps E :=
  repeat match type of E with
  | obind ?m _ = Ok _ => let X := fresh "X" in destruct m as [?| |] eqn:X; cbn [obind] in E; [|discriminate|discriminate]
  | (let '(_, _) := ?q in _) = Ok _ => let X := fresh "X" in destruct q eqn:X
  | match ?q with _ => _ end = Ok _ => let X := fresh "X" in destruct q eqn:X
  | Ok _ = Ok _ => injection E; intros; subst; clear E
  end; try discriminate.

Ltac ifs := repeat match goal with
  | X : (if ?b then _ else _) = Ok _ |- _ => destruct b
  | X : Ok _ = Ok _ |- _ => injection X; intros; subst; clear X
  end.
Ltac use_sizes := repeat match goal with
  | X : read_all _ _ = (_, _, _, _) |- _ => apply read_all_size in X; destruct X
  end.

Lemma keeps_b_readAll : forall n, keeps size (b_readAll n).
Proof. intros n s a s' E. unfold b_readAll in E. steps E. use_sizes. lia. Qed.
Lemma pe_none : forall e, protocol_exc_from_os e = None -> e = None.
Proof.
  intros [e|] E; [|reflexivity]. unfold protocol_exc_from_os in E.
  destruct (typeid_int e); [discriminate|]. destruct e; discriminate.
Qed.
Lemma takes_b_readAll : forall n, takes size (b_readAll (S n)).
Proof.
  intros n s a s' E. unfold b_readAll in E. destruct (read_all (S n) s) as [[[c d] e] r] eqn:X.
  injection E; intros P Q R. subst. apply pe_none in Q. subst. use_sizes.
  match goal with X : _ -> _ -> (_ < _)%nat |- _ => apply X; [lia|reflexivity] end.
Qed.
Ltac kb := match goal with
  | X : b_readAll _ _ = Ok _ |- _ => apply keeps_b_readAll in X
  end.
Lemma keeps_bReadByte : keeps size bReadByte.
Proof. intros s a s' E. unfold bReadByte in E. steps E. repeat kb. assumption. Qed.
Lemma keeps_bReadI16 : keeps size bReadI16.
Proof. intros s a s' E. unfold bReadI16 in E. steps E. repeat kb. assumption. Qed.
Lemma keeps_bReadI32 : keeps size bReadI32.
Proof. intros s a s' E. unfold bReadI32 in E. steps E. repeat kb. assumption. Qed.
Lemma takes_bReadI32 : takes size bReadI32.
Proof.
  intros s a s' E. unfold bReadI32 in E. destruct (b_readAll 4 s) as [[[d e] r]| |] eqn:X; cbn in E; try discriminate.
  injection E; intros; subst. apply takes_b_readAll in X. exact X.
Qed.
Ltac kb2 := match goal with
  | X : bReadByte _ = Ok _ |- _ => apply keeps_bReadByte in X
  | X : bReadI16 _ = Ok _ |- _ => apply keeps_bReadI16 in X
  | X : bReadI32 _ = Ok _ |- _ => apply keeps_bReadI32 in X
  | X : b_readAll _ _ = Ok _ |- _ => apply keeps_b_readAll in X
  end.
Lemma keeps_bReadStringBody : forall n, keeps size (bReadStringBody n).
Proof. intros n s a s' E. unfold bReadStringBody in E. steps E; use_sizes; auto. Qed.
Lemma keeps_bReadString : keeps size bReadString.
Proof.
  intros s a s' E. unfold bReadString in E. steps E; repeat kb2; try lia.
  apply keeps_bReadStringBody in E. lia.
Qed.
Ltac kb3 := match goal with
  | X : bReadString _ = Ok _ |- _ => apply keeps_bReadString in X
  | X : bReadStringBody _ _ = Ok _ |- _ => apply keeps_bReadStringBody in X
  | _ => kb2
  end.
Lemma keeps_message : forall strict, keeps size (bReadMessageBegin strict).
Proof. intros strict s a s' E. unfold bReadMessageBegin in E. steps E; repeat kb3; lia. Qed.
Lemma takes_message : forall strict, takes size (bReadMessageBegin strict).
Proof.
  intros strict s a s' E. unfold bReadMessageBegin in E.
  destruct (bReadI32 s) as [[[z [e|]] r1]| |] eqn:X; cbn [obind] in E; try discriminate.
  { assert (Q : protocol_exc_from_os (Some e) = None) by congruence. apply pe_none in Q. discriminate. }
  apply takes_bReadI32 in X. steps E; repeat kb3; lia.
Qed.
Lemma binary_keeps : forall strict n, rrel false (within size n) (binaryR strict) (binaryR strict).
Proof.
  intros strict n. constructor; apply keeps_resp; cbn [binaryR rMessageBegin rMessageEnd rStructBegin
    rStructEnd rFieldBegin rFieldEnd rMapBegin rMapEnd rListBegin rListEnd rSetBegin rSetEnd
    rBool rByte rI16 rI32 rI64 rDouble rString rBinary];
    try apply keeps_message; try apply keeps_bReadByte; try apply keeps_bReadI16; try apply keeps_bReadI32;
    try apply keeps_bReadString; intros s a s' E.
  all: unfold nop, bReadFieldBegin, bReadMapBegin, bReadListBegin, bReadSetBegin, bReadBool, bReadI64, bReadDouble,
    bReadBinary in E; steps E; use_sizes; repeat kb3; lia.
Qed.

(** ** The compact protocol *)
Definition csize (s : cr) : nat := size (fst s).
Lemma keeps_cReadByte : keeps csize cReadByte.
Proof. intros [r c] a s' E. unfold cReadByte in E. steps E; use_sizes; cbn; assumption. Qed.
Lemma takes_cReadByte : takes csize cReadByte.
Proof.
  intros [r c] a s' E. unfold cReadByte in E. destruct (read_all 1 r) as [[[n d] [e|]] r'] eqn:X.
  { assert (Q : protocol_exc_from_os (Some e) = None) by congruence. apply pe_none in Q. discriminate. }
  injection E; intros; subst. use_sizes. unfold csize. cbn.
  match goal with X : _ -> _ -> (_ < _)%nat |- _ => apply X; [lia|reflexivity] end.
Qed.
Lemma keeps_loop : forall f shift result, keeps csize (readVarint64_loop f shift result).
Proof.
  induction f as [|f IH]; intros shift result s a s' E; cbn [readVarint64_loop] in E; [discriminate|].
  destruct (cReadByte s) as [[[b e] s1]| |] eqn:X; cbn [obind] in E; try discriminate. apply keeps_cReadByte in X.
  destruct e; [injection E; intros; subst; exact X|].
  destruct (negb _); [injection E; intros; subst; exact X|]. apply IH in E. lia.
Qed.
Lemma keeps_varint64 : keeps csize readVarint64.
Proof. intros s a s' E. unfold readVarint64 in E. eapply keeps_loop, E. Qed.
Lemma keeps_varint32 : keeps csize readVarint32.
Proof. intros s a s' E. unfold readVarint32 in E. steps E. eapply keeps_varint64. eassumption. Qed.
Ltac kc := match goal with
  | X : cReadByte _ = Ok _ |- _ => apply keeps_cReadByte in X
  | X : readVarint64 _ = Ok _ |- _ => apply keeps_varint64 in X
  | X : readVarint32 _ = Ok _ |- _ => apply keeps_varint32 in X
  end.
Lemma keeps_cReadI32 : keeps csize cReadI32.
Proof. intros s a s' E. unfold cReadI32 in E. steps E; repeat kc; assumption. Qed.
Lemma keeps_cReadI16 : keeps csize cReadI16.
Proof. intros s a s' E. unfold cReadI16 in E. steps E. eapply keeps_cReadI32. eassumption. Qed.
Lemma keeps_cReadBinary : keeps csize cReadBinary.
Proof.
  intros s a s' E. unfold cReadBinary in E. steps E; repeat kc; use_sizes; unfold csize in *; cbn [fst] in *; lia.
Qed.
Lemma keeps_cReadString : keeps csize cReadString.
Proof. intros s a s' E. unfold cReadString in E. steps E. eapply keeps_cReadBinary. eassumption. Qed.
Ltac kc2 := match goal with
  | X : cReadI16 _ = Ok _ |- _ => apply keeps_cReadI16 in X
  | X : cReadString _ = Ok _ |- _ => apply keeps_cReadString in X
  | _ => kc
  end.
Lemma keeps_cmessage : keeps csize cReadMessageBegin.
Proof. intros s a s' E. unfold cReadMessageBegin in E. steps E; repeat kc2; lia. Qed.
Lemma takes_cmessage : takes csize cReadMessageBegin.
Proof.
  intros s a s' E. unfold cReadMessageBegin in E.
  destruct (cReadByte s) as [[[z e] r1]| |] eqn:X; cbn [obind] in E; try discriminate. apply keeps_cReadByte in X.
  destruct (negb _); [discriminate|].
  destruct (cReadByte r1) as [[[z2 [e2|]] r2]| |] eqn:X2; cbn [obind] in E; try discriminate.
  apply takes_cReadByte in X2. steps E; repeat kc2; lia.
Qed.
Lemma compact_keeps : forall n, rrel false (within csize n) compactR compactR.
Proof.
  intro n. constructor; apply keeps_resp; cbn [compactR rMessageBegin rMessageEnd rStructBegin
    rStructEnd rFieldBegin rFieldEnd rMapBegin rMapEnd rListBegin rListEnd rSetBegin rSetEnd
    rBool rByte rI16 rI32 rI64 rDouble rString rBinary];
    try apply keeps_cmessage; try apply keeps_cReadByte; try apply keeps_cReadI16; try apply keeps_cReadI32;
    try apply keeps_cReadString; try apply keeps_cReadBinary; intros s a s' E.
  all: unfold nop, cReadFieldBegin, cReadMapBegin, cReadListBegin, cReadBool, cReadI64, cReadDouble,
    cReadStructBegin, cReadStructEnd in E; steps E; ifs; use_sizes; repeat kc2; unfold csize in *; cbn [fst] in *; lia.
Qed.

(** ** The loop *)
Section Rounds.
Context {SR SW H : Type}.
Variable R : rproto SR.
Variable W : wproto SW.
Variable flush : wop SW.
Variable x : ext.
Variable M : Z.
Variable cf fuel : nat.
Variable errtext : err -> bytes.
Variable handle : H -> bytes -> list any -> (list (Z * any) * option bytes) * H.
Variable fs : list func.
Variable mu : SR -> nat.
Hypothesis R_keeps : forall n, rrel false (within mu n) R R.
Hypothesis R_takes : takes mu (rMessageBegin R).

Lemma process_takes : forall h si so p,
  process R W flush x M cf fuel errtext handle fs h si so = Ok p -> p_success p = true -> (mu (p_in p) < mu si)%nat.
Proof.
  intros h si so p E Ps. unfold process in E.
  destruct (rMessageBegin R si) as [[[[[nm t] sq] [e|]] s1]| |] eqn:X; cbn [obind] in E; try discriminate.
  { injection E; intros; subst. discriminate. }
  apply R_takes in X. destruct (lookup_fn fs nm) as [f|].
  - unfold process_fn in E.
    pose proof (proj1 (hgread false _ R R (R_keeps (mu s1)) x M cf fuel) (TyStruct (args_name f) (fn_args f)) s1 s1
      (conj eq_refl (Nat.le_refl _))) as G.
    destruct (gread R x M cf fuel (TyStruct (args_name f) (fn_args f)) s1) as [[r s2]| |]; cbn [obind] in E; try discriminate.
    destruct G as [_ [_ L2]]. destruct r as [args|e].
    + pose proof (qMessageEnd _ _ _ _ (R_keeps (mu s2)) s2 s2 (conj eq_refl (Nat.le_refl _))) as G.
      destruct (rMessageEnd R s2) as [[e3 s3]| |]; cbn [obind] in E; try discriminate. destruct G as [_ [_ L3]].
      steps E; subst; cbn in *; try discriminate; lia.
    + steps E; subst; cbn in *; discriminate.
  - steps E; subst; cbn in *; discriminate.
Qed.
Theorem loop_rounds : forall stopped k rounds n h si so, (mu si < rounds)%nat ->
  serve_loop x M cf fuel errtext handle fs stopped R W flush (rounds + k) n h si so =
  serve_loop x M cf fuel errtext handle fs stopped R W flush rounds n h si so.
Proof.
  intros stopped k. induction rounds as [|rounds IH]; intros n h si so L; [lia|].
  change (S rounds + k)%nat with (S (rounds + k)).
  destruct (process R W flush x M cf fuel errtext handle fs h si so) as [p| |] eqn:E;
    [|cbn [serve_loop]; rewrite E; reflexivity|cbn [serve_loop]; rewrite E; reflexivity].
  rewrite !(loop_step _ _ _ _ _ _ _ _ _ _ _ _ _ _ _ _ p E). destruct (p_success p) eqn:Ps; [|reflexivity].
  apply IH. pose proof (process_takes _ _ _ _ E Ps). lia.
Qed.
End Rounds.
