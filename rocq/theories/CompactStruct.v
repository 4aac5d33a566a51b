(** Reading structured values in the compact encoding, and Skip on it. *)
From Coq Require Import ZArith List Bool Lia.
From Coq Require Import ZifyBool ZifyNat.
From Verif Require Import Base Errors Transport Proto Arith TransportProofs Values Codec
  Binary Compact Skip CompactSpec CompactArith BinaryProofs SkipProofs CompactRead.
Import ListNotations.
Open Scope Z_scope.
Ltac Zify.zify_post_hook ::= Z.div_mod_to_equations.

(** ** Skip ends where a successful read ends, for every protocol *)
Section SkipRead.
Context {S : Type}.
Variable R : rproto S.
Variable M : Z.

Lemma hbind_inv : forall A B (m : hop S A) (k : A -> hop S B) s b s',
  hbind m k s = Ok (inl b, s') -> exists a s1, m s = Ok (inl a, s1) /\ k a s1 = Ok (inl b, s').
Proof.
  intros A B m k s b s' H. unfold hbind in H. destruct (m s) as [[[a|e] s1]| |]; cbn in H;
    try discriminate. eauto.
Qed.
Lemma hlift_inv : forall A (m : rop S A) s a s', hlift m s = Ok (inl a, s') -> m s = Ok (a, None, s').
Proof.
  intros A m s a s' H. unfold hlift in H. destruct (m s) as [[[x [e|]] s1]| |]; cbn in H;
    try discriminate. congruence.
Qed.
Lemma hdo_inv : forall (m : wop S) s a s', hdo m s = Ok (inl a, s') -> m s = Ok (None, s').
Proof.
  intros m s a s' H. unfold hdo in H. destruct (m s) as [[[e|] s1]| |]; cbn in H;
    try discriminate. congruence.
Qed.
Lemma hrepeat_inv : forall A n (m : hop S A) (body : wop S) s l s',
  (forall s a s', m s = Ok (inl a, s') -> body s = Ok (None, s')) ->
  hrepeat n m s = Ok (inl l, s') -> repeat_ignoring n body s = Ok s'.
Proof.
  induction n as [|n IH]; intros m body s l s' Hb H; cbn [hrepeat repeat_ignoring] in *.
  - unfold hret in H. congruence.
  - apply hbind_inv in H. destruct H as (a & s1 & H1 & H). apply hbind_inv in H.
    destruct H as (l1 & s2 & H2 & H3). rewrite (Hb _ _ _ H1). cbn [obind].
    unfold hret in H3. injection H3; intros; subst. eapply IH; eassumption.
Qed.

Theorem skip_of_read : forall f,
  (forall t d s v s', read_val R f t s = Ok (inl v, s') -> skip R M f t d s = Ok (None, s')) /\
  (forall d s fs s', read_fields R f s = Ok (inl fs, s') -> skip_fields R M f d s = Ok s').
Proof.
  induction f as [|f [IHv IHf]]; [split; intros; discriminate|]. split.
  - intros t d s v s' H.
    assert (Sc : forall A (m : rop S A) (g : A -> tval),
      (x <-- hlift m ;; hret (g x)) s = Ok (inl v, s') ->
      ('(_, e, s1) <- m s ;; Ok (e, s1)) = Ok (None, s')).
    { intros A m g Hx. apply hbind_inv in Hx. destruct Hx as (a & s1 & H1 & H2).
      apply hlift_inv in H1. rewrite H1. cbn. unfold hret in H2. congruence. }
    cbn [read_val] in H.
    destruct (t =? BOOL) eqn:E1; [apply Z.eqb_eq in E1; subst; eapply Sc, H|].
    destruct (t =? BYTE) eqn:E2; [apply Z.eqb_eq in E2; subst; eapply Sc, H|].
    destruct (t =? I16) eqn:E3; [apply Z.eqb_eq in E3; subst; eapply Sc, H|].
    destruct (t =? I32) eqn:E4; [apply Z.eqb_eq in E4; subst; eapply Sc, H|].
    destruct (t =? I64) eqn:E5; [apply Z.eqb_eq in E5; subst; eapply Sc, H|].
    destruct (t =? DOUBLE) eqn:E6; [apply Z.eqb_eq in E6; subst; eapply Sc, H|].
    destruct (t =? STRING) eqn:E7; [apply Z.eqb_eq in E7; subst; eapply Sc, H|].
    destruct (t =? LIST) eqn:E8.
    { apply Z.eqb_eq in E8; subst. rewrite skip_list.
      apply hbind_inv in H. destruct H as ([et n] & s1 & H1 & H). apply hlift_inv in H1.
      rewrite H1. cbn [obind]. apply hbind_inv in H. destruct H as (l & s2 & H2 & H).
      rewrite (hrepeat_inv _ _ _ (skip R M f et (d - 1)) _ _ _ (IHv et (d - 1)) H2). cbn [obind].
      apply hbind_inv in H. destruct H as (u & s3 & H3 & H). apply hdo_inv in H3.
      unfold hret in H. congruence. }
    destruct (t =? SET) eqn:E9.
    { apply Z.eqb_eq in E9; subst. rewrite skip_set.
      apply hbind_inv in H. destruct H as ([et n] & s1 & H1 & H). apply hlift_inv in H1.
      rewrite H1. cbn [obind]. apply hbind_inv in H. destruct H as (l & s2 & H2 & H).
      rewrite (hrepeat_inv _ _ _ (skip R M f et (d - 1)) _ _ _ (IHv et (d - 1)) H2). cbn [obind].
      apply hbind_inv in H. destruct H as (u & s3 & H3 & H). apply hdo_inv in H3.
      unfold hret in H. congruence. }
    destruct (t =? MAP) eqn:E10.
    { apply Z.eqb_eq in E10; subst. rewrite skip_map.
      apply hbind_inv in H. destruct H as ([[kt vt] n] & s1 & H1 & H). apply hlift_inv in H1.
      rewrite H1. cbn [obind]. apply hbind_inv in H. destruct H as (l & s2 & H2 & H).
      erewrite hrepeat_inv; [|clear H2; cbn beta|exact H2].
      - cbn [obind]. apply hbind_inv in H. destruct H as (u & s3 & H3 & H). apply hdo_inv in H3.
        unfold hret in H. congruence.
      - intros s0 a s0' Ha. apply hbind_inv in Ha. destruct Ha as (k & s3 & K & Ha).
        apply hbind_inv in Ha. destruct Ha as (v0 & s4 & V & Ha).
        rewrite (IHv kt (d - 1) _ _ _ K). cbn [obind]. rewrite (IHv vt M _ _ _ V).
        unfold hret in Ha. congruence. }
    destruct (t =? STRUCT) eqn:E11; [|discriminate].
    apply Z.eqb_eq in E11; subst. rewrite skip_struct.
    apply hbind_inv in H. destruct H as (nm & s1 & H1 & H). apply hlift_inv in H1.
    rewrite H1. cbn [obind]. apply hbind_inv in H. destruct H as (l & s2 & H2 & H).
    rewrite (IHf d _ _ _ H2). cbn [obind].
    apply hbind_inv in H. destruct H as (u & s3 & H3 & H). apply hdo_inv in H3.
    unfold hret in H. congruence.
  - intros d s fs s' H. rewrite read_fields_S in H. rewrite skip_fields_S.
    apply hbind_inv in H. destruct H as ([[nm t] id] & s1 & H1 & H). apply hlift_inv in H1.
    rewrite H1. cbn [obind]. destruct (t =? STOP) eqn:E; [unfold hret in H; congruence|].
    apply hbind_inv in H. destruct H as (v & s2 & H2 & H).
    rewrite (IHv t (d - 1) _ _ _ H2). cbn [obind].
    apply hbind_inv in H. destruct H as (u & s3 & H3 & H). apply hdo_inv in H3. rewrite H3.
    cbn [obind]. apply hbind_inv in H. destruct H as (l & s4 & H4 & H).
    rewrite (IHf d _ _ _ H4). unfold hret in H. congruence.
Qed.
End SkipRead.

(** ** Reading *)

(** In state [c], [op] reads exactly [bs] as [a] and ends in a state satisfying [Q]. *)
Definition tri {A} (c : cstate) (op : hop cr A) (bs : bytes) (a : A) (Q : cstate -> Prop) : Prop :=
  forall r rest, benign r -> content r = bs ++ rest ->
  exists r' c', op (r, c) = Ok (inl a, (r', c')) /\ benign r' /\ Q c' /\ content r' = rest.

Lemma tri_crd : forall A c (m : rop cr A) bs a c', crd c m bs a c' -> tri c (hlift m) bs a (eq c').
Proof.
  intros A c m bs a c' H r rest B X. destruct (H r rest B X) as (r' & R & B' & X').
  exists r', c'. unfold hlift. rewrite R. auto.
Qed.
Lemma tri_ret : forall A c (a : A), tri c (hret a) [] a (eq c).
Proof. intros A c a r rest B X. exists r, c. auto. Qed.
Lemma tri_nop : forall c, tri c (hdo nop) [] tt (eq c).
Proof. intros c r rest B X. exists r, c. auto. Qed.
Lemma tri_bind : forall A B c (m : hop cr A) (k : A -> hop cr B) bs1 bs2 a b Q Q',
  tri c m bs1 a Q -> (forall c1, Q c1 -> tri c1 (k a) bs2 b Q') ->
  tri c (hbind m k) (bs1 ++ bs2) b Q'.
Proof.
  intros A B c m k bs1 bs2 a b Q Q' H1 H2 r rest Bn X. rewrite <- app_assoc in X.
  destruct (H1 r _ Bn X) as (r1 & c1 & R1 & B1 & Q1 & X1).
  destruct (H2 c1 Q1 r1 _ B1 X1) as (r2 & c2 & R2 & B2 & Q2 & X2).
  exists r2, c2. unfold hbind. rewrite R1. cbn [obind]. auto.
Qed.
(** same with the value's bytes ending here *)
Lemma tri_bind0 : forall A B c (m : hop cr A) (k : A -> hop cr B) bs a b Q Q',
  tri c m bs a Q -> (forall c1, Q c1 -> tri c1 (k a) [] b Q') ->
  tri c (hbind m k) bs b Q'.
Proof.
  intros. rewrite <- (app_nil_r bs). eapply tri_bind; eassumption.
Qed.
Lemma tri_weak : forall A c (op : hop cr A) bs a (Q Q' : cstate -> Prop),
  tri c op bs a Q -> (forall c', Q c' -> Q' c') -> tri c op bs a Q'.
Proof.
  intros A c op bs a Q Q' H W r rest B X. destruct (H r rest B X) as (r' & c' & R & B' & HQ & X').
  exists r', c'. auto.
Qed.

(** What reading a value with [d] levels of structs does to the state. *)
Definition after (d : nat) (c c' : cstate) : Prop :=
  boolValueIsNotNull c' = false /\
  (length (lastField c) <= length (lastField c'))%nat /\
  (d = O -> lastField c' = lastField c) /\
  ((d <= 1)%nat -> lastFieldId c' = lastFieldId c).

Lemma after_refl : forall d c, boolValueIsNotNull c = false -> after d c c.
Proof. intros. repeat split; auto. Qed.
Lemma after_trans : forall d d1 d2 c c1 c2, after d1 c c1 -> after d2 c1 c2 ->
  (d1 <= d)%nat -> (d2 <= d)%nat -> after d c c2.
Proof.
  intros d d1 d2 c c1 c2 (N1 & L1 & S1 & I1) (N2 & L2 & S2 & I2) G1 G2. repeat split.
  - assumption.
  - lia.
  - intros ->. rewrite S2, S1 by lia. reflexivity.
  - intro. rewrite I2, I1 by lia. reflexivity.
Qed.
Lemma after_nn : forall d c c', after d c c' -> boolValueIsNotNull c' = false.
Proof. intros d c c' H; apply H. Qed.
Lemma after_weak : forall d d' c c', after d c c' -> (d <= d')%nat -> after d' c c'.
Proof. intros d d' c c' (N & L & S & I) G. repeat split; auto; intros; [apply S|apply I]; lia. Qed.

Lemma tri_repeat : forall A B d (m : hop cr A) (en : B -> bytes) (g : B -> A) (l : list B),
  (forall x c, In x l -> boolValueIsNotNull c = false -> tri c m (en x) (g x) (after d c)) ->
  forall c, boolValueIsNotNull c = false ->
  tri c (hrepeat (length l) m) (concat (map en l)) (map g l) (after d c).
Proof.
  induction l as [|x l IH]; intros H c N; cbn [length hrepeat map concat].
  - eapply tri_weak; [apply tri_ret|]. intros c' <-. apply after_refl, N.
  - eapply tri_bind; [apply H; [left; reflexivity|assumption]|].
    intros c1 A1. pose proof (after_nn _ _ _ A1) as N1.
    eapply tri_bind0; [apply IH; [intros; apply H; [right|]; assumption|assumption]|].
    intros c2 A2. eapply tri_weak; [apply tri_ret|]. intros c' <-.
    eapply after_trans; eauto.
Qed.

Definition rgood (v : tval) : Prop :=
  forall f c, (need v <= f)%nat -> boolValueIsNotNull c = false ->
  tri c (read_val compactR f (vtype v)) (sc_val v) (untyped_empty v) (after (sdepth v) c).

Lemma max_list_in' : forall A (g : A -> nat) l x, In x l -> (g x <= max_list (map g l))%nat.
Proof. intros A g l x H. apply max_list_in. assumption. Qed.

(** A true boolean field: header and value. *)
Lemma tri_bool_true : forall c stk id bf,
  c = MkC stk id bf true true ->
  tri c (hlift cReadBool) [] true (eq (MkC stk id bf true false)).
Proof.
  intros c stk id bf -> r rest B X. exists r, (MkC stk id bf true false).
  unfold hlift, cReadBool. cbn. auto.
Qed.

Lemma tri_fields : forall fs,
  (forall x, In x fs -> in_s 16 (fst x) /\ is_false (snd x) = false /\ rgood (snd x)) ->
  forall flat last c f, fields_apart flat last fs = true -> boolValueIsNotNull c = false ->
  (flat = true -> lastFieldId c = last) ->
  (fold_right (fun x n => S (Nat.max (need (snd x)) n)) 1%nat fs <= f)%nat ->
  tri c (read_fields compactR f) (sc_fields last fs)
    (map (fun x => (fst x, untyped_empty (snd x))) fs)
    (fun c' => boolValueIsNotNull c' = false /\
               (length (lastField c) <= length (lastField c'))%nat /\
               (max_list (map (fun x => sdepth (snd x)) fs) = O -> lastField c' = lastField c)).
Proof.
  induction fs as [|[id v] fs IH]; intros H flat last c f Ap N Fl Hf;
    (destruct f as [|f]; [cbn in Hf; lia|]); rewrite read_fields_S; cbn [sc_fields].
  - eapply tri_bind0; [apply tri_crd, crd_stop|]. intros c1 <-. cbn beta iota.
    change (STOP =? STOP) with true. cbn iota.
    eapply tri_weak; [apply tri_ret|]. intros c' <-. auto.
  - destruct (H (id, v) (or_introl eq_refl)) as (I & NF & G). cbn [fst snd] in *.
    cbn [fields_apart] in Ap. apply andb_true_iff in Ap. destruct Ap as [Ap Ap2].
    apply andb_true_iff in Ap. destruct Ap as [Ap _].
    assert (E : lastFieldId c = last \/ short last id = false).
    { apply orb_true_iff in Ap. destruct Ap as [->|Ap]; [left; auto|right].
      apply negb_true_iff in Ap. assumption. }
    cbn [fold_right snd] in Hf.
    assert (Rest : forall c1, after (sdepth v) (set_last c (lastField c) id) c1 ->
      tri c1 (_ <-- hdo (rFieldEnd compactR) ;; fs0 <-- read_fields compactR f ;;
              hret ((id, untyped_empty v) :: fs0)) (sc_fields id fs)
        ((id, untyped_empty v) :: map (fun x => (fst x, untyped_empty (snd x))) fs)
        (fun c' => boolValueIsNotNull c' = false /\
               (length (lastField c) <= length (lastField c'))%nat /\
               (max_list (map (fun x => sdepth (snd x)) ((id, v) :: fs)) = O ->
                lastField c' = lastField c))).
    { intros c1 (N1 & L1 & S1 & I1). cbn [lastField lastFieldId set_last] in *.
      change (sc_fields id fs) with ([] ++ sc_fields id fs).
      eapply tri_bind; [apply tri_nop|]. intros c2 <-.
      eapply tri_bind0.
      - apply (IH (fun x Hx => H x (or_intror Hx)) _ id c1 f Ap2 N1); [|lia].
        intros Fv. apply I1. lia.
      - intros c3 (N3 & L3 & S3). eapply tri_weak; [apply tri_ret|]. intros c' <-.
        split; [assumption|]. split; [lia|]. cbn [map max_list fold_right snd].
        intros Mz. unfold max_list in S3. rewrite S3, S1 by lia. reflexivity. }
    cbn [map fst snd].
    assert (Hn : (need v <= f)%nat) by lia.
    destruct (vtype v =? BOOL) eqn:EB.
    + destruct v; try discriminate EB. destruct b; [|discriminate NF].
      unfold sc_fieldval. cbn [fst snd]. change (sc_bool true) with (sc_type BOOL).
      eapply tri_bind.
      { apply tri_crd, crd_field; [assumption|unfold wire_type; cbn; tauto|exact E]. }
      intros c1 <-. cbn [rFieldEnd compactR]. change (BOOL =? STOP) with false. cbn iota beta.
      change (sc_fields id fs) with ([] ++ sc_fields id fs).
      destruct f as [|f']; [cbn in Hn; lia|].
      change (read_val compactR (S f') BOOL) with (v <-- hlift cReadBool ;; hret (VBool v)).
      eapply tri_bind.
      { eapply tri_bind0; [apply tri_bool_true; reflexivity|]. intros c2 <-. apply tri_ret. }
      intros c2 <-. apply Rest.
      repeat split; cbn; auto.
    + assert (FV : sc_fieldval last (id, v) = sc_field last (sc_type (vtype v)) id ++ sc_val v).
      { unfold sc_fieldval. cbn [fst snd]. destruct v; try reflexivity. discriminate EB. }
      rewrite FV, <- app_assoc.
      eapply tri_bind.
      { apply tri_crd, crd_field; [assumption|apply vtype_wire|exact E]. }
      rewrite EB. intros c1 <-. cbn beta iota.
      replace (vtype v =? STOP) with false by (symmetry; apply Z.eqb_neq, wire_not_stop).
      eapply tri_bind; [apply G; [assumption|exact N]|]. exact Rest.
Qed.

Theorem tri_val : forall v, wf v -> no_false_field v = true -> ids_apart v = true -> rgood v.
Proof.
  induction v using tval_ind'; intros Hwf NF AP f c Hf N;
    (destruct f as [|f]; [cbn in Hf; lia|]).
  Ltac scalar_case L := eapply tri_bind0; [apply tri_crd, L|
     let c1 := fresh in intros c1 <-; eapply tri_weak; [apply tri_ret|];
     let c2 := fresh in intros c2 <-; apply after_refl; assumption].
  - change (read_val compactR (S f) (vtype (VBool b))) with (v <-- hlift cReadBool ;; hret (VBool v)).
    scalar_case (crd_bool c b N).
  - change (read_val compactR (S f) (vtype (VByte z))) with (v <-- hlift cReadByte ;; hret (VByte v)).
    scalar_case (crd_byte c z).
  - change (read_val compactR (S f) (vtype (VI16 z))) with (v <-- hlift cReadI16 ;; hret (VI16 v)).
    scalar_case (crd_i16 c z Hwf).
  - change (read_val compactR (S f) (vtype (VI32 z))) with (v <-- hlift cReadI32 ;; hret (VI32 v)).
    scalar_case (crd_i32 c z Hwf).
  - change (read_val compactR (S f) (vtype (VI64 z))) with (v <-- hlift cReadI64 ;; hret (VI64 v)).
    scalar_case (crd_i64 c z Hwf).
  - change (read_val compactR (S f) (vtype (VDouble z)))
      with (v <-- hlift cReadDouble ;; hret (VDouble v)).
    scalar_case (crd_double c z Hwf).
  - change (read_val compactR (S f) (vtype (VStr s)))
      with (v <-- hlift cReadString ;; hret (VStr v)).
    destruct Hwf as [_ L]. scalar_case (crd_string c s L).
  - cbn [wf need no_false_field ids_apart] in *. destruct Hwf as (T & L & A). rewrite all_in in A.
    rewrite Forall_forall in H. rewrite forallb_forall in NF, AP.
    change (read_val compactR (S f) (vtype (VList et l))) with
     ('(et, n) <-- hlift cReadListBegin ;;
      l <-- hrepeat (Z.to_nat n) (read_val compactR f et) ;;
      _ <-- hdo nop ;; hret (VList et l)).
    cbn [sc_val untyped_empty sdepth].
    eapply tri_bind; [apply tri_crd, crd_list; [assumption|lia]|]. intros c1 <-. cbn beta iota.
    rewrite Nat2Z.id.
    eapply tri_bind0; [apply tri_repeat with (d := max_list (map sdepth l)) (g := untyped_empty);
                       [|assumption]|].
    { intros x c0 Hx N0. destruct (A x Hx) as [Ht Hw]. rewrite <- Ht.
      eapply tri_weak; [apply H; auto|].
      - pose proof (max_list_in' _ need l x Hx). lia.
      - intros c' Ha. eapply after_weak; [exact Ha|apply (max_list_in' _ sdepth), Hx]. }
    intros c1 A1. eapply tri_bind0; [apply tri_nop|]. intros c2 <-.
    eapply tri_weak; [apply tri_ret|]. intros c3 <-. assumption.
  - cbn [wf need no_false_field ids_apart] in *. destruct Hwf as (T & L & A). rewrite all_in in A.
    rewrite Forall_forall in H. rewrite forallb_forall in NF, AP.
    change (read_val compactR (S f) (vtype (VSet et l))) with
     ('(et, n) <-- hlift cReadListBegin ;;
      l <-- hrepeat (Z.to_nat n) (read_val compactR f et) ;;
      _ <-- hdo nop ;; hret (VSet et l)).
    cbn [sc_val untyped_empty sdepth].
    eapply tri_bind; [apply tri_crd, crd_list; [assumption|lia]|]. intros c1 <-. cbn beta iota.
    rewrite Nat2Z.id.
    eapply tri_bind0; [apply tri_repeat with (d := max_list (map sdepth l)) (g := untyped_empty);
                       [|assumption]|].
    { intros x c0 Hx N0. destruct (A x Hx) as [Ht Hw]. rewrite <- Ht.
      eapply tri_weak; [apply H; auto|].
      - pose proof (max_list_in' _ need l x Hx). lia.
      - intros c' Ha. eapply after_weak; [exact Ha|apply (max_list_in' _ sdepth), Hx]. }
    intros c1 A1. eapply tri_bind0; [apply tri_nop|]. intros c2 <-.
    eapply tri_weak; [apply tri_ret|]. intros c3 <-. assumption.
  - cbn [wf need no_false_field ids_apart] in *. destruct Hwf as (T1 & T2 & L & A).
    rewrite all_in in A. rewrite Forall_forall in H. rewrite forallb_forall in NF, AP.
    change (read_val compactR (S f) (vtype (VMap kt vt l))) with
     ('(kt, vt, n) <-- hlift cReadMapBegin ;;
      l <-- hrepeat (Z.to_nat n)
              (k <-- read_val compactR f kt ;; v <-- read_val compactR f vt ;; hret (k, v)) ;;
      _ <-- hdo nop ;; hret (VMap kt vt l)).
    cbn [sc_val sdepth].
    eapply tri_bind; [apply tri_crd, crd_map; [assumption|assumption|lia]|]. intros c1 <-.
    destruct l as [|kv l'].
    { cbn [length Z.of_nat map concat untyped_empty]. change (0 =? 0) with true. cbn beta iota.
      change (Z.to_nat 0) with O. cbn [hrepeat].
      eapply tri_bind0; [apply tri_ret|]. intros c2 <-.
      eapply tri_bind0; [apply tri_nop|]. intros c2 <-.
      eapply tri_weak; [apply tri_ret|]. intros c3 <-. apply after_refl, N. }
    change (untyped_empty (VMap kt vt (kv :: l'))) with
      (VMap kt vt (map (fun kv => (untyped_empty (fst kv), untyped_empty (snd kv))) (kv :: l'))).
    set (l := kv :: l') in *.
    replace (Z.of_nat (length l) =? 0) with false by (subst l; cbn [length]; lia). cbn beta iota.
    rewrite Nat2Z.id.
    eapply tri_bind0; [apply tri_repeat with
       (d := max_list (map (fun kv => Nat.max (sdepth (fst kv)) (sdepth (snd kv))) l))
       (g := fun kv => (untyped_empty (fst kv), untyped_empty (snd kv)));
                       [|assumption]|].
    { intros x c0 Hx N0. destruct (A x Hx) as [[Hkt Hkw] [Hvt Hvw]]. destruct (H x Hx) as [Hk Hv].
      specialize (NF x Hx). specialize (AP x Hx). apply andb_true_iff in NF, AP.
      destruct NF as [NFk NFv]. destruct AP as [APk APv].
      pose proof (max_list_in' _ (fun kv => Nat.max (need (fst kv)) (need (snd kv))) l _ Hx) as Mx.
      pose proof (max_list_in' _ (fun kv => Nat.max (sdepth (fst kv)) (sdepth (snd kv))) l _ Hx) as Md.
      cbn beta in Mx, Md. rewrite <- Hkt, <- Hvt.
      eapply tri_bind; [apply Hk; auto; lia|]. intros c2 A2.
      eapply tri_bind0; [apply Hv; auto; [lia|apply (after_nn _ _ _ A2)]|]. intros c3 A3.
      eapply tri_weak; [apply tri_ret|]. intros c4 <-. eapply after_trans; eauto; lia. }
    intros c1 A1. eapply tri_bind0; [apply tri_nop|]. intros c2 <-.
    eapply tri_weak; [apply tri_ret|]. intros c3 <-. assumption.
  - rewrite ids_apart_struct in AP. cbn [wf need no_false_field] in *. rewrite all_in in Hwf.
    rewrite Forall_forall in H. rewrite forallb_forall in NF.
    change (read_val compactR (S f) (vtype (VStruct fs))) with
     (_ <-- hlift cReadStructBegin ;;
      fs <-- read_fields compactR f ;;
      _ <-- hdo cReadStructEnd ;; hret (VStruct fs)).
    rewrite sc_val_struct. cbn [untyped_empty sdepth].
    change (sc_fields 0 fs) with ([] ++ sc_fields 0 fs).
    eapply (tri_bind _ _ _ _ _ _ _ [] _ (eq (set_last c (lastFieldId c :: lastField c) 0))).
    { intros r rest B X. eexists r, _. split; [reflexivity|]. auto. }
    intros c1 <-.
    assert (APs : forall fs flat last, fields_apart flat last fs = true ->
              forall x, In x fs -> ids_apart (snd x) = true).
    { clear. induction fs as [|[i v] fs IH]; intros flat last Ap x Hx; [destruct Hx|].
      cbn [fields_apart] in Ap. rewrite !andb_true_iff in Ap. destruct Ap as [[_ Av] Af].
      destruct Hx as [<-|Hx]; [assumption|eapply IH; eassumption]. }
    eapply tri_bind0.
    { apply tri_fields with (flat := true); [|assumption|exact N|reflexivity|lia].
      intros x Hx. destruct (Hwf x Hx). specialize (NF x Hx). apply andb_true_iff in NF.
      destruct NF as [NF1 NF2]. apply negb_true_iff in NF1. split; [assumption|].
      split; [assumption|]. apply H; auto. eapply APs; eassumption. }
    intros c2 (N2 & L2 & S2). cbn [lastField set_last length] in L2, S2.
    eapply (tri_bind0 _ _ _ _ _ _ tt _ (eq (set_last c2 (lastField c2) (hd 0 (lastField c2))))).
    { intros r rest B X. destruct (lastField c2) as [|i stk] eqn:E; [cbn in L2; lia|].
      exists r, (set_last c2 (i :: stk) i). unfold hdo, cReadStructEnd. rewrite E. cbn. auto. }
    intros c3 <-. eapply tri_weak; [apply tri_ret|]. intros c' <-.
    repeat split; cbn [lastField lastFieldId boolValueIsNotNull set_last].
    + assumption.
    + lia.
    + discriminate.
    + intros D. rewrite S2 by lia. reflexivity.
Qed.
