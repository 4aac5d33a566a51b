(** Skip: exactness on the binary encoding, termination, and what it does with errors. *)
From Coq Require Import ZArith List Bool Lia.
From Coq Require Import ZifyBool ZifyNat.
From Verif Require Import Base Errors Transport Proto Arith TransportProofs Values Codec
  Binary BinarySpec Skip BinaryProofs.
Import ListNotations.
Open Scope Z_scope.

Section SkipEq.
Context {S : Type}.
Variable P : rproto S.
Variable M : Z.
Lemma skip_fields_S : forall f d s,
  skip_fields P M (Datatypes.S f) d s =
      ('((_, typeId, _), _, s1) <- rFieldBegin P s ;;
      if typeId =? STOP then Ok s1
      else
        '(_, s2) <- skip P M f typeId (d - 1) s1 ;;
        '(_, s3) <- rFieldEnd P s2 ;;
        skip_fields P M f d s3).
Proof. reflexivity. Qed.
Lemma skip_struct : forall f d s,
  skip P M (Datatypes.S f) STRUCT d s =
        ('(_, e, s1) <- rStructBegin P s ;;
        match e with
        | Some _ => Ok (e, s1)
        | None => s2 <- skip_fields P M f d s1 ;; rStructEnd P s2
        end).
Proof. reflexivity. Qed.
Lemma skip_map : forall f d s,
  skip P M (Datatypes.S f) MAP d s =
        ('((kt, vt, size), e, s1) <- rMapBegin P s ;;
        match e with
        | Some _ => Ok (e, s1)
        | None =>
          s2 <- repeat_ignoring (Z.to_nat size)
                  (fun s => '(_, s') <- skip P M f kt (d - 1) s ;;
                            skip P M f vt M s') s1 ;;
          rMapEnd P s2
        end).
Proof. reflexivity. Qed.
Lemma skip_set : forall f d s,
  skip P M (Datatypes.S f) SET d s =
        ('((et, size), e, s1) <- rSetBegin P s ;;
        match e with
        | Some _ => Ok (e, s1)
        | None =>
          s2 <- repeat_ignoring (Z.to_nat size) (skip P M f et (d - 1)) s1 ;;
          rSetEnd P s2
        end).
Proof. reflexivity. Qed.
Lemma skip_list : forall f d s,
  skip P M (Datatypes.S f) LIST d s =
        ('((et, size), e, s1) <- rListBegin P s ;;
        match e with
        | Some _ => Ok (e, s1)
        | None =>
          s2 <- repeat_ignoring (Z.to_nat size) (skip P M f et (d - 1)) s1 ;;
          rListEnd P s2
        end).
Proof. reflexivity. Qed.
End SkipEq.

(** ** Exactness on encoded values *)

Section Exact.
Context {S C : Type}.
Variable view : S -> rt.
Variable st : S -> C.

(** [op] consumes exactly [bs] and reports no error. *)
Definition eats (c : C) (op : wop S) (bs : bytes) (c' : C) : Prop :=
  forall s rest, benign (view s) -> st s = c -> content (view s) = bs ++ rest ->
  exists s', op s = Ok (None, s') /\ benign (view s') /\ st s' = c' /\
             content (view s') = rest.

Lemma eats_of_dec : forall A c c' (m : rop S A) bs a,
  dec view st c (hlift m) bs a c' ->
  eats c (fun s => '(_, e, s1) <- m s ;; Ok (e, s1)) bs c'.
Proof.
  intros A c c' m bs a D s rest B E X. destruct (D s rest B E X) as (s' & R & H).
  exists s'. unfold hlift in R. destruct (m s) as [[[x [e|]] s1]| |]; cbn in *; try discriminate.
  injection R; intros; subst. auto.
Qed.

Lemma dec_inv : forall A c c' (m : rop S A) bs a,
  dec view st c (hlift m) bs a c' ->
  forall s rest, benign (view s) -> st s = c -> content (view s) = bs ++ rest ->
  exists s', m s = Ok (a, None, s') /\ benign (view s') /\ st s' = c' /\
             content (view s') = rest.
Proof.
  intros A c c' m bs a D s rest B E X. destruct (D s rest B E X) as (s' & R & H).
  exists s'. unfold hlift in R. destruct (m s) as [[[x [e|]] s1]| |]; cbn in *; try discriminate.
  injection R; intros; subst. auto.
Qed.

Lemma repeat_eats : forall A c (body : wop S) (en : A -> bytes) (l : list A),
  (forall x, In x l -> eats c body (en x) c) ->
  forall s rest, benign (view s) -> st s = c -> content (view s) = concat (map en l) ++ rest ->
  exists s', repeat_ignoring (length l) body s = Ok s' /\ benign (view s') /\ st s' = c /\
             content (view s') = rest.
Proof.
  induction l as [|x l IH]; intros H s rest B E X; cbn [length repeat_ignoring map concat] in *.
  - exists s. auto.
  - rewrite <- app_assoc in X.
    destruct (H x (or_introl eq_refl) s _ B E X) as (s1 & R1 & B1 & E1 & X1).
    rewrite R1. cbn [obind]. apply IH; auto. intros; apply H; right; assumption.
Qed.
End Exact.

Definition beats (op : wop rt) (bs : bytes) : Prop :=
  eats (fun r => r) (fun _ => tt) tt op bs tt.

Lemma bdec_inv : forall A (m : rop rt A) bs a, bdec (hlift m) bs a ->
  forall r rest, benign r -> content r = bs ++ rest ->
  exists r', m r = Ok (a, None, r') /\ benign r' /\ content r' = rest.
Proof.
  intros A m bs a D r rest B X.
  destruct (dec_inv _ _ _ _ _ _ _ _ D r rest B eq_refl X) as (r' & H1 & H2 & _ & H3). eauto.
Qed.

Lemma beats_fields : forall R M fs,
  rFieldBegin R = bReadFieldBegin -> rFieldEnd R = nop ->
  (forall x, In x fs -> in_s 16 (fst x) /\
     forall f d, (need (snd x) <= f)%nat -> beats (skip R M f (vtype (snd x)) d) (sb_val (snd x))) ->
  forall f d r rest,
  (fold_right (fun x n => Datatypes.S (Nat.max (need (snd x)) n)) 1%nat fs <= f)%nat ->
  benign r ->
  content r = (concat (map (fun x => sb_field (vtype (snd x)) (fst x) ++ sb_val (snd x)) fs)
              ++ sb_stop) ++ rest ->
  exists r', skip_fields R M f d r = Ok r' /\ benign r' /\ content r' = rest.
Proof.
  intros R M fs HB HE. induction fs as [|[id v] fs IH]; intros H f d r rest Hf B X.
  - cbn [map concat app fold_right] in *. destruct f as [|f]; [lia|].
    rewrite skip_fields_S, HB.
    destruct (bdec_inv _ _ _ _ bdec_stop r rest B X) as (r1 & R1 & B1 & X1).
    rewrite R1. cbn [obind]. change (STOP =? STOP) with true. cbn iota. eauto.
  - cbn [map concat fold_right fst snd] in *. destruct f as [|f]; [lia|].
    rewrite skip_fields_S, HB. rewrite <- !app_assoc in X.
    destruct (H (id, v)) as [Hi Hg]; [left; reflexivity|]. cbn [fst snd] in *.
    destruct (bdec_inv _ _ _ _ (bdec_field (vtype v) id (wire_not_stop v) Hi) r _ B X)
      as (r1 & R1 & B1 & X1).
    rewrite R1. cbn [obind].
    replace (vtype v =? STOP) with false by (symmetry; apply Z.eqb_neq, wire_not_stop).
    assert (Hn : (need v <= f)%nat) by lia.
    destruct (Hg f (d - 1) Hn r1 _ B1 eq_refl X1) as (r2 & R2 & B2 & _ & X2).
    rewrite R2. cbn [obind]. rewrite HE. unfold nop. cbn [obind].
    apply IH; [intros; apply H; right; assumption|lia|assumption|].
    rewrite X2, app_assoc. reflexivity.
Qed.

(** Skip consumes exactly one encoded value, at any nesting and whatever the depth
    argument. *)
Theorem skip_beats : forall strict M v, wf v ->
  forall f d, (need v <= f)%nat -> beats (skip (binaryR strict) M f (vtype v) d) (sb_val v).
Proof.
  intros strict M. induction v using tval_ind'; intros Hwf f d Hf;
    (destruct f as [|f]; [cbn in Hf; lia|]); cbn [sb_val].
  - eapply eats_of_dec, bdec_bool.
  - eapply eats_of_dec, bdec_byte.
  - eapply eats_of_dec, bdec_i16, Hwf.
  - eapply eats_of_dec, bdec_i32, Hwf.
  - eapply eats_of_dec, bdec_i64, Hwf.
  - eapply eats_of_dec, bdec_double, Hwf.
  - destruct Hwf as [_ L]. eapply eats_of_dec, bdec_string, L.
  - cbn [wf need vtype] in *. destruct Hwf as (T & L & A). rewrite all_in in A.
    rewrite Forall_forall in H. intros r rest B _ X. rewrite <- app_assoc in X.
    rewrite skip_list. cbn [rListBegin rListEnd binaryR].
    destruct (bdec_inv _ _ _ _ (bdec_list et _ (len_in_s32 _ L)) r _ B X)
      as (r1 & R1 & B1 & X1).
    rewrite R1. cbn [obind]. rewrite Nat2Z.id.
    destruct (repeat_eats (fun r => r) (fun _ => tt) _ tt
                (skip (binaryR strict) M f et (d - 1)) sb_val l) with (s := r1) (rest := rest)
      as (r2 & R2 & B2 & _ & X2); auto.
    { intros x Hx. destruct (A x Hx) as [Ht Hw]. rewrite <- Ht. apply H; [assumption|assumption|].
      pose proof (max_list_in _ need l x Hx). lia. }
    rewrite R2. exists r2. repeat split; assumption.
  - cbn [wf need vtype] in *. destruct Hwf as (T & L & A). rewrite all_in in A.
    rewrite Forall_forall in H. intros r rest B _ X. rewrite <- app_assoc in X.
    rewrite skip_set. cbn [rSetBegin rSetEnd binaryR]. rewrite set_list.
    destruct (bdec_inv _ _ _ _ (bdec_list et _ (len_in_s32 _ L)) r _ B X)
      as (r1 & R1 & B1 & X1).
    rewrite R1. cbn [obind]. rewrite Nat2Z.id.
    destruct (repeat_eats (fun r => r) (fun _ => tt) _ tt
                (skip (binaryR strict) M f et (d - 1)) sb_val l) with (s := r1) (rest := rest)
      as (r2 & R2 & B2 & _ & X2); auto.
    { intros x Hx. destruct (A x Hx) as [Ht Hw]. rewrite <- Ht. apply H; [assumption|assumption|].
      pose proof (max_list_in _ need l x Hx). lia. }
    rewrite R2. exists r2. repeat split; assumption.
  - cbn [wf need vtype] in *. destruct Hwf as (T1 & T2 & L & A). rewrite all_in in A.
    rewrite Forall_forall in H. intros r rest B _ X. rewrite <- app_assoc in X.
    rewrite skip_map. cbn [rMapBegin rMapEnd binaryR].
    destruct (bdec_inv _ _ _ _ (bdec_map kt vt _ (len_in_s32 _ L)) r _ B X)
      as (r1 & R1 & B1 & X1).
    rewrite R1. cbn [obind]. rewrite Nat2Z.id.
    edestruct (repeat_eats (fun r => r) (fun _ => tt) _ tt
                (fun s => '(_, s') <- skip (binaryR strict) M f kt (d - 1) s ;;
                            skip (binaryR strict) M f vt M s')
                (fun kv => sb_val (fst kv) ++ sb_val (snd kv)) l) with (s := r1) (rest := rest)
      as (r2 & R2 & B2 & _ & X2); auto.
    { intros [k v] Hx. destruct (A _ Hx) as [[Hkt Hkw] [Hvt Hvw]]. destruct (H _ Hx) as [Hk Hv].
      pose proof (max_list_in _ (fun kv => Nat.max (need (fst kv)) (need (snd kv))) l _ Hx) as Mx.
      cbn [fst snd] in *. intros s rest' Bs _ Xs. rewrite <- app_assoc in Xs.
      assert (N1 : (need k <= f)%nat) by lia. assert (N2 : (need v <= f)%nat) by lia.
      destruct (Hk Hkw f (d - 1) N1 s _ Bs eq_refl Xs) as (s1 & S1 & Bs1 & _ & Xs1).
      rewrite Hkt in S1. rewrite S1. cbn [obind].
      rewrite <- Hvt. apply (Hv Hvw f M N2 s1 _ Bs1 eq_refl Xs1). }
    rewrite R2. exists r2. repeat split; assumption.
  - cbn [wf need vtype] in *. rewrite all_in in Hwf. rewrite Forall_forall in H.
    intros r rest B _ X. rewrite skip_struct. cbn [rStructBegin rStructEnd binaryR obind].
    destruct (beats_fields (binaryR strict) M fs) with (f := f) (d := d) (r := r) (rest := rest)
      as (r2 & R2 & B2 & X2); auto; try lia.
    { intros x Hx. destruct (Hwf x Hx). split; [assumption|]. intros; apply H; assumption. }
    rewrite R2. exists r2. repeat split; assumption.
Qed.

(** ** Termination on arbitrary input *)

Section Term.
Context {S : Type}.
Variable R : rproto S.
Variable M : Z.
Variable len : S -> nat.
(** [pan]: may the outcome be a panic? *)
Variable pan : Prop.

Definition okish {A} (o : outcome A) (Q : A -> Prop) : Prop :=
  match o with
  | Ok a => Q a
  | Panic => pan
  | OutOfFuel => False
  end.

Lemma okish_bind : forall A B (o : outcome A) (k : A -> outcome B) Q Q',
  okish o Q -> (forall a, Q a -> okish (k a) Q') -> okish (obind o k) Q'.
Proof. intros A B [a| |] k Q Q' H K; cbn in *; auto. Qed.

Lemma okish_mono : forall A (o : outcome A) (Q Q' : A -> Prop),
  okish o Q -> (forall a, Q a -> Q' a) -> okish o Q'.
Proof. intros A [a| |] Q Q' H K; cbn in *; auto. Qed.

Definition rmono {A} (op : rop S A) : Prop :=
  forall s, okish (op s) (fun '(_, _, s') => (len s' <= len s)%nat).
Definition wmono (op : wop S) : Prop :=
  forall s, okish (op s) (fun '(_, s') => (len s' <= len s)%nat).

Hypothesis Hbool : rmono (rBool R).
Hypothesis Hbyte : rmono (rByte R).
Hypothesis Hi16 : rmono (rI16 R).
Hypothesis Hi32 : rmono (rI32 R).
Hypothesis Hi64 : rmono (rI64 R).
Hypothesis Hdouble : rmono (rDouble R).
Hypothesis Hstring : rmono (rString R).
Hypothesis Hse : wmono (rStructEnd R).
Hypothesis Hfe : wmono (rFieldEnd R).
Hypothesis Hme : wmono (rMapEnd R).
Hypothesis Hle : wmono (rListEnd R).
Hypothesis Hsete : wmono (rSetEnd R).
Hypothesis Hsb : rmono (rStructBegin R).
Hypothesis Hfb : forall s, okish (rFieldBegin R s)
  (fun '((_, t, _), _, s') => (len s' <= len s)%nat /\ (t <> STOP -> (len s' < len s)%nat)).
Hypothesis Hlb : forall s, okish (rListBegin R s)
  (fun '((t, _), e, s') => (len s' <= len s)%nat /\ (e = None -> t <> STOP -> (len s' < len s)%nat)).
Hypothesis Hsetb : forall s, okish (rSetBegin R s)
  (fun '((t, _), e, s') => (len s' <= len s)%nat /\ (e = None -> t <> STOP -> (len s' < len s)%nat)).
Hypothesis Hmb : forall s, okish (rMapBegin R s)
  (fun '((k, v, _), e, s') => (len s' <= len s)%nat /\
      (e = None -> k <> STOP \/ v <> STOP -> (len s' < len s)%nat)).

Lemma repeat_term : forall n body s0,
  (forall s, (len s <= len s0)%nat -> okish (body s) (fun '(_, s') => (len s' <= len s)%nat)) ->
  forall s, (len s <= len s0)%nat ->
  okish (repeat_ignoring n body s) (fun s' => (len s' <= len s)%nat).
Proof.
  induction n as [|n IH]; intros body s0 H s L; cbn [repeat_ignoring].
  - cbn. lia.
  - eapply okish_bind; [apply H; assumption|]. intros [e s'] L'. cbn in L'.
    eapply okish_mono; [eapply IH; [exact H|lia]|]. cbn; lia.
Qed.

Lemma lift_term : forall A (op : rop S A), rmono op -> forall s,
  okish ('(_, e, s1) <- op s ;; Ok (e, s1)) (fun '(_, s') => (len s' <= len s)%nat).
Proof. intros A op H s. eapply okish_bind; [apply H|]. intros [[a e] s'] L. exact L. Qed.

Lemma skip_stop : forall f d s, skip R M (Datatypes.S f) STOP d s = Ok (None, s).
Proof. reflexivity. Qed.

Theorem skip_term : forall f,
  (forall t d s, (2 * len s + 2 <= f)%nat \/ (t = STOP /\ 1 <= f)%nat ->
     okish (skip R M f t d s) (fun '(_, s') => (len s' <= len s)%nat)) /\
  (forall d s, (2 * len s + 1 <= f)%nat ->
     okish (skip_fields R M f d s) (fun s' => (len s' <= len s)%nat)).
Proof.
  induction f as [|f [IHs IHf]].
  - split; intros; lia.
  - split.
    + intros t d s [L|[-> _]]; [|rewrite skip_stop; cbn; lia].
      cbn [skip].
      repeat match goal with
      | |- context [if ?c then _ else _] =>
        destruct c eqn:?; [first [apply lift_term; assumption | cbn; lia | idtac]|]
      end; [| | | |cbn; lia].
      * eapply okish_bind; [apply Hsb|]. intros [[a [e|]] s1] L1; [exact L1|].
        eapply okish_bind; [apply IHf; lia|]. intros s2 L2. cbn in L2.
        eapply okish_mono; [apply Hse|]. intros [e s3] L3. lia.
      * eapply okish_bind; [apply Hmb|]. intros [[[[k v] n] [e|]] s1] [L1 L1']; [exact L1|].
        specialize (L1' eq_refl).
        eapply okish_bind.
        -- eapply repeat_term; [|apply Nat.le_refl].
           intros s' Ls'. eapply okish_bind.
           ++ apply IHs. destruct (Z.eq_dec k STOP) as [Ek|Nk].
              ** right. split; [assumption|lia].
              ** left. specialize (L1' (or_introl Nk)). lia.
           ++ intros [e' s2] L2. eapply okish_mono; [apply IHs|].
              ** destruct (Z.eq_dec v STOP) as [Ev|Nv].
                 --- right. split; [assumption|lia].
                 --- left. specialize (L1' (or_intror Nv)). lia.
              ** intros [e3 s3] L3. cbn in *. lia.
        -- intros s2 L2. cbn in L2. eapply okish_mono; [apply Hme|].
           intros [e3 s3] L3. lia.
      * eapply okish_bind; [apply Hsetb|]. intros [[[et n] [e|]] s1] [L1 L1']; [exact L1|].
        specialize (L1' eq_refl).
        eapply okish_bind.
        -- eapply repeat_term; [|apply Nat.le_refl].
           intros s' Ls'. apply IHs.
           destruct (Z.eq_dec et STOP) as [Ee|Ne]; [right; split; [assumption|lia]|left].
           specialize (L1' Ne). lia.
        -- intros s2 L2. cbn in L2. eapply okish_mono; [apply Hsete|].
           intros [e3 s3] L3. lia.
      * eapply okish_bind; [apply Hlb|]. intros [[[et n] [e|]] s1] [L1 L1']; [exact L1|].
        specialize (L1' eq_refl).
        eapply okish_bind.
        -- eapply repeat_term; [|apply Nat.le_refl].
           intros s' Ls'. apply IHs.
           destruct (Z.eq_dec et STOP) as [Ee|Ne]; [right; split; [assumption|lia]|left].
           specialize (L1' Ne). lia.
        -- intros s2 L2. cbn in L2. eapply okish_mono; [apply Hle|].
           intros [e3 s3] L3. lia.
    + intros d s L. rewrite skip_fields_S.
      eapply okish_bind; [apply Hfb|]. intros [[[[nm t] id] e] s1] [L1 L1'].
      destruct (t =? STOP) eqn:E; [cbn; lia|].
      assert (Lt : (len s1 < len s)%nat) by (apply L1'; lia).
      eapply okish_bind; [apply IHs; left; lia|]. intros [e2 s2] L2. cbn in L2.
      eapply okish_bind; [apply Hfe|]. intros [e3 s3] L3. cbn in L3.
      eapply okish_mono; [apply IHf; lia|]. cbn; lia.
Qed.
End Term.

(** Instance: TBinaryProtocol over any transport whatsoever. *)

Lemma b_readAll_mono : forall n r, exists buf e r' d,
  b_readAll n r = Ok (buf, e, r') /\ content r = d ++ content r' /\ buf = pad n d /\
  (length d <= n)%nat.
Proof.
  intros n r. unfold b_readAll. destruct (read_all n r) as [[[c buf] e] r'] eqn:E.
  apply read_all_any in E. destruct E as (d & E1 & E2 & E3 & _).
  exists buf, (protocol_exc_from_os e), r', d. auto.
Qed.

Lemma bReadByte_mono : forall r, exists b e r',
  bReadByte r = Ok (b, e, r') /\ (length (content r') <= length (content r))%nat /\
  (b <> 0 -> (length (content r') < length (content r))%nat).
Proof.
  intros r. unfold bReadByte. destruct (b_readAll_mono 1 r) as (buf & e & r' & d & -> & C & P & L).
  cbn [obind]. exists (at_ 0 buf), e, r'. split; [reflexivity|]. rewrite C, app_length.
  split; [lia|]. intros N. destruct d; [|cbn; lia]. subst buf. cbn in N. congruence.
Qed.

Lemma fixed_mono : forall A n (g : bytes -> A) r, exists a e r',
  ('(buf, e, r') <- b_readAll n r ;; Ok (g buf, e, r')) = Ok (a, e, r') /\
  (length (content r') <= length (content r))%nat.
Proof.
  intros A n g r. destruct (b_readAll_mono n r) as (buf & e & r' & d & -> & C & P & L).
  cbn [obind]. exists (g buf), e, r'. split; [reflexivity|]. rewrite C, app_length. lia.
Qed.

Definition blen (r : rt) : nat := length (content r).

Lemma bReadI32_mono : forall r, exists a e r',
  bReadI32 r = Ok (a, e, r') /\ (length (content r') <= length (content r))%nat.
Proof. intro r. apply (fixed_mono _ 4 (fun b => wraps 32 (be_uint32 b))). Qed.
Lemma bReadI16_mono : forall r, exists a e r',
  bReadI16 r = Ok (a, e, r') /\ (length (content r') <= length (content r))%nat.
Proof. intro r. apply (fixed_mono _ 2 (fun b => wraps 16 (be_uint16 b))). Qed.

Lemma body_mono : forall n r, exists a e r',
  bReadStringBody n r = Ok (a, e, r') /\ (length (content r') <= length (content r))%nat.
Proof.
  intros n r. unfold bReadStringBody. destruct (n <? 0); [exists [], None, r; auto|].
  destruct (read_all (Z.to_nat n) r) as [[[c buf] e] r'] eqn:E.
  apply read_all_any in E. destruct E as (d & E1 & E2 & E3 & _).
  exists buf, (protocol_exc_from_os e), r'. split; [reflexivity|]. rewrite E1, app_length. lia.
Qed.

Lemma bString_mono : forall r, exists a e r',
  bReadString r = Ok (a, e, r') /\ (length (content r') <= length (content r))%nat.
Proof.
  intros r. unfold bReadString. destruct (bReadI32_mono r) as (n & e & r1 & -> & L).
  cbn [obind]. destruct e as [e|]; [exists [], (Some e), r1; auto|].
  destruct (body_mono n r1) as (a & e & r2 & -> & L2). exists a, e, r2. split; [auto|lia].
Qed.

Lemma bReadBool_mono : forall r, exists a e r',
  bReadBool r = Ok (a, e, r') /\ (length (content r') <= length (content r))%nat.
Proof.
  intros r. unfold bReadBool. destruct (bReadByte_mono r) as (b & e & r' & -> & L & _).
  cbn [obind]. eauto 6.
Qed.

Lemma bField_mono : forall r, exists nm t id e r',
  bReadFieldBegin r = Ok ((nm, t, id), e, r') /\
  (length (content r') <= length (content r))%nat /\
  (t <> STOP -> (length (content r') < length (content r))%nat).
Proof.
  intros r. unfold bReadFieldBegin. destruct (bReadByte_mono r) as (b & e & r' & -> & L & N).
  cbn [obind]. destruct e as [e|]; [exists [], b, 0, (Some e), r'; auto|].
  destruct (b =? STOP) eqn:E; cbn [negb]; [exists [], b, 0, None, r'; auto|].
  destruct (bReadI16_mono r') as (i & e & r2 & -> & L2). cbn [obind].
  exists [], b, i, e, r2. unfold STOP in *. split; [reflexivity|]. lia.
Qed.

Lemma bList_mono : forall r, exists t n e r',
  bReadListBegin r = Ok ((t, n), e, r') /\
  (length (content r') <= length (content r))%nat /\
  (e = None -> t <> STOP -> (length (content r') < length (content r))%nat).
Proof.
  intros r. unfold bReadListBegin. destruct (bReadByte_mono r) as (b & e & r' & -> & L & N).
  cbn [obind]. destruct e as [e|].
  - destruct (pefo_some e) as [e' ->]. exists 0, 0, (Some e'), r'. repeat split; auto; congruence.
  - destruct (bReadI32_mono r') as (i & e & r2 & -> & L2). cbn [obind].
    exists b, i, (protocol_exc_from_os e), r2. unfold STOP. split; [reflexivity|]. lia.
Qed.

Lemma bMap_mono : forall r, exists k v n e r',
  bReadMapBegin r = Ok ((k, v, n), e, r') /\
  (length (content r') <= length (content r))%nat /\
  (e = None -> k <> STOP \/ v <> STOP -> (length (content r') < length (content r))%nat).
Proof.
  intros r. unfold bReadMapBegin. destruct (bReadByte_mono r) as (b & e & r' & -> & L & N).
  cbn [obind]. destruct e as [e|].
  - destruct (pefo_some e) as [e' ->]. exists 0, 0, 0, (Some e'), r'. repeat split; auto; congruence.
  - destruct (bReadByte_mono r') as (b2 & e2 & r2 & -> & L2 & N2). cbn [obind].
    destruct e2 as [e2|].
    + destruct (pefo_some e2) as [e' ->]. exists b, 0, 0, (Some e'), r2.
      split; [reflexivity|]. split; [lia|congruence].
    + destruct (bReadI32_mono r2) as (i & e & r3 & -> & L3). cbn [obind].
      exists b, b2, i, (protocol_exc_from_os e), r3. unfold STOP. split; [reflexivity|]. lia.
Qed.

Ltac use_mono H :=
  let r := fresh in intro r; edestruct (H r) as (? & ? & ? & E & ?); cbn in *; rewrite E; cbn; auto.

Theorem skip_binary_term : forall strict M f t d r,
  (2 * length (content r) + 2 <= f)%nat ->
  exists e r', skip (binaryR strict) M f t d r = Ok (e, r') /\
               (length (content r') <= length (content r))%nat.
Proof.
  intros strict M f t d r L.
  assert (K : okish False (skip (binaryR strict) M f t d r)
                (fun '(_, s') => (blen s' <= blen r)%nat)).
  { apply (skip_term (binaryR strict) M blen False); try (left; exact L);
      unfold rmono, wmono, blen; cbn [binaryR rBool rByte rI16 rI32 rI64 rDouble rString rStructEnd
        rFieldEnd rMapEnd rListEnd rSetEnd rStructBegin rFieldBegin rListBegin rSetBegin rMapBegin];
      try (intro s; apply Nat.le_refl).
    - intro s. destruct (bReadBool_mono s) as (? & ? & ? & -> & ?). assumption.
    - intro s. destruct (bReadByte_mono s) as (? & ? & ? & -> & ? & ?). assumption.
    - intro s. destruct (bReadI16_mono s) as (? & ? & ? & -> & ?). assumption.
    - intro s. destruct (bReadI32_mono s) as (? & ? & ? & -> & ?). assumption.
    - intro s. destruct (fixed_mono _ 8 (fun b => wraps 64 (be_uint64 b)) s) as (? & ? & ? & E & ?).
      unfold bReadI64. rewrite E. assumption.
    - intro s. destruct (fixed_mono _ 8 be_uint64 s) as (? & ? & ? & E & ?).
      unfold bReadDouble. rewrite E. assumption.
    - intro s. destruct (bString_mono s) as (? & ? & ? & -> & ?). assumption.
    - intro s. destruct (bField_mono s) as (? & ? & ? & ? & ? & -> & ?). assumption.
    - intro s. destruct (bList_mono s) as (? & ? & ? & ? & -> & ?). assumption.
    - intro s. rewrite set_list. destruct (bList_mono s) as (? & ? & ? & ? & -> & ?). assumption.
    - intro s. destruct (bMap_mono s) as (? & ? & ? & ? & ? & -> & ?). assumption. }
  destruct (skip (binaryR strict) M f t d r) as [[e r']| |]; cbn in K; try contradiction.
  eauto.
Qed.

(** ** What Skip reports *)

(** Skip of a struct never reports an error, whatever the input. *)
Lemma skip_struct_silent : forall strict M f d r e r',
  skip (binaryR strict) M f STRUCT d r = Ok (e, r') -> e = None.
Proof.
  intros strict M f d r e r' H. destruct f as [|f]; [discriminate|].
  rewrite skip_struct in H. cbn [rStructBegin rStructEnd binaryR obind] in H.
  unfold nop in H. destruct (skip_fields (binaryR strict) M f d r); cbn in H; congruence.
Qed.

(** Skip of a list reports exactly the errors of reading the list header. *)
Lemma skip_list_header : forall strict M f d r e r',
  skip (binaryR strict) M f LIST d r = Ok (e, r') ->
  exists h e1 r1, bReadListBegin r = Ok (h, e1, r1) /\ (e <> None <-> e1 <> None).
Proof.
  intros strict M f d r e r' H. destruct f as [|f]; [discriminate|].
  rewrite skip_list in H. cbn [rListBegin rListEnd binaryR] in H.
  destruct (bReadListBegin r) as [[[[et n] [e1|]] r1]| |]; cbn [obind] in H; try discriminate.
  - injection H; intros; subst. eexists _, _, _. split; [reflexivity|]. split; congruence.
  - unfold nop in H. destruct (repeat_ignoring _ _ _) in H; cbn in H; try discriminate.
    injection H; intros; subst. eexists _, _, _. split; [reflexivity|]. split; congruence.
Qed.

Lemma trunc_skip_scalar : forall A (m : rop rt A) bs r q,
  btrunc (hlift m) bs -> benign r -> content r ++ q = bs -> q <> [] ->
  exists e r', ('(_, e, s1) <- m r ;; Ok (e, s1)) = Ok (Some e, r').
Proof.
  intros A m bs r q T B X N. destruct (T r q B eq_refl X N) as (e & r' & H).
  unfold hlift in H. destruct (m r) as [[[x [e1|]] s1]| |]; cbn in H; try discriminate.
  injection H; intros; subst. exists e, r'. reflexivity.
Qed.
