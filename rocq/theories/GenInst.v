(** The binary and the compact protocol deliver and take values in the sense of GenSpec. *)
From Coq Require Import ZArith List Bool Lia Permutation.
From Coq Require Import ZifyBool ZifyNat.
From Verif Require Import Base Errors Transport Proto Arith TransportProofs Values Codec
  Binary BinarySpec Skip BinaryProofs SkipProofs Compact CompactSpec CompactArith CompactProofs
  CompactRead CompactStruct CompactExact.
From Verif Require Import F64 Strconv TField GoVal Compare TList TSet TMap Gen GenSpec GenProofs.
Import ListNotations.
Open Scope Z_scope.
Ltac Zify.zify_post_hook ::= Z.div_mod_to_equations.

(** ** Binary, reading *)

Section BinR.
Variable strict : bool.
Let R := binaryR strict.
Definition brgood (v : tval) : Prop :=
  forall r rest, benign r -> content r = sb_val v ++ rest ->
  exists r', rd true R v r r' /\ benign r' /\ content r' = rest.

Lemma brd_list : forall l, (forall v, In v l -> brgood v) ->
  forall r rest, benign r -> content r = concat (map sb_val l) ++ rest ->
  exists r', rds true R l r r' /\ benign r' /\ content r' = rest.
Proof.
  induction l as [|v l IH]; intros H r rest B X; cbn [map concat] in X.
  - exists r. split; [constructor|]. auto.
  - rewrite <- app_assoc in X. destruct (H v (or_introl eq_refl) r _ B X) as (r1 & R1 & B1 & X1).
    destruct (IH (fun u Hu => H u (or_intror Hu)) r1 _ B1 X1) as (r2 & R2 & B2 & X2).
    exists r2. split; [econstructor; eassumption|]. auto.
Qed.
Lemma brd_map : forall l, (forall kv, In kv l -> brgood (fst kv) /\ brgood (snd kv)) ->
  forall r rest, benign r ->
  content r = concat (map (fun kv => sb_val (fst kv) ++ sb_val (snd kv)) l) ++ rest ->
  exists r', rdm true R l r r' /\ benign r' /\ content r' = rest.
Proof.
  induction l as [|[k v] l IH]; intros H r rest B X; cbn [map concat fst snd] in X.
  - exists r. split; [constructor|]. auto.
  - rewrite <- !app_assoc in X. destruct (H (k, v) (or_introl eq_refl)) as [Gk Gv]. cbn [fst snd] in *.
    destruct (Gk r _ B X) as (r1 & R1 & B1 & X1). destruct (Gv r1 _ B1 X1) as (r2 & R2 & B2 & X2).
    destruct (IH (fun u Hu => H u (or_intror Hu)) r2 _ B2 X2) as (r3 & R3 & B3 & X3).
    exists r3. split; [econstructor; eassumption|]. auto.
Qed.
Lemma brd_fields : forall fs, (forall f, In f fs -> in_s 16 (fst f) /\ brgood (snd f)) ->
  forall r rest, benign r ->
  content r = (concat (map (fun x => sb_field (vtype (snd x)) (fst x) ++ sb_val (snd x)) fs)
              ++ sb_stop) ++ rest ->
  exists r', rdf true R fs r r' /\ benign r' /\ content r' = rest.
Proof.
  induction fs as [|[id v] fs IH]; intros H r rest B X; cbn [map concat fst snd app] in X.
  - destruct (bdec_inv _ _ _ _ bdec_stop r rest B X) as (r1 & R1 & B1 & X1).
    exists r1. split; [econstructor; exact R1|]. auto.
  - rewrite <- !app_assoc in X. destruct (H (id, v) (or_introl eq_refl)) as [Hi Gv]. cbn [fst snd] in *.
    destruct (bdec_inv _ _ _ _ (bdec_field (vtype v) id (wire_not_stop v) Hi) r _ B X)
      as (r1 & R1 & B1 & X1).
    destruct (Gv r1 _ B1 X1) as (r2 & R2 & B2 & X2). rewrite app_assoc in X2.
    destruct (IH (fun u Hu => H u (or_intror Hu)) r2 _ B2 X2) as (r3 & R3 & B3 & X3).
    exists r3. split; [econstructor; [exact R1|exact R2|reflexivity|exact R3]|]. auto.
Qed.

Lemma bin_str : forall r b r', bReadBinary r = Ok (b, None, r') -> bReadString r = Ok (b, None, r').
Proof.
  intros r b r' H. unfold bReadBinary in H. unfold bReadString, bReadStringBody.
  destruct (bReadI32 r) as [[[n [e|]] r1]| |]; cbn [obind] in *; try discriminate.
  destruct (n <? 0); [discriminate|]. exact H.
Qed.

Theorem brd_val : forall v, wf v -> brgood v.
Proof.
  induction v using tval_ind'; intros Hwf r rest B X; cbn [sb_val] in X.
  Ltac bsc L C := destruct (bdec_inv _ _ _ _ L _ _ ltac:(eassumption) ltac:(eassumption)) as (r1 & R1 & B1 & X1);
    exists r1; split; [apply C; exact R1|auto].
  - bsc (bdec_bool b) (rd_bool true R b).
  - bsc (bdec_byte z) (rd_byte true R z).
  - bsc (bdec_i16 z Hwf) (rd_i16 true R z).
  - bsc (bdec_i32 z Hwf) (rd_i32 true R z).
  - bsc (bdec_i64 z Hwf) (rd_i64 true R z).
  - bsc (bdec_double z Hwf) (rd_double true R z).
  - destruct Hwf as [_ L].
    destruct (bdec_inv _ _ _ _ (bdec_binary s L) r rest B X) as (r1 & R1 & B1 & X1).
    exists r1. split; [|auto]. apply rd_str; [|intros _; exact R1]. apply bin_str, R1.
  - cbn [wf] in Hwf. destruct Hwf as (T & L & A). rewrite all_in in A. rewrite Forall_forall in H.
    rewrite <- app_assoc in X.
    destruct (bdec_inv _ _ _ _ (bdec_list et _ (len_in_s32 _ L)) r _ B X) as (r1 & R1 & B1 & X1).
    destruct (brd_list l) with (r := r1) (rest := rest) as (r2 & R2 & B2 & X2); auto.
    { intros v Hv. apply H, A; assumption. }
    exists r2. split; [|auto]. eapply rd_list; [exact R1| |exact R2|reflexivity].
    intros v Hv. apply A, Hv.
  - cbn [wf] in Hwf. destruct Hwf as (T & L & A). rewrite all_in in A. rewrite Forall_forall in H.
    rewrite <- app_assoc in X.
    destruct (bdec_inv _ _ _ _ (bdec_list et _ (len_in_s32 _ L)) r _ B X) as (r1 & R1 & B1 & X1).
    destruct (brd_list l) with (r := r1) (rest := rest) as (r2 & R2 & B2 & X2); auto.
    { intros v Hv. apply H, A; assumption. }
    exists r2. split; [|auto]. eapply rd_set; [exact R1| |exact R2|reflexivity].
    intros v Hv. apply A, Hv.
  - cbn [wf] in Hwf. destruct Hwf as (T1 & T2 & L & A). rewrite all_in in A. rewrite Forall_forall in H.
    rewrite <- app_assoc in X.
    destruct (bdec_inv _ _ _ _ (bdec_map kt vt _ (len_in_s32 _ L)) r _ B X) as (r1 & R1 & B1 & X1).
    destruct (brd_map l) with (r := r1) (rest := rest) as (r2 & R2 & B2 & X2); auto.
    { intros kv Hv. destruct (A _ Hv) as [[_ Ak] [_ Av]]. split; apply (H _ Hv); assumption. }
    exists r2. split; [|auto]. eapply rd_map; [exact R1| |exact R2|reflexivity].
    intros k v Hv. destruct (A _ Hv) as [[Ak _] [Av _]]. auto.
  - cbn [wf] in Hwf. rewrite all_in in Hwf. rewrite Forall_forall in H.
    destruct (brd_fields fs) with (r := r) (rest := rest) as (r2 & R2 & B2 & X2); auto.
    { intros f Hf. split; [apply Hwf, Hf|apply H, Hwf; assumption]. }
    exists r2. split; [|auto]. eapply rd_struct; [reflexivity|exact R2|reflexivity].
Qed.
End BinR.

(** ** Binary, writing *)

Lemma bw : forall op bs o, benc op bs -> op (MkWt o []) = Ok (None, MkWt (o ++ bs) []).
Proof.
  intros op bs o H. destruct (H (MkWt o []) eq_refl eq_refl) as (s & E & V & _).
  cbn in V. congruence.
Qed.
Lemma same_wire : forall t w, wire_type w -> same_type true t w -> ThriftTypeId t = w.
Proof.
  intros t w Hw [->|(_ & -> & ->)]; [apply thrift_type_id; assumption|reflexivity].
Qed.

Section BinW.
Variable strict : bool.
Let W := binaryW strict.
Definition bwgood (v : tval) : Prop :=
  forall o, wr true W v (MkWt o []) (MkWt (o ++ sb_val v) []).
Lemma bwr_list : forall l, (forall v, In v l -> bwgood v) ->
  forall o, wrs true W l (MkWt o []) (MkWt (o ++ concat (map sb_val l)) []).
Proof.
  induction l as [|v l IH]; intros H o; cbn [map concat].
  - rewrite app_nil_r. constructor.
  - rewrite app_assoc. econstructor; [apply H; left; reflexivity|].
    apply IH. intros; apply H; right; assumption.
Qed.
Lemma bwr_map : forall l, (forall kv, In kv l -> bwgood (fst kv) /\ bwgood (snd kv)) ->
  forall o, wrm true W l (MkWt o [])
    (MkWt (o ++ concat (map (fun kv => sb_val (fst kv) ++ sb_val (snd kv)) l)) []).
Proof.
  induction l as [|[k v] l IH]; intros H o; cbn [map concat fst snd].
  - rewrite app_nil_r. constructor.
  - destruct (H (k, v) (or_introl eq_refl)) as [Gk Gv]. rewrite !app_assoc.
    econstructor; [apply Gk|apply Gv|]. apply IH. intros; apply H; right; assumption.
Qed.
Lemma bwr_fields : forall fs, (forall f, In f fs -> bwgood (snd f)) ->
  forall o, wrf true W fs (MkWt o [])
    (MkWt (o ++ concat (map (fun f => sb_field (vtype (snd f)) (fst f) ++ sb_val (snd f)) fs)) []).
Proof.
  induction fs as [|[id v] fs IH]; intros H o; cbn [map concat fst snd].
  - rewrite app_nil_r. constructor.
  - rewrite !app_assoc. eapply wrf_cons with (s1 := MkWt (o ++ sb_field (vtype v) id) []).
    + intros nm t Ht. rewrite <- (same_wire t (vtype v) (vtype_wire v) Ht). apply (bw (bWriteFieldBegin nm t id)), benc_field.
    + apply (H (id, v)). left. reflexivity.
    + reflexivity.
    + apply IH. intros; apply H; right; assumption.
Qed.
Theorem bwr_val : forall v, wf v -> bwgood v.
Proof.
  induction v using tval_ind'; intros Hwf o; cbn [sb_val].
  - apply wr_bool, (bw (bWriteBool b)), benc_bool.
  - apply wr_byte, (bw (bWriteByte z)), benc_byte.
  - apply wr_i16, (bw (bWriteI16 z)), benc_i16.
  - apply wr_i32, (bw (bWriteI32 z)), benc_i32.
  - apply wr_i64, (bw (bWriteI64 z)), benc_i64.
  - apply wr_double, (bw (bWriteDouble z)), benc_double.
  - apply wr_str; [apply (bw (bWriteString s)), benc_string|intros _; apply (bw (bWriteBinary s)), benc_binary].
  - cbn [wf] in Hwf. destruct Hwf as (T & L & A). rewrite all_in in A. rewrite Forall_forall in H.
    rewrite app_assoc. eapply wr_list with (s1 := MkWt (o ++ sb_list et (Z.of_nat (length l))) []).
    + intros t Ht. rewrite <- (same_wire t et T Ht). apply (bw (bWriteListBegin t _)), benc_list.
    + apply bwr_list. intros v Hv. apply H, A; assumption.
    + reflexivity.
  - cbn [wf] in Hwf. destruct Hwf as (T & L & A). rewrite all_in in A. rewrite Forall_forall in H.
    rewrite app_assoc. eapply wr_set with (s1 := MkWt (o ++ sb_list et (Z.of_nat (length l))) []).
    + intros t Ht. rewrite <- (same_wire t et T Ht). apply (bw (bWriteSetBegin t _)), benc_set.
    + apply bwr_list. intros v Hv. apply H, A; assumption.
    + reflexivity.
  - cbn [wf] in Hwf. destruct Hwf as (T1 & T2 & L & A). rewrite all_in in A. rewrite Forall_forall in H.
    rewrite app_assoc. eapply wr_map with (s1 := MkWt (o ++ sb_map kt vt (Z.of_nat (length l))) []).
    + intros t u Ht Hu. rewrite <- (same_wire t kt T1 Ht), <- (same_wire u vt T2 Hu).
      apply (bw (bWriteMapBegin t u _)), benc_map.
    + apply bwr_map. intros kv Hv. destruct (A _ Hv) as [[_ Ak] [_ Av]]. split; apply (H _ Hv); assumption.
    + reflexivity.
  - cbn [wf] in Hwf. rewrite all_in in Hwf. rewrite Forall_forall in H. rewrite app_assoc.
    eapply wr_struct.
    + intros nm. reflexivity.
    + apply bwr_fields. intros f Hf. apply H, Hwf; assumption.
    + apply (bw bWriteFieldStop), benc_stop.
    + reflexivity.
Qed.
End BinW.

(** ** Compact, reading *)

Lemma vtype_ue : forall v, vtype (untyped_empty v) = vtype v.
Proof. destruct v as [| | | | | | | | |k t [|]|]; reflexivity. Qed.
Lemma need_ue : forall v, need (untyped_empty v) = need v.
Proof.
  induction v using tval_ind'; try reflexivity.
  - cbn [untyped_empty need]. rewrite map_map. do 2 f_equal. apply map_ext_in.
    rewrite Forall_forall in H. assumption.
  - cbn [untyped_empty need]. rewrite map_map. do 2 f_equal. apply map_ext_in.
    rewrite Forall_forall in H. assumption.
  - destruct l as [|kv l']; [reflexivity|]. set (l := kv :: l') in *.
    change (untyped_empty (VMap kt vt l)) with
      (VMap kt vt (map (fun kv => (untyped_empty (fst kv), untyped_empty (snd kv))) l)).
    cbn [need]. rewrite map_map. do 2 f_equal. apply map_ext_in. rewrite Forall_forall in H.
    intros a Ha. destruct (H a Ha) as [E1 E2]. cbn [fst snd]. congruence.
  - cbn [untyped_empty need]. f_equal. induction fs as [|f fs IH]; [reflexivity|].
    inversion H; subst. cbn [map fold_right fst snd]. rewrite IH by assumption. congruence.
Qed.

Lemma vtype_seen : forall v s, vtype (fst (seen v s)) = vtype v.
Proof.
  intros v s. destruct v as [| | | | | | |et l|et l|kt vt [|x l]|fs]; try reflexivity.
  - rewrite seen_list. reflexivity.
  - rewrite seen_set. reflexivity.
  - rewrite seen_map. reflexivity.
  - rewrite seen_struct. reflexivity.
Qed.
Lemma thread_length : forall A B T (g : A -> T -> B * T) l s, length (fst (thread g l s)) = length l.
Proof.
  induction l as [|x l IH]; intros s; [reflexivity|]. cbn [thread]. destruct (g x s) as [y s1].
  specialize (IH s1). destruct (thread g l s1). cbn [fst length] in *. congruence.
Qed.
Lemma thread_in : forall A B T (g : A -> T -> B * T) l s y, In y (fst (thread g l s)) ->
  exists x s', In x l /\ y = fst (g x s').
Proof.
  induction l as [|x l IH]; intros s y Hy; [destruct Hy|]. cbn [thread] in Hy.
  destruct (g x s) as [z s1] eqn:E. specialize (IH s1 y). destruct (thread g l s1) as [zs s2].
  cbn [fst] in *. destruct Hy as [<-|Hy].
  - exists x, s. rewrite E. split; [left|]; reflexivity.
  - destruct (IH Hy) as (x' & s' & Hx & Ey). exists x', s'. split; [right|]; assumption.
Qed.
Lemma need_seen : forall v s, need (fst (seen v s)) = need v.
Proof.
  assert (Mx : forall A B T (g : A -> T -> B * T) (p : B -> nat) (q : A -> nat) l,
    (forall x s, In x l -> p (fst (g x s)) = q x) ->
    forall s, map p (fst (thread g l s)) = map q l).
  { induction l as [|x l IH]; intros H s; [reflexivity|]. cbn [thread].
    pose proof (H x s (or_introl eq_refl)) as Hx. destruct (g x s) as [y s1].
    pose proof (IH (fun x s Hx => H x s (or_intror Hx)) s1) as Hl. destruct (thread g l s1) as [ys s2].
    cbn [fst map] in *. congruence. }
  induction v using tval_ind'; intros st; try reflexivity.
  - rewrite seen_list. rewrite Forall_forall in H. cbn [fst need].
    rewrite (Mx _ _ _ seen need need) by auto. reflexivity.
  - rewrite seen_set. rewrite Forall_forall in H. cbn [fst need].
    rewrite (Mx _ _ _ seen need need) by auto. reflexivity.
  - destruct l as [|y l]; [reflexivity|]. rewrite seen_map. cbv zeta. set (l0 := y :: l) in *.
    clearbody l0. clear y l. rewrite Forall_forall in H. cbn [fst need].
    rewrite (Mx _ _ _ pair_seen _ (fun kv => Nat.max (need (fst kv)) (need (snd kv)))); [reflexivity|].
    intros x s Hx. destruct (H x Hx) as [Hk Hv]. unfold pair_seen. pose proof (Hk s) as Ek.
    destruct (seen (fst x) s) as [k s1]. pose proof (Hv s1) as Ev. destruct (seen (snd x) s1) as [w s2].
    cbn [fst snd] in *. congruence.
  - rewrite seen_struct. cbv zeta. rewrite Forall_forall in H. cbn [fst need]. f_equal.
    generalize (0, (snd st, 0)). induction fs as [|f fs IH]; intros s; [reflexivity|].
    cbn [thread]. unfold field_seen at 1.
    pose proof (H f (or_introl eq_refl) (fst (snd s), id_seen (fst s) (snd (snd s)) (fst f))) as Ef.
    destruct (seen (snd f) _) as [w s2].
    pose proof (IH (fun x Hx => H x (or_intror Hx)) (fst f, s2)) as El.
    destruct (thread field_seen fs (fst f, s2)) as [ws s3]. cbn [fst snd fold_right] in *. congruence.
Qed.

(** Reading the encoding of [v] gives what [seen] says, for any calls that follow the layout of
    the value. *)
Definition crgood (v : tval) : Prop :=
  forall c s r rest, at_st c s -> benign r -> content r = sc_val v ++ rest ->
  exists r' c', rd true compactR (fst (seen v s)) (r, c) (r', c') /\ benign r' /\
                st_ok c (snd (seen v s)) c' /\ content r' = rest.

Lemma cgr_list : forall l, (forall v, In v l -> crgood v) ->
  forall c s r rest, at_st c s -> benign r -> content r = concat (map sc_val l) ++ rest ->
  exists r' c', rds true compactR (fst (thread seen l s)) (r, c) (r', c') /\ benign r' /\
                st_ok c (snd (thread seen l s)) c' /\ content r' = rest.
Proof.
  induction l as [|v l IH]; intros H c s r rest N B X; cbn [map concat thread] in *.
  - exists r, c. split; [constructor|]. split; [exact B|]. split; [apply at_st_ok, N|exact X].
  - rewrite <- app_assoc in X.
    destruct (H v (or_introl eq_refl) c s r _ N B X) as (r1 & c1 & R1 & B1 & A1 & X1).
    destruct (seen v s) as [w s1]. cbn [fst snd] in *.
    destruct (IH (fun u Hu => H u (or_intror Hu)) c1 s1 r1 _ (st_ok_at _ _ _ A1) B1 X1)
      as (r2 & c2 & R2 & B2 & A2 & X2).
    destruct (thread seen l s1) as [ws s2]. cbn [fst snd] in *.
    exists r2, c2. split; [econstructor; eassumption|]. split; [assumption|].
    split; [eapply st_ok_trans; eauto|assumption].
Qed.
Lemma cgr_map : forall l, (forall kv, In kv l -> crgood (fst kv) /\ crgood (snd kv)) ->
  forall c s r rest, at_st c s -> benign r ->
  content r = concat (map (fun kv => sc_val (fst kv) ++ sc_val (snd kv)) l) ++ rest ->
  exists r' c', rdm true compactR (fst (thread pair_seen l s)) (r, c) (r', c') /\ benign r' /\
                st_ok c (snd (thread pair_seen l s)) c' /\ content r' = rest.
Proof.
  induction l as [|[k v] l IH]; intros H c s r rest N B X; cbn [map concat fst snd thread] in *.
  - exists r, c. split; [constructor|]. split; [exact B|]. split; [apply at_st_ok, N|exact X].
  - rewrite <- !app_assoc in X. destruct (H (k, v) (or_introl eq_refl)) as [Gk Gv].
    cbn [fst snd] in *. unfold pair_seen at 1 3. cbn [fst snd].
    destruct (Gk c s r _ N B X) as (r1 & c1 & R1 & B1 & A1 & X1).
    destruct (seen k s) as [k' s1]. cbn [fst snd] in *.
    destruct (Gv c1 s1 r1 _ (st_ok_at _ _ _ A1) B1 X1) as (r2 & c2 & R2 & B2 & A2 & X2).
    destruct (seen v s1) as [v' s2]. cbn [fst snd] in *.
    destruct (IH (fun u Hu => H u (or_intror Hu)) c2 s2 r2 _ (st_ok_at _ _ _ A2) B2 X2)
      as (r3 & c3 & R3 & B3 & A3 & X3).
    destruct (thread pair_seen l s2) as [ws s3]. cbn [fst snd] in *.
    exists r3, c3. split; [econstructor; eassumption|]. split; [assumption|].
    split; [|assumption]. eapply st_ok_trans; [eapply st_ok_trans; eauto|exact A3].
Qed.

Lemma cgr_fields : forall fs,
  (forall x, In x fs -> in_s 16 (fst x) /\ is_false (snd x) = false /\ crgood (snd x)) ->
  forall last c s r rest, at_st c s -> benign r -> content r = sc_fields last fs ++ rest ->
  exists r' c', rdf true compactR (fst (thread field_seen fs (last, s))) (r, c) (r', c') /\
    benign r' /\ content r' = rest /\ st_ok c (snd (snd (thread field_seen fs (last, s)))) c'.
Proof.
  induction fs as [|[id v] fs IH]; intros H last c s r rest N B X; cbn [sc_fields] in X.
  - destruct (crd_stop c r rest B X) as (r1 & R1 & B1 & X1).
    exists r1, c. split; [econstructor; exact R1|]. split; [exact B1|]. split; [exact X1|].
    apply at_st_ok, N.
  - destruct (H (id, v) (or_introl eq_refl)) as (I & NF & G). cbn [fst snd] in *.
    rewrite <- app_assoc in X. destruct N as (N & Tp & L).
    set (id' := id_seen last (snd s) id).
    set (c0 := set_last c (lastField c) id').
    assert (V : exists r1 c1 r2 c2, rFieldBegin compactR (r, c) = Ok (([], vtype v, id'), None, (r1, c1)) /\
      rd true compactR (fst (seen v (fst s, id'))) (r1, c1) (r2, c2) /\ benign r2 /\
      content r2 = sc_fields id fs ++ rest /\ st_ok c0 (snd (seen v (fst s, id'))) c2).
    { destruct (vtype v =? BOOL) eqn:EB.
      - destruct v; try discriminate EB. destruct b; [|discriminate NF].
        unfold sc_fieldval in X. cbn [fst snd] in X. change (sc_bool true) with (sc_type BOOL) in X.
        assert (Wt : wire_type BOOL) by (unfold wire_type; cbn; tauto).
        destruct (crd_field_any c BOOL id last I Wt r _ B X) as (r1 & R1 & B1 & X1).
        rewrite L in R1. fold id' in R1.
        exists r1, (MkC (lastField c) id' (booleanField c) true true), r1,
               (MkC (lastField c) id' (booleanField c) true false).
        split; [exact R1|]. split; [apply rd_bool; reflexivity|]. split; [assumption|].
        split; [assumption|]. split; [reflexivity|]. cbn. split; [lia|]. split; [exact Tp|reflexivity].
      - assert (FV : sc_fieldval last (id, v) = sc_field last (sc_type (vtype v)) id ++ sc_val v).
        { unfold sc_fieldval. cbn [fst snd]. destruct v; try reflexivity. discriminate EB. }
        rewrite FV, <- app_assoc in X.
        destruct (crd_field_any c (vtype v) id last I (vtype_wire v) r _ B X) as (r1 & R1 & B1 & X1).
        rewrite EB, L in R1. fold id' c0 in R1.
        destruct (G c0 (fst s, id') r1 _ ltac:(repeat split; assumption) B1 X1)
          as (r2 & c2 & R2 & B2 & A2 & X2).
        exists r1, c0, r2, c2. auto. }
    destruct V as (r1 & c1 & r2 & c2 & R1 & R2 & B2 & X2 & A2).
    cbn [thread]. change (field_seen (id, v) (last, s)) with
      (let '(w, s2) := seen v (fst s, id') in ((id', w), (id, s2))).
    pose proof (vtype_seen v (fst s, id')) as Ty.
    destruct (seen v (fst s, id')) as [w s2]. cbn [fst snd] in *.
    destruct (IH (fun x Hx => H x (or_intror Hx)) id c2 s2 r2 rest (st_ok_at _ _ _ A2) B2 X2) as
      (r3 & c3 & R3 & B3 & X3 & A3).
    destruct (thread field_seen fs (id, s2)) as [ws s3]. cbn [fst snd] in *.
    exists r3, c3. split.
    { econstructor; [rewrite Ty; exact R1|exact R2|reflexivity|exact R3]. }
    split; [assumption|]. split; [assumption|]. eapply st_ok_trans; [exact A2|exact A3].
Qed.

Theorem crd_seen : forall v, wf v -> no_false_field v = true -> crgood v.
Proof.
  induction v using tval_ind'; intros Hwf NF c st r rest N B X.
  Ltac csc L C := destruct (L _ _ ltac:(eassumption) ltac:(eassumption)) as (r1 & R1 & B1 & X1);
    eexists r1, _; split; [apply C; exact R1|split; [assumption|split; [apply at_st_ok; assumption|assumption]]].
  - csc (crd_bool c b (proj1 N)) (rd_bool true compactR b).
  - csc (crd_byte c z) (rd_byte true compactR z).
  - csc (crd_i16 c z Hwf) (rd_i16 true compactR z).
  - csc (crd_i32 c z Hwf) (rd_i32 true compactR z).
  - csc (crd_i64 c z Hwf) (rd_i64 true compactR z).
  - csc (crd_double c z Hwf) (rd_double true compactR z).
  - destruct Hwf as [_ L]. destruct (crd_binary c s L r rest B X) as (r1 & R1 & B1 & X1).
    exists r1, c. split; [|split; [assumption|split; [apply at_st_ok; assumption|assumption]]].
    apply rd_str; [|intros _; exact R1]. cbn [rString compactR]. unfold cReadString. rewrite R1. reflexivity.
  - cbn [wf no_false_field] in *. destruct Hwf as (T & L & A). rewrite all_in in A.
    rewrite Forall_forall in H. rewrite forallb_forall in NF. cbn [sc_val] in X. rewrite <- app_assoc in X.
    destruct (crd_list c et (Z.of_nat (length l)) T (len_u _ L) r _ B X) as (r1 & R1 & B1 & X1).
    destruct (cgr_list l) with (c := c) (s := st) (r := r1) (rest := rest)
      as (r2 & c2 & R2 & B2 & A2 & X2); auto.
    { intros v Hv. apply H; auto. apply A, Hv. }
    rewrite seen_list. cbn [fst snd]. exists r2, c2. split; [|auto].
    eapply rd_list; [rewrite thread_length; exact R1| |exact R2|reflexivity].
    intros v Hv. apply thread_in in Hv. destruct Hv as (u & s' & Hu & ->). rewrite vtype_seen. apply A, Hu.
  - cbn [wf no_false_field] in *. destruct Hwf as (T & L & A). rewrite all_in in A.
    rewrite Forall_forall in H. rewrite forallb_forall in NF. cbn [sc_val] in X. rewrite <- app_assoc in X.
    destruct (crd_list c et (Z.of_nat (length l)) T (len_u _ L) r _ B X) as (r1 & R1 & B1 & X1).
    destruct (cgr_list l) with (c := c) (s := st) (r := r1) (rest := rest)
      as (r2 & c2 & R2 & B2 & A2 & X2); auto.
    { intros v Hv. apply H; auto. apply A, Hv. }
    rewrite seen_set. cbn [fst snd]. exists r2, c2. split; [|auto].
    eapply rd_set; [rewrite thread_length; exact R1| |exact R2|reflexivity].
    intros v Hv. apply thread_in in Hv. destruct Hv as (u & s' & Hu & ->). rewrite vtype_seen. apply A, Hu.
  - cbn [wf no_false_field] in *. destruct Hwf as (T1 & T2 & L & A). rewrite all_in in A.
    rewrite Forall_forall in H. rewrite forallb_forall in NF. cbn [sc_val] in X. rewrite <- app_assoc in X.
    destruct (crd_map c kt vt (Z.of_nat (length l)) T1 T2 (len_u _ L) r _ B X) as (r1 & R1 & B1 & X1).
    destruct l as [|kv l'].
    { exists r1, c. split.
      - cbn [seen fst]. eapply rd_map; [exact R1| |constructor|reflexivity]. intros k v [].
      - split; [assumption|]. split; [apply at_st_ok, N|assumption]. }
    rewrite seen_map. cbv zeta. set (l := kv :: l') in *.
    replace (Z.of_nat (length l) =? 0) with false in R1 by (subst l; cbn [length]; lia).
    destruct (cgr_map l) with (c := c) (s := st) (r := r1) (rest := rest)
      as (r2 & c2 & R2 & B2 & A2 & X2); auto.
    { intros x Hx. destruct (A x Hx) as [[Hkt Hkw] [Hvt Hvw]]. destruct (H x Hx) as [Hk Hv].
      specialize (NF x Hx). apply andb_true_iff in NF. destruct NF as [NFk NFv]. auto. }
    cbn [fst snd]. exists r2, c2. split; [|auto].
    eapply rd_map; [rewrite thread_length; exact R1| |exact R2|reflexivity].
    intros k v Hv. apply thread_in in Hv. destruct Hv as (u & s' & Hu & Eu). unfold pair_seen in Eu.
    pose proof (vtype_seen (fst u) s') as Tk. destruct (seen (fst u) s') as [k1 s1].
    pose proof (vtype_seen (snd u) s1) as Tv. destruct (seen (snd u) s1) as [v1 s2].
    cbn [fst snd] in *. injection Eu as -> ->. destruct (A _ Hu) as [[? _] [? _]].
    rewrite Tk, Tv. auto.
  - cbn [wf no_false_field] in *. rewrite all_in in Hwf.
    rewrite Forall_forall in H. rewrite forallb_forall in NF. rewrite sc_val_struct in X.
    destruct (cgr_fields fs) with (last := 0) (s := (snd st, 0)) (r := r) (rest := rest)
      (c := set_last c (lastFieldId c :: lastField c) 0)
      as (r2 & c2 & R2 & B2 & X2 & (N2 & L2 & T2 & _)); auto.
    { intros x Hx. destruct (Hwf x Hx). specialize (NF x Hx). apply andb_true_iff in NF.
      destruct NF as [NF1 NF2]. apply negb_true_iff in NF1. split; [assumption|].
      split; [assumption|]. apply H; auto. }
    { destruct N as (N & Tp & L). split; [exact N|]. split; [exact L|reflexivity]. }
    rewrite seen_struct. cbv zeta. cbn [fst snd].
    cbn [lastField set_last length] in L2.
    exists r2, (set_last c2 (lastField c2) (hd 0 (lastField c2))).
    split; [|split; [assumption|split; [|assumption]]].
    + eapply rd_struct; [reflexivity|exact R2|].
      cbn [rStructEnd compactR]. unfold cReadStructEnd.
      destruct (lastField c2) as [|i stk] eqn:E; [cbn in L2; lia|]. reflexivity.
    + split; [exact N2|]. cbn [lastField lastFieldId set_last]. split; [lia|]. split; exact T2.
Qed.

(** The same for values whose ids are kept, and for any state of the reader. *)
Theorem crd_back : forall v c r rest, wf v -> no_false_field v = true ->
  boolValueIsNotNull c = false -> benign r -> content r = sc_val v ++ rest ->
  exists r' c', rd true compactR (read_back v) (r, c) (r', c') /\ benign r' /\
                boolValueIsNotNull c' = false /\ content r' = rest.
Proof.
  intros v c r rest W NF N B X.
  destruct (crd_seen v W NF c (hd 0 (lastField c), lastFieldId c) r rest) as (r' & c' & R & B' & A & X');
    auto; [repeat split; exact N|].
  exists r', c'. unfold read_back. rewrite (proj1 (seen_free v (0, 0) (hd 0 (lastField c), lastFieldId c))).
  split; [exact R|]. split; [exact B'|]. split; [apply A|exact X'].
Qed.
Theorem crd_val : forall v c r rest, wf v -> no_false_field v = true -> ids_kept v = true ->
  boolValueIsNotNull c = false -> benign r -> content r = sc_val v ++ rest ->
  exists r' c', rd true compactR (untyped_empty v) (r, c) (r', c') /\ benign r' /\
                boolValueIsNotNull c' = false /\ content r' = rest.
Proof.
  intros v c r rest W NF K N B X. rewrite <- (proj2 (read_back_kept v W) K). apply crd_back; assumption.
Qed.

(** ** Compact, writing *)

Lemma cwx : forall op bs o c c', cenc c op bs c' -> op (MkWt o [], c) = Ok (None, (MkWt (o ++ bs) [], c')).
Proof.
  intros op bs o c c' H. destruct (H (MkWt o [], c) eq_refl eq_refl) as ([w k] & E & V & K).
  cbn in V, K. congruence.
Qed.
Lemma same_strict : forall t w, same_type false t w -> t = w.
Proof. intros t w [->|(D & _)]; [reflexivity|discriminate]. Qed.

Definition cwg (v : tval) : Prop :=
  forall o stk last bv nn, let c := MkC stk last None bv nn in
  wr false compactW v (MkWt o [], c) (MkWt (o ++ sc_val v) [], c).

Lemma cwr_list : forall l, (forall v, In v l -> cwg v) -> forall o stk last bv nn,
  let c := MkC stk last None bv nn in
  wrs false compactW l (MkWt o [], c) (MkWt (o ++ concat (map sc_val l)) [], c).
Proof.
  induction l as [|v l IH]; intros H o stk last bv nn c; cbn [map concat].
  - rewrite app_nil_r. constructor.
  - rewrite app_assoc. econstructor; [apply H; left; reflexivity|].
    apply IH. intros; apply H; right; assumption.
Qed.
Lemma cwr_map : forall l, (forall kv, In kv l -> cwg (fst kv) /\ cwg (snd kv)) -> forall o stk last bv nn,
  let c := MkC stk last None bv nn in
  wrm false compactW l (MkWt o [], c)
    (MkWt (o ++ concat (map (fun kv => sc_val (fst kv) ++ sc_val (snd kv)) l)) [], c).
Proof.
  induction l as [|[k v] l IH]; intros H o stk last bv nn c; cbn [map concat fst snd].
  - rewrite app_nil_r. constructor.
  - destruct (H (k, v) (or_introl eq_refl)) as [Gk Gv]. rewrite !app_assoc.
    econstructor; [apply Gk|apply Gv|]. apply IH. intros; apply H; right; assumption.
Qed.
(** A boolean field: the header call writes nothing, the value call writes both. *)
Lemma bool_field_split : forall o stk last bv nn id b, in_s 16 id ->
  let c0 := MkC stk last (Some (BOOL, id)) bv nn in
  (forall name, cWriteFieldBegin name BOOL id (MkWt o [], MkC stk last None bv nn) = Ok (None, (MkWt o [], c0))) /\
  cWriteBool b (MkWt o [], c0) =
    Ok (None, (MkWt (o ++ sc_field last (sc_bool b) id) [], MkC stk id None bv nn)).
Proof.
  intros o stk last bv nn id b I c0. split; [reflexivity|].
  pose proof (cwx _ _ o _ _ (cenc_bool_field stk last bv nn [] id b I)) as E.
  unfold wseq in E. exact E.
Qed.
Lemma cwr_fields : forall fs, (forall f, In f fs -> in_s 16 (fst f) /\ cwg (snd f)) ->
  forall o stk last bv nn,
  wrf false compactW fs (MkWt o [], MkC stk last None bv nn)
    (MkWt (o ++ sc_pre last fs) [], MkC stk (last_id last fs) None bv nn).
Proof.
  induction fs as [|[id v] fs IH]; intros H o stk last bv nn; cbn [sc_pre last_id fst].
  - rewrite app_nil_r. constructor.
  - destruct (H (id, v) (or_introl eq_refl)) as [I G]. cbn [fst snd] in *. rewrite app_assoc.
    assert (Hr : forall x, In x fs -> in_s 16 (fst x) /\ cwg (snd x)) by (intros; apply H; right; assumption).
    destruct (vtype v =? BOOL) eqn:EB.
    + destruct v; try discriminate EB.
      destruct (bool_field_split o stk last bv nn id b I) as [E1 E2].
      econstructor.
      * intros nm t Ht. apply same_strict in Ht. subst t. apply E1.
      * apply wr_bool. exact E2.
      * reflexivity.
      * apply IH, Hr.
    + assert (FV : sc_fieldval last (id, v) = sc_field last (sc_type (vtype v)) id ++ sc_val v).
      { unfold sc_fieldval. cbn [fst snd]. destruct v; try reflexivity. discriminate EB. }
      rewrite FV, app_assoc. econstructor.
      * intros nm t Ht. apply same_strict in Ht. subst t.
        apply (cwx (cWriteFieldBegin nm (vtype v) id)), cenc_field; [assumption|apply vtype_wire|lia].
      * apply G.
      * reflexivity.
      * apply IH, Hr.
Qed.

Theorem cwr_val : forall v, wf v -> cwg v.
Proof.
  induction v using tval_ind'; intros Hwf o stk last bv nn c; (rewrite sc_val_struct || cbn [sc_val]).
  - apply wr_bool, (cwx (cWriteBool b)), cenc_bool. reflexivity.
  - apply wr_byte, (cwx (cWriteByte z)), cenc_byte.
  - apply wr_i16, (cwx (cWriteI16 z)), cenc_i16, Hwf.
  - apply wr_i32, (cwx (cWriteI32 z)), cenc_i32, Hwf.
  - apply wr_i64, (cwx (cWriteI64 z)), cenc_i64, Hwf.
  - apply wr_double, (cwx (cWriteDouble z)), cenc_double.
  - apply wr_str; [apply (cwx (cWriteString s)), cenc_string, Hwf
                  |intros _; apply (cwx (cWriteBinary s)), cenc_binary, Hwf].
  - cbn [wf] in Hwf. destruct Hwf as (T & L & A). rewrite all_in in A. rewrite Forall_forall in H.
    rewrite app_assoc. eapply wr_list.
    + intros t Ht. apply same_strict in Ht. subst t.
      apply (cwx (cWriteListBegin et _)), cenc_list; [assumption|apply len_u; assumption].
    + apply cwr_list. intros v Hv. apply H, A; assumption.
    + reflexivity.
  - cbn [wf] in Hwf. destruct Hwf as (T & L & A). rewrite all_in in A. rewrite Forall_forall in H.
    rewrite app_assoc. eapply wr_set.
    + intros t Ht. apply same_strict in Ht. subst t.
      apply (cwx (cWriteSetBegin et _)), cenc_set; [assumption|apply len_u; assumption].
    + apply cwr_list. intros v Hv. apply H, A; assumption.
    + reflexivity.
  - cbn [wf] in Hwf. destruct Hwf as (T1 & T2 & L & A). rewrite all_in in A. rewrite Forall_forall in H.
    rewrite app_assoc. eapply wr_map.
    + intros t u Ht Hu. apply same_strict in Ht, Hu. subst t u.
      apply (cwx (cWriteMapBegin kt vt _)), cenc_map; [assumption|assumption|apply len_u; assumption].
    + apply cwr_map. intros kv Hv. destruct (A _ Hv) as [[_ Ak] [_ Av]]. split; apply (H _ Hv); assumption.
    + reflexivity.
  - cbn [wf] in Hwf. rewrite all_in in Hwf. rewrite Forall_forall in H.
    rewrite sc_fields_pre, app_assoc. eapply wr_struct.
    + intros nm. reflexivity.
    + apply cwr_fields. intros f Hf. split; [apply Hwf, Hf|apply H, Hwf; assumption].
    + apply (cwx cWriteFieldStop), cenc_stop.
    + reflexivity.
Qed.
