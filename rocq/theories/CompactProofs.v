(** TCompactProtocol writes the published encoding and reads back what it can. *)
From Coq Require Import ZArith List Bool Lia.
From Coq Require Import ZifyBool ZifyNat.
From Verif Require Import Base Errors Transport Proto Arith TransportProofs Values Codec
  Compact CompactSpec CompactArith BinaryProofs.
Import ListNotations.
Open Scope Z_scope.
Ltac Zify.zify_post_hook ::= Z.div_mod_to_equations.

(** ** Writers *)
Definition cenc (c : cstate) (op : wop cw) (bs : bytes) (c' : cstate) : Prop :=
  enc (@fst wt cstate) snd c op bs c'.

Lemma cenc_raw : forall c bs, cenc c (c_write_raw bs) bs c.
Proof.
  intros c bs [w c0] W E. cbn in *. subst c0.
  destruct w as [o sch]. cbn in W. subst. exists (MkWt (o ++ bs) [], c). auto.
Qed.
Lemma cenc_wrap : forall c op bs c', cenc c op bs c' -> cenc c (wrap_exc op) bs c'.
Proof.
  intros c op bs c' H s W E. destruct (H s W E) as (s' & R & V).
  exists s'. unfold wrap_exc. rewrite R. auto.
Qed.
Lemma cenc_ext : forall c (op op' : wop cw) bs c',
  (forall s, op s = op' s) -> cenc c op' bs c' -> cenc c op bs c'.
Proof. intros c op op' bs c' E H s W X. rewrite E. apply H; assumption. Qed.

Lemma cenc_varint32 : forall c u, in_u 32 u -> cenc c (writeVarint32 (wraps 32 u)) (sc_var u) c.
Proof.
  intros c u H. eapply cenc_ext; [|apply cenc_raw]. intro s. unfold writeVarint32.
  rewrite varint32_sc by assumption. reflexivity.
Qed.
Lemma cenc_varint64 : forall c u, in_u 64 u -> cenc c (writeVarint64 (wraps 64 u)) (sc_var u) c.
Proof.
  intros c u H. eapply cenc_ext; [|apply cenc_raw]. intro s. unfold writeVarint64.
  rewrite varint64_sc by assumption. reflexivity.
Qed.
Lemma in_s16_32 : forall v, in_s 16 v -> in_s 32 v.
Proof. unfold in_s; intros; lia. Qed.
Lemma cenc_i32 : forall c v, in_s 32 v -> cenc c (cWriteI32 v) (sc_int v) c.
Proof.
  intros c v H. unfold cWriteI32. rewrite zz32 by assumption.
  apply cenc_wrap, cenc_varint32, zz_range; [lia|assumption].
Qed.
Lemma cenc_i16 : forall c v, in_s 16 v -> cenc c (cWriteI16 v) (sc_int v) c.
Proof. intros. apply cenc_i32, in_s16_32. assumption. Qed.
Lemma cenc_i64 : forall c v, in_s 64 v -> cenc c (cWriteI64 v) (sc_int v) c.
Proof.
  intros c v H. unfold cWriteI64. rewrite zz64 by assumption.
  apply cenc_wrap, cenc_varint64, zz_range; [lia|assumption].
Qed.
Lemma cenc_byte : forall c v, cenc c (cWriteByte v) [v] c.
Proof. intros. apply cenc_wrap, cenc_raw. Qed.
Lemma le_bytes64_le : forall v, le_bytes64 v = le 8 v.
Proof.
  intros v. unfold le_bytes64, wrapu. cbn [le]. rewrite !Z.shiftr_div_pow2 by lia.
  rewrite !Z.div_div by lia. reflexivity.
Qed.
Lemma cenc_double : forall c v, cenc c (cWriteDouble v) (sc_double v) c.
Proof. intros. unfold cWriteDouble, sc_double. rewrite <- le_bytes64_le. apply cenc_wrap, cenc_raw. Qed.
Lemma cenc_binary : forall c s, Z.of_nat (length s) < 2 ^ 31 -> cenc c (cWriteBinary s) (sc_string s) c.
Proof.
  intros c s H. unfold cWriteBinary, sc_string. eapply enc_seq.
  - apply cenc_wrap, cenc_varint32. unfold in_u. lia.
  - destruct s; cbn [length]; [apply enc_nop|]. apply cenc_wrap, cenc_raw.
Qed.
Lemma cenc_string : forall c s, Z.of_nat (length s) < 2 ^ 31 -> cenc c (cWriteString s) (sc_string s) c.
Proof. exact cenc_binary. Qed.

Lemma sc_var_wrap : forall v, in_s 32 v -> wraps 32 (v mod 2 ^ 32) = v.
Proof. intros. rewrite wraps_mod by lia. apply wraps_id; [lia|assumption]. Qed.
Lemma cenc_message : forall c name t seqid, 0 <= t < 8 -> in_s 32 seqid ->
  Z.of_nat (length name) < 2 ^ 31 ->
  cenc c (cWriteMessageBegin name t seqid) (sc_message name t seqid) c.
Proof.
  intros c name t seqid T S N. unfold cWriteMessageBegin, sc_message.
  rewrite <- (sc_var_wrap seqid S) at 1.
  change ([130; t * 32 + 1] ++ ?x) with ([130] ++ [t * 32 + 1] ++ x).
  eapply enc_seq; [apply cenc_wrap, cenc_raw|].
  eapply enc_seq.
  - apply cenc_wrap.
    replace (t * 32 + 1) with
      (Z.lor (Z.land COMPACT_VERSION COMPACT_VERSION_MASK)
        (Z.land (wrapu 8 (Z.shiftl (wrapu 8 t) COMPACT_TYPE_SHIFT_AMOUNT)) COMPACT_TYPE_MASK));
      [apply cenc_raw|].
    assert (K : t = 0 \/ t = 1 \/ t = 2 \/ t = 3 \/ t = 4 \/ t = 5 \/ t = 6 \/ t = 7) by lia.
    repeat (destruct K as [->|K]; [reflexivity|]); subst; reflexivity.
  - eapply enc_seq; [apply cenc_wrap, cenc_varint32|apply cenc_string; assumption].
    unfold in_u. apply Z.mod_pos_bound. lia.
Qed.

Lemma ctype_ok : forall t, wire_type t -> getCompactType t = Ok (sc_type t).
Proof.
  intros t H. unfold wire_type in H. cbn in H.
  repeat (destruct H as [<-|H]; [reflexivity|]). destruct H.
Qed.
Lemma sc_type_range : forall t, wire_type t -> 1 <= sc_type t <= 12 /\ sc_type t <> 2.
Proof.
  intros t H. unfold wire_type in H. cbn in H.
  repeat (destruct H as [<-|H]; [cbn; lia|]). destruct H.
Qed.

Lemma short_spec : forall last id,
  short last id = (last <? id) && (id - last <=? 15).
Proof. intros. unfold short. f_equal. lia. Qed.
Lemma wrapu8_shift : forall d, 0 <= d <= 15 -> wrapu 8 (Z.shiftl d 4) = d * 16.
Proof. intros. unfold wrapu. rewrite Z.shiftl_mul_pow2 by lia. change (2 ^ 8) with 256. lia. Qed.
Lemma pack : forall d t, 0 <= d <= 15 -> 0 <= t <= 15 -> Z.lor (d * 16) t = d * 16 + t.
Proof. intros. change 16 with (2 ^ 4). apply lor_add'; lia. Qed.

(** The header part; [ov] is the override, 255 for none. *)
Lemma cenc_field_internal : forall stk last bf bv nn t id ov nib,
  in_s 16 id -> 0 <= nib <= 15 ->
  (if ov =? 255 then getCompactType t else Ok ov) = Ok nib ->
  cenc (MkC stk last bf bv nn) (writeFieldBeginInternal t id ov) (sc_field last nib id)
       (MkC stk id bf bv nn).
Proof.
  intros stk last bf bv nn t id ov nib I N G. unfold writeFieldBeginInternal, sc_field.
  intros [w c] W E. cbn in W, E. subst c. rewrite G. cbn [obind lastFieldId].
  rewrite <- short_spec.
  assert (K : forall op bs, cenc (MkC stk last bf bv nn) op bs (MkC stk last bf bv nn) ->
     cenc (MkC stk last bf bv nn)
       (op >>> (fun '(w', c') => Ok (None, (w', set_last c' (lastField c') id)))) bs
       (MkC stk id bf bv nn)).
  { intros op bs H. rewrite <- (app_nil_r bs). eapply enc_seq; [exact H|].
    intros [w0 c0] W0 E0. cbn in *. subst c0. eexists (w0, _). split; [reflexivity|].
    cbn. rewrite app_nil_r. destruct w0; cbn in *; subst; auto. }
  destruct (short last id) eqn:S.
  - apply (K _ [(id - last) * 16 + nib]); [|assumption|reflexivity].
    unfold short in S. rewrite wrapu8_shift, pack by lia. apply cenc_raw.
  - apply (K _ (nib :: sc_int id)); [|assumption|reflexivity].
    change (nib :: sc_int id) with ([nib] ++ sc_int id).
    eapply enc_seq; [apply cenc_raw|apply cenc_i16; assumption].
Qed.
Lemma cenc_field : forall stk last bf bv nn name t id, in_s 16 id -> wire_type t -> t <> BOOL ->
  cenc (MkC stk last bf bv nn) (cWriteFieldBegin name t id) (sc_field last (sc_type t) id)
       (MkC stk id bf bv nn).
Proof.
  intros stk last bf bv nn name t id I T B. eapply cenc_ext.
  2:{ apply cenc_wrap, (cenc_field_internal stk last bf bv nn t id 255); [assumption| |].
      - pose proof (sc_type_range t T). lia.
      - cbn. apply ctype_ok, T. }
  intros [w c]. unfold cWriteFieldBegin. replace (t =? BOOL) with false by lia. reflexivity.
Qed.
(** A boolean field: header call and value call together. *)
Lemma cenc_bool_field : forall stk last bv nn name id b, in_s 16 id ->
  cenc (MkC stk last None bv nn) (cWriteFieldBegin name BOOL id >>> cWriteBool b)
       (sc_field last (sc_bool b) id) (MkC stk id None bv nn).
Proof.
  intros stk last bv nn name id b I [w c] W E. cbn in W, E. subst c.
  unfold wseq, cWriteFieldBegin. change (BOOL =? BOOL) with true. cbn [obind].
  unfold cWriteBool. cbn [set_boolField booleanField lastField lastFieldId boolValue boolValueIsNotNull].
  destruct (cenc_field_internal stk last (Some (BOOL, id)) bv nn BOOL id (sc_bool b) (sc_bool b))
    with (s := (w, MkC stk last (Some (BOOL, id)) bv nn)) as ([w' c'] & R & V & E).
  - assumption.
  - destruct b; cbn; lia.
  - destruct b; reflexivity.
  - assumption.
  - reflexivity.
  - exists (w', MkC stk id None bv nn).
    unfold set_boolField. cbn [lastField lastFieldId boolValue boolValueIsNotNull booleanField].
    replace (if b then COMPACT_BOOLEAN_TRUE else COMPACT_BOOLEAN_FALSE) with (sc_bool b)
      by (destruct b; reflexivity).
    rewrite R. cbn in *. subst c'. auto.
Qed.
Lemma cenc_bool : forall c b, booleanField c = None -> cenc c (cWriteBool b) [sc_bool b] c.
Proof.
  intros c b H [w c0] W E. cbn in W, E. subst c0. unfold cWriteBool. rewrite H.
  replace (if b then COMPACT_BOOLEAN_TRUE else COMPACT_BOOLEAN_FALSE) with (sc_bool b)
    by (destruct b; reflexivity).
  apply (cenc_wrap c _ _ c (cenc_raw c [sc_bool b]) (w, c)); auto.
Qed.
Lemma cenc_stop : forall c, cenc c cWriteFieldStop sc_stop c.
Proof. intros. apply cenc_wrap, cenc_raw. Qed.

Lemma cenc_collection : forall c t n, wire_type t -> 0 <= n < 2 ^ 31 ->
  cenc c (writeCollectionBegin t n) (sc_list t n) c.
Proof.
  intros c t n T N. unfold writeCollectionBegin, sc_list.
  pose proof (sc_type_range t T) as [Rg _].
  eapply cenc_ext; [intro s; rewrite ctype_ok by assumption; reflexivity|]. cbn [obind].
  destruct (n <=? 14) eqn:E.
  - replace (wrapu 8 (Z.lor (wraps 32 (Z.shiftl n 4)) (sc_type t))) with (n * 16 + sc_type t).
    + apply cenc_raw.
    + rewrite Z.shiftl_mul_pow2 by lia. change (2 ^ 4) with 16.
      rewrite (wraps_id 32 (n * 16)) by (unfold in_s; change (2 ^ (32 - 1)) with 2147483648; lia).
      rewrite pack by lia. unfold wrapu. change (2 ^ 8) with 256. lia.
  - change ((240 + sc_type t) :: sc_var n) with ([240 + sc_type t] ++ sc_var n).
    eapply enc_seq.
    + replace (240 + sc_type t) with (Z.lor 240 (sc_type t)); [apply cenc_raw|].
      apply (pack 15); lia.
    + apply cenc_varint32. unfold in_u. lia.
Qed.
Lemma cenc_list : forall c t n, wire_type t -> 0 <= n < 2 ^ 31 ->
  cenc c (cWriteListBegin t n) (sc_list t n) c.
Proof. intros. apply cenc_wrap, cenc_collection; assumption. Qed.
Lemma cenc_set : forall c t n, wire_type t -> 0 <= n < 2 ^ 31 ->
  cenc c (cWriteSetBegin t n) (sc_list t n) c.
Proof. intros. apply cenc_wrap, cenc_collection; assumption. Qed.
Lemma cenc_map : forall c k v n, wire_type k -> wire_type v -> 0 <= n < 2 ^ 31 ->
  cenc c (cWriteMapBegin k v n) (sc_map k v n) c.
Proof.
  intros c k v n K V N. unfold cWriteMapBegin, sc_map. destruct (n =? 0) eqn:E.
  - apply cenc_wrap, cenc_raw.
  - eapply enc_seq; [apply cenc_wrap, cenc_varint32; unfold in_u; lia|].
    eapply cenc_ext; [intro s; rewrite (ctype_ok k), (ctype_ok v) by assumption; reflexivity|].
    cbn [obind]. pose proof (sc_type_range k K) as [RK _]. pose proof (sc_type_range v V) as [RV _].
    apply cenc_wrap. rewrite wrapu8_shift, pack by lia. apply cenc_raw.
Qed.

(** ** Writing structured values *)
Fixpoint sc_pre (last : Z) (fs : list (Z * tval)) : bytes :=
  match fs with
  | [] => []
  | f :: fs' => sc_fieldval last f ++ sc_pre (fst f) fs'
  end.
Lemma sc_fields_pre : forall fs last, sc_fields last fs = sc_pre last fs ++ sc_stop.
Proof.
  induction fs as [|f fs IH]; intros; cbn; [reflexivity|]. rewrite IH, app_assoc. reflexivity.
Qed.
Fixpoint last_id (last : Z) (fs : list (Z * tval)) : Z :=
  match fs with [] => last | f :: fs' => last_id (fst f) fs' end.

Definition cwgood (v : tval) : Prop :=
  forall stk last bv nn, cenc (MkC stk last None bv nn) (write_val compactW v) (sc_val v)
                              (MkC stk last None bv nn).

Lemma wseq_assoc : forall S (a b d : wop S) s, (a >>> b >>> d) s = ((a >>> b) >>> d) s.
Proof.
  intros. unfold wseq. destruct (a s) as [[[e|] s']| |]; reflexivity.
Qed.

Lemma cenc_fieldval : forall id v stk last bv nn, in_s 16 id -> cwgood v ->
  cenc (MkC stk last None bv nn)
    (cWriteFieldBegin [] (vtype v) id >>> write_val compactW v >>> nop)
    (sc_fieldval last (id, v)) (MkC stk id None bv nn).
Proof.
  intros id v stk last bv nn I G. unfold sc_fieldval. cbn [fst snd].
  eapply cenc_ext; [intro; apply wseq_assoc|].
  assert (K : forall op bs c c', cenc c op bs c' -> cenc c (op >>> nop) bs c').
  { intros. rewrite <- (app_nil_r bs). eapply enc_seq; [eassumption|apply enc_nop]. }
  destruct v; try (apply K; eapply enc_seq;
    [apply cenc_field; [assumption|apply (vtype_wire _)|discriminate]|apply G]).
  apply K, cenc_bool_field, I.
Qed.

Lemma cenc_fields : forall fs,
  (forall x, In x fs -> in_s 16 (fst x) /\ cwgood (snd x)) ->
  forall stk last bv nn,
  cenc (MkC stk last None bv nn)
    (wseqs (map (fun f => cWriteFieldBegin [] (vtype (snd f)) (fst f) >>>
                          write_val compactW (snd f) >>> nop) fs))
    (sc_pre last fs) (MkC stk (last_id last fs) None bv nn).
Proof.
  induction fs as [|[id v] fs IH]; intros H stk last bv nn; cbn [map wseqs sc_pre last_id].
  - apply enc_nop.
  - destruct (H (id, v) (or_introl eq_refl)) as [I G]. cbn [fst snd] in *.
    eapply enc_seq; [apply cenc_fieldval; assumption|].
    apply IH. intros; apply H; right; assumption.
Qed.

Lemma cenc_seqs : forall A c (f : A -> wop cw) (e : A -> bytes) l,
  (forall x, In x l -> cenc c (f x) (e x) c) ->
  cenc c (wseqs (map f l)) (concat (map e l)) c.
Proof. intros. apply enc_seqs. assumption. Qed.

Lemma len_u : forall n : nat, Z.of_nat n < 2 ^ 31 -> 0 <= Z.of_nat n < 2 ^ 31.
Proof. intros; lia. Qed.

Theorem cenc_val : forall v, wf v -> cwgood v.
Proof.
  induction v using tval_ind'; intros Hwf stk last bv nn;
    (rewrite sc_val_struct || cbn [sc_val]).
  - apply cenc_bool. reflexivity.
  - apply cenc_byte.
  - apply cenc_i16, Hwf.
  - apply cenc_i32, Hwf.
  - apply cenc_i64, Hwf.
  - apply cenc_double.
  - apply cenc_string, Hwf.
  - cbn [wf] in Hwf. destruct Hwf as (T & L & A). rewrite all_in in A. rewrite Forall_forall in H.
    cbn [write_val].
    eapply enc_seq; [apply cenc_list; [assumption|apply len_u; assumption]|].
    eapply enc_eq; [eapply enc_seq; [apply cenc_seqs|apply enc_nop]|apply app_nil_r].
    intros x Hx. apply H; [assumption|apply A; assumption].
  - cbn [wf] in Hwf. destruct Hwf as (T & L & A). rewrite all_in in A. rewrite Forall_forall in H.
    cbn [write_val].
    eapply enc_seq; [apply cenc_set; [assumption|apply len_u; assumption]|].
    eapply enc_eq; [eapply enc_seq; [apply cenc_seqs|apply enc_nop]|apply app_nil_r].
    intros x Hx. apply H; [assumption|apply A; assumption].
  - cbn [wf] in Hwf. destruct Hwf as (T1 & T2 & L & A). rewrite all_in in A.
    rewrite Forall_forall in H. cbn [write_val].
    eapply enc_seq; [apply cenc_map; [assumption|assumption|apply len_u; assumption]|].
    eapply enc_eq; [eapply enc_seq; [apply cenc_seqs with
        (e := fun kv => sc_val (fst kv) ++ sc_val (snd kv))|apply enc_nop]|apply app_nil_r].
    intros x Hx. destruct (H x Hx) as [Hk Hv]. destruct (A x Hx) as [[_ Ak] [_ Av]].
    eapply enc_seq; [apply Hk|apply Hv]; assumption.
  - rewrite sc_fields_pre.
    cbn [wf] in Hwf. rewrite all_in in Hwf. rewrite Forall_forall in H. cbn [write_val].
    apply (enc_seq _ _ _ (MkC (last :: stk) 0 None bv nn) _ _ _ [] _).
    { intros [w c] W E. cbn in W, E. subst c. eexists (w, _). split; [reflexivity|].
      cbn. rewrite app_nil_r. destruct w; cbn in *; subst; auto. }
    eapply enc_seq.
    + apply cenc_fields. intros x Hx. split; [apply Hwf, Hx|apply H; [assumption|apply Hwf, Hx]].
    + eapply enc_eq; [eapply enc_seq; [apply cenc_stop|]|apply app_nil_r].
      intros [w c] W E. cbn in W, E. subst c. eexists (w, _). split; [reflexivity|].
      cbn. rewrite app_nil_r. destruct w; cbn in *; subst; auto.
Qed.
