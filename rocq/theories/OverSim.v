(** The protocols over a transport that delivers a stream, or takes one, do what they do over a
    plain stream with the same bytes. *)
From Coq Require Import ZArith List Bool Lia.
From Coq Require Import ZifyBool ZifyNat.
From Verif Require Import Base Errors Transport Proto Arith TransportProofs Binary Compact Framed Over Het.
Import ListNotations.
Open Scope Z_scope.

(** ReadAllTransport over a Read method (ttransport.go:160-174): the result with the buffer as it
    is afterwards. *)
Definition read_all_over {T} (rd : nat -> T -> bytes * option err * T) (n : nat) (s : T)
  : Z * bytes * option err * T :=
  let '(c, d, e, s') := read_all_via rd n n 0 None s in (c, pad n d, e, s').

(** A transport whose coming Reads give exactly these bytes, in any pieces, and then errors. *)
Definition delivers {T} (rd : nat -> T -> bytes * option err * T) (inv : T -> bytes -> Prop) : Prop :=
  forall s C n, inv s C -> (0 < n)%nat ->
    match C with
    | [] => exists e s', rd n s = ([], Some e, s') /\ inv s' []
    | _ => exists d C' s', rd n s = (d, None, s') /\ d <> [] /\ (length d <= n)%nat /\ C = d ++ C' /\ inv s' C'
    end.

Lemma firstn_app_len : forall (d C : bytes) n, (length d <= n)%nat ->
  firstn n (d ++ C) = d ++ firstn (n - length d) C.
Proof. intros. rewrite firstn_app, (firstn_all2 d) by lia. reflexivity. Qed.
Lemma skipn_app_len : forall (d C : bytes) n, (length d <= n)%nat ->
  skipn n (d ++ C) = skipn (n - length d) C.
Proof. intros. rewrite skipn_app, (skipn_all2 d) by lia. reflexivity. Qed.

Lemma read_all_via_delivers : forall T rd (inv : T -> bytes -> Prop), delivers rd inv ->
  forall fuel n got s C, inv s C -> (n <= fuel)%nat ->
  exists s', 
    if (n <=? length C)%nat
    then read_all_via rd fuel n got None s = (Z.of_nat (got + n), firstn n C, None, s') /\ inv s' (skipn n C)
    else read_all_via rd fuel n got None s = (0, C, Some (ETransport UNKNOWN_TRANSPORT_EXCEPTION), s') /\ inv s' [].
Proof.
  intros T rd inv D. induction fuel as [|f IH]; intros n got s C I L.
  - replace n with O by lia. exists s. cbn. rewrite Nat.add_0_r. auto.
  - destruct n as [|n]; [exists s; cbn; rewrite Nat.add_0_r; auto|].
    cbn [read_all_via]. specialize (D s C (S n) I ltac:(lia)). destruct C as [|c C0].
    + destruct D as (e & s' & -> & I'). exists s'. cbn [length]. replace (S n <=? 0)%nat with false by lia. auto.
    + destruct D as (d & C' & s1 & -> & N & Ld & E & I'). rewrite E.
      destruct d as [|d0 d']; [congruence|]. set (d := d0 :: d') in *.
      assert (1 <= length d)%nat by (cbn; lia).
      destruct (IH (S n - length d)%nat (got + length d)%nat s1 C' I' ltac:(lia)) as (s' & H').
      exists s'. rewrite app_length.
      replace (S n <=? length d + length C')%nat with (S n - length d <=? length C')%nat by lia.
      destruct (S n - length d <=? length C')%nat; destruct H' as [-> I2].
      * rewrite firstn_app_len, skipn_app_len by lia.
        replace (got + length d + (S n - length d))%nat with (got + S n)%nat by lia. auto.
      * auto.
Qed.

Section Reading.
Variable pan : bool.
Context {T : Type}.
Variable rd : nat -> T -> bytes * option err * T.
Variable inv : T -> bytes -> Prop.
Hypothesis D : delivers rd inv.
Variable unread : T -> nat.
Hypothesis U : forall s C, inv s C -> (length C <= unread s)%nat.

Definition rsim (s : T) (r : rt) : Prop := benign r /\ inv s (content r).
Definition rsimc (s : T * cstate) (r : cr) : Prop := rsim (fst s) (fst r) /\ snd s = snd r.

Lemma over_read_all : forall n s r, rsim s r -> exists c b e s' r',
  read_all_over rd n s = (c, b, e, s') /\ read_all n r = (c, b, e, r') /\ rsim s' r' /\
  (e = None -> (length (content r') + n = length (content r))%nat).
Proof.
  intros n s r [B I]. destruct (read_all_benign r n B) as (r' & B' & H).
  destruct (read_all_via_delivers _ _ _ D n n 0 s _ I (Nat.le_refl n)) as (s' & H').
  unfold read_all_over, rsim. destruct (n <=? length (content r))%nat eqn:L.
  - destruct H as [-> E], H' as [-> I']. rewrite pad_exact by (rewrite firstn_length; lia).
    eexists _, _, _, s', r'. split; [reflexivity|]. split; [reflexivity|]. rewrite E.
    split; [auto|]. intros _. rewrite skipn_length. lia.
  - destruct H as [-> E], H' as [-> I'].
    eexists _, _, _, s', r'. split; [reflexivity|]. split; [reflexivity|]. rewrite E.
    split; [auto|]. discriminate.
Qed.

Notation ra := (read_all_over rd).
Notation hresp := (hresp pan).
Notation hsame := (hsame pan).

Lemma over_readAll : forall n, hresp rsim (o_b_readAll ra n) (b_readAll n).
Proof.
  intros n s r E. unfold o_b_readAll, b_readAll.
  destruct (over_read_all n s r E) as (c & b & e & s' & r' & -> & -> & E' & _). cbn. auto.
Qed.
Lemma over_body : forall n, hresp rsim (o_bReadStringBody ra n) (bReadStringBody n).
Proof.
  intros n s r E. unfold o_bReadStringBody, bReadStringBody. destruct (n <? 0); [cbn; auto|].
  destruct (over_read_all (Z.to_nat n) s r E) as (c & b & e & s' & r' & -> & -> & E' & _). cbn. auto.
Qed.

Lemma hresp_app : forall S1 S2 (sim : S1 -> S2 -> Prop) A (f1 : S1 -> outcome (A * S1)) (f2 : S2 -> outcome (A * S2)),
  hresp sim f1 f2 -> forall s1 s2, sim s1 s2 -> hsame sim (f1 s1) (f2 s2).
Proof. auto. Qed.
Hint Resolve over_readAll over_body hresp_app hnop : ovr.
Ltac os :=
  repeat match goal with
  | |- Het.hresp _ _ (fun _ => _) (fun _ => _) => let s1 := fresh "s" in let s2 := fresh "s" in
                              let E := fresh "E" in intros s1 s2 E
  | |- Het.hsame _ _ (obind ?a _) (obind ?b _) =>
    eapply hsame_bind; [solve [eauto with ovr]|]; intros [? ?] ? ? ?
  | |- Het.hsame _ _ (Ok _) (Ok _) => apply hsame_ok; assumption
  | |- Het.hsame _ _ Panic Panic => exact I
  | |- Het.hsame _ _ (match ?e with Some _ => _ | None => _ end) _ => destruct e
  | |- Het.hsame _ _ (if ?c then _ else _) _ => destruct c
  | |- Het.hsame _ _ (let '(_, _) := ?x in _) _ => destruct x
  | |- Het.hsame _ _ _ _ => solve [eauto with ovr]
  end.

Lemma ob_byte : hresp rsim (o_bReadByte ra) bReadByte. Proof. unfold o_bReadByte, bReadByte. os. Qed.
Lemma ob_i16 : hresp rsim (o_bReadI16 ra) bReadI16. Proof. unfold o_bReadI16, bReadI16. os. Qed.
Lemma ob_i32 : hresp rsim (o_bReadI32 ra) bReadI32. Proof. unfold o_bReadI32, bReadI32. os. Qed.
Lemma ob_i64 : hresp rsim (o_bReadI64 ra) bReadI64. Proof. unfold o_bReadI64, bReadI64. os. Qed.
Lemma ob_dbl : hresp rsim (o_bReadDouble ra) bReadDouble. Proof. unfold o_bReadDouble, bReadDouble. os. Qed.
Hint Resolve ob_byte ob_i16 ob_i32 ob_i64 ob_dbl : ovr.
Lemma ob_bool : hresp rsim (o_bReadBool ra) bReadBool. Proof. unfold o_bReadBool, bReadBool. os. Qed.
Lemma ob_str : hresp rsim (o_bReadString ra) bReadString. Proof. unfold o_bReadString, bReadString. os. Qed.
Hint Resolve ob_bool ob_str : ovr.
Lemma ob_bin : hresp rsim (o_bReadBinary ra) bReadBinary.
Proof.
  unfold o_bReadBinary, bReadBinary. intros s1 s2 E. eapply hsame_bind; [apply ob_i32, E|].
  intros [n [e|]] t1 t2 E'; [apply hsame_ok, E'|]. destruct (n <? 0); [exact I|].
  destruct (over_read_all (Z.to_nat n) _ _ E') as (c & b & e & r1' & r2' & -> & -> & E'' & _).
  cbn. auto.
Qed.
Lemma ob_field : hresp rsim (o_bReadFieldBegin ra) bReadFieldBegin. Proof. unfold o_bReadFieldBegin, bReadFieldBegin. os. Qed.
Lemma ob_map : hresp rsim (o_bReadMapBegin ra) bReadMapBegin. Proof. unfold o_bReadMapBegin, bReadMapBegin. os. Qed.
Lemma ob_list : hresp rsim (o_bReadListBegin ra) bReadListBegin. Proof. unfold o_bReadListBegin, bReadListBegin. os. Qed.
Lemma ob_set : hresp rsim (o_bReadSetBegin ra) bReadSetBegin. Proof. unfold o_bReadSetBegin, bReadSetBegin. os. Qed.
Lemma ob_msg : forall strict, hresp rsim (o_bReadMessageBegin ra strict) (bReadMessageBegin strict).
Proof. unfold o_bReadMessageBegin, bReadMessageBegin. intros. os. Qed.
Hint Resolve ob_bin ob_field ob_map ob_list ob_set ob_msg : ovr.

Theorem over_binaryR : forall strict, rrel pan rsim (o_binaryR ra strict) (binaryR strict).
Proof.
  intro strict. constructor; cbn [o_binaryR binaryR rMessageBegin rMessageEnd rStructBegin
    rStructEnd rFieldBegin rFieldEnd rMapBegin rMapEnd rListBegin rListEnd rSetBegin rSetEnd
    rBool rByte rI16 rI32 rI64 rDouble rString rBinary]; eauto with ovr.
  intros s1 s2 E. apply hsame_ok, E.
Qed.

(** ** TCompactProtocol *)
Lemma oc_byte_len : forall s r c, rsim s r -> exists b e s' r',
  o_cReadByte ra (s, c) = Ok (b, e, (s', c)) /\ cReadByte (r, c) = Ok (b, e, (r', c)) /\ rsim s' r' /\
  (e = None -> (length (content r') < length (content r))%nat).
Proof.
  intros s r c E. unfold o_cReadByte, cReadByte.
  destruct (over_read_all 1 s r E) as (n & b & e & s' & r' & -> & -> & E' & L).
  destruct e as [e|].
  - eexists _, _, _, _. split; [reflexivity|]. split; [reflexivity|]. split; [exact E'|].
    destruct e; discriminate.
  - eexists _, _, _, _. split; [reflexivity|]. split; [reflexivity|]. split; [exact E'|].
    intros _. specialize (L eq_refl). lia.
Qed.
Lemma oc_byte : hresp rsimc (o_cReadByte ra) cReadByte.
Proof.
  intros [s c] [r c2] [E1 E2]. cbn in E1, E2; subst c2.
  destruct (oc_byte_len s r c E1) as (b & e & s' & r' & -> & -> & E' & _). cbn. unfold rsimc. auto.
Qed.
Hint Resolve oc_byte : ovr.
Lemma oc_loop : forall f1 f2 sh res s r c, rsim s r ->
  (length (content r) < f1)%nat -> (length (content r) < f2)%nat ->
  hsame rsimc (o_readVarint64_loop ra f1 sh res (s, c)) (readVarint64_loop f2 sh res (r, c)).
Proof.
  induction f1 as [|f1 IH]; intros f2 sh res s r c E L1 L2; [lia|]. destruct f2 as [|f2]; [lia|].
  cbn [o_readVarint64_loop readVarint64_loop].
  destruct (oc_byte_len s r c E) as (b & e & s' & r' & -> & -> & E' & L). cbn [obind].
  destruct e as [e|]; [apply hsame_ok; split; [exact E'|reflexivity]|].
  specialize (L eq_refl). destruct (negb _); [apply hsame_ok; split; [exact E'|reflexivity]|].
  apply IH; [exact E'|lia|lia].
Qed.
Lemma oc_v64 : hresp rsimc (o_readVarint64 ra unread) readVarint64.
Proof.
  intros [s c] [r c2] [E1 E2]. cbn in E1, E2; subst c2. unfold o_readVarint64, readVarint64. cbn [fst].
  apply oc_loop; [exact E1| |].
  - destruct E1 as [_ E1]. apply U in E1. lia.
  - unfold rt_size. fold (content r). lia.
Qed.
Hint Resolve oc_v64 : ovr.
Lemma oc_v32 : hresp rsimc (o_readVarint32 ra unread) readVarint32. Proof. unfold o_readVarint32, readVarint32. os. Qed.
Hint Resolve oc_v32 : ovr.
Lemma oc_i32 : hresp rsimc (o_cReadI32 ra unread) cReadI32. Proof. unfold o_cReadI32, cReadI32. os. Qed.
Hint Resolve oc_i32 : ovr.
Lemma oc_i16 : hresp rsimc (o_cReadI16 ra unread) cReadI16. Proof. unfold o_cReadI16, cReadI16. os. Qed.
Lemma oc_i64 : hresp rsimc (o_cReadI64 ra unread) cReadI64. Proof. unfold o_cReadI64, cReadI64. os. Qed.
Lemma oc_dbl : hresp rsimc (o_cReadDouble ra) cReadDouble.
Proof.
  intros [r1 c1] [r2 c2] [E1 E2]. cbn in E1, E2; subst c2. unfold o_cReadDouble, cReadDouble.
  destruct (over_read_all 8 r1 r2 E1) as (c & b & e & r1' & r2' & -> & -> & E' & _).
  destruct e; cbn; unfold rsimc; auto.
Qed.
Lemma oc_bin : hresp rsimc (o_cReadBinary ra unread) cReadBinary.
Proof.
  unfold o_cReadBinary, cReadBinary. intros s1 s2 E. eapply hsame_bind; [apply oc_v32, E|].
  intros [n e] [r1 c1] [r2 c2] [E1 E2]. cbn in E1, E2; subst c2.
  destruct e; [apply hsame_ok; split; auto|]. destruct (n =? 0); [apply hsame_ok; split; auto|].
  destruct (n <? 0); [exact I|].
  destruct (over_read_all (Z.to_nat n) r1 r2 E1) as (c & b & e & r1' & r2' & -> & -> & E' & _).
  cbn; unfold rsimc; auto.
Qed.
Hint Resolve oc_i16 oc_i64 oc_dbl oc_bin : ovr.
Lemma oc_str : hresp rsimc (o_cReadString ra unread) cReadString. Proof. unfold o_cReadString, cReadString. os. Qed.
Hint Resolve oc_str : ovr.
Lemma oc_bool : hresp rsimc (o_cReadBool ra) cReadBool.
Proof.
  intros [r1 c1] [r2 c2] [E1 E2]. cbn in E1, E2; subst c2. unfold o_cReadBool, cReadBool.
  destruct (boolValueIsNotNull c1); [apply hsame_ok; split; auto|].
  eapply hsame_bind; [apply oc_byte; split; auto|]. intros [v e] t1 t2 E.
  apply hsame_ok, E.
Qed.
Lemma oc_msg : hresp rsimc (o_cReadMessageBegin ra unread) cReadMessageBegin.
Proof. unfold o_cReadMessageBegin, cReadMessageBegin. os. Qed.
Lemma oc_sb : hresp rsimc o_cReadStructBegin cReadStructBegin.
Proof.
  intros [r1 c1] [r2 c2] [E1 E2]. cbn in E1, E2; subst c2. apply hsame_ok; split; auto.
Qed.
Lemma oc_se : hresp rsimc o_cReadStructEnd cReadStructEnd.
Proof.
  intros [r1 c1] [r2 c2] [E1 E2]. cbn in E1, E2; subst c2. unfold o_cReadStructEnd, cReadStructEnd.
  destruct (lastField c1); [exact I|]. apply hsame_ok; split; auto.
Qed.
Lemma oc_field : hresp rsimc (o_cReadFieldBegin ra unread) cReadFieldBegin.
Proof.
  unfold o_cReadFieldBegin, cReadFieldBegin. intros s1 s2 E. eapply hsame_bind; [apply oc_byte, E|].
  intros [t [e|]] t1 t2 E'; [apply hsame_ok, E'|].
  destruct (Z.land t 15 =? STOP); [apply hsame_ok, E'|].
  eapply hsame_bind.
  - destruct (wraps 16 (Z.shiftr (Z.land t 240) 4) =? 0); [apply oc_i16, E'|].
    destruct E' as [E1 E2]. rewrite E2. apply hsame_ok; split; assumption.
  - intros [id [e|]] u1 u2 Eu; [apply hsame_ok, Eu|].
    destruct (getTType (Z.land t 15)) as [ty [e|]]; [apply hsame_ok, Eu|].
    destruct u1 as [r1 c1], u2 as [r2 c2]. destruct Eu as [E1 E2]. cbn in E1, E2; subst c2.
    apply hsame_ok. split; auto.
Qed.
Lemma oc_map : hresp rsimc (o_cReadMapBegin ra unread) cReadMapBegin.
Proof.
  unfold o_cReadMapBegin, cReadMapBegin. intros s1 s2 E. eapply hsame_bind; [apply oc_v32, E|].
  intros [n [e|]] t1 t2 E'; [apply hsame_ok, E'|].
  eapply hsame_bind.
  - destruct (negb (n =? 0)); [apply oc_byte, E'|apply hsame_ok, E'].
  - intros [kv [e|]] u1 u2 Eu; apply hsame_ok, Eu.
Qed.
Lemma oc_list : hresp rsimc (o_cReadListBegin ra unread) cReadListBegin.
Proof.
  unfold o_cReadListBegin, cReadListBegin. intros s1 s2 E. eapply hsame_bind; [apply oc_byte, E|].
  intros [st [e|]] t1 t2 E'; [apply hsame_ok, E'|].
  eapply hsame_bind.
  - destruct (_ =? 15); [apply oc_v32, E'|apply hsame_ok, E'].
  - intros [n [e|]] u1 u2 Eu; [apply hsame_ok, Eu|].
    destruct (getTType st). apply hsame_ok, Eu.
Qed.
Hint Resolve oc_bool oc_msg oc_sb oc_se oc_field oc_map oc_list : ovr.
Theorem over_compactR : rrel pan rsimc (o_compactR ra unread) compactR.
Proof.
  constructor; cbn [o_compactR compactR rMessageBegin rMessageEnd rStructBegin
    rStructEnd rFieldBegin rFieldEnd rMapBegin rMapEnd rListBegin rListEnd rSetBegin rSetEnd
    rBool rByte rI16 rI32 rI64 rDouble rString rBinary]; eauto with ovr.
Qed.
End Reading.

(** ** Writing *)

(** A transport that takes every piece written; [pan] if it may panic for empty ones. *)
Definition accepts {T} (pan : bool) (wr : bytes -> T -> outcome (Z * option err * T)) (inv : T -> bytes -> Prop) : Prop :=
  forall p s o, inv s o ->
    (exists n s', wr p s = Ok (n, None, s') /\ inv s' (o ++ p)) \/
    (pan = true /\ p = [] /\ wr p s = Panic).

Section Writing.
Variable pan : bool.
Context {T : Type}.
Variable wr : bytes -> T -> outcome (Z * option err * T).
Variable cp : bytes -> T -> outcome (option err * T).
Variable inv : T -> bytes -> Prop.
Hypothesis A : accepts pan wr inv.
Hypothesis CP : forall p s o, inv s o -> exists s', cp p s = Ok (None, s') /\ inv s' (o ++ p).

Definition wsim (s : T) (w : wt) : Prop := w_sched w = [] /\ inv s (w_out w).
Definition wsimc (s : T * cstate) (w : cw) : Prop := wsim (fst s) (fst w) /\ snd s = snd w.

Notation hresp := (hresp pan).
Notation hsame := (hsame pan).

Lemma over_write : forall p s w, wsim s w -> exists w', twrite p w = (Z.of_nat (length p), None, w') /\
  ((exists n s', wr p s = Ok (n, None, s') /\ wsim s' w') \/ (pan = true /\ p = [] /\ wr p s = Panic)).
Proof.
  intros p s w [Hs I]. unfold twrite. rewrite Hs. eexists. split; [reflexivity|].
  destruct (A p s _ I) as [(n & s' & E & I')|K]; [left|right; exact K].
  exists n, s'. split; [exact E|]. split; [reflexivity|exact I'].
Qed.
Lemma copy_blocks_plain : forall f bs w, w_sched w = [] -> (length bs <= f)%nat ->
  copy_blocks f bs w = (None, MkWt (w_out w ++ bs) []).
Proof.
  induction f as [|f IH]; intros bs w Hs L.
  - destruct bs; [|cbn in L; lia]. cbn. rewrite app_nil_r. destruct w; cbn in *; congruence.
  - cbn [copy_blocks]. destruct bs as [|b bs]; [rewrite app_nil_r; destruct w; cbn in *; congruence|].
    unfold twrite. rewrite Hs.
    assert (P : (0 < copy_block)%nat) by (unfold copy_block; apply (Z2Nat.inj_lt 0 32768); lia).
    rewrite IH; [|reflexivity|rewrite skipn_length; lia].
    cbn [w_out]. rewrite <- app_assoc, firstn_skipn. reflexivity.
Qed.
Lemma copy_n_plain : forall bs w, w_sched w = [] -> copy_n bs w = (None, MkWt (w_out w ++ bs) []).
Proof. intros. apply copy_blocks_plain; [assumption|apply Nat.le_refl]. Qed.

Lemma over_b_write : forall p, hresp wsim (o_b_write wr p) (b_write p).
Proof.
  intros p s w E. unfold o_b_write, b_write. destruct (over_write p s w E) as (w' & -> & [(n & s' & -> & E')|(P & _ & ->)]).
  - cbn. auto.
  - cbn. exact P.
Qed.
Lemma over_copy : forall p, hresp wsim
  (fun w => '(e, w') <- cp p w ;; Ok (protocol_exc_from_os e, w'))
  (fun w => let '(e, w') := copy_n p w in Ok (protocol_exc_from_os e, w')).
Proof.
  intros p s w [Hs I]. rewrite copy_n_plain by assumption. destruct (CP p s _ I) as (s' & -> & I').
  cbn. split; [reflexivity|]. split; [reflexivity|exact I'].
Qed.
Hint Resolve over_b_write over_copy h_seq hnop : ovw.
Theorem over_binaryW : forall strict, wrel pan wsim (o_binaryW wr cp strict) (binaryW strict).
Proof.
  assert (WI32 : forall v, hresp wsim (o_bWriteI32 wr v) (bWriteI32 v)) by (intro; apply over_b_write).
  assert (WB : forall v, hresp wsim (o_bWriteByte wr v) (bWriteByte v)) by (intro; apply over_b_write).
  assert (WS : forall v, hresp wsim (o_bWriteString wr cp v) (bWriteString v)) by (intro; apply h_seq; [apply WI32|apply over_copy]).
  intro strict. constructor; cbn [o_binaryW binaryW wMessageBegin wMessageEnd wStructBegin
    wStructEnd wFieldBegin wFieldEnd wFieldStop wMapBegin wMapEnd wListBegin wListEnd wSetBegin wSetEnd
    wBool wByte wI16 wI32 wI64 wDouble wString wBinary]; intros; auto with ovw.
  - unfold o_bWriteMessageBegin, bWriteMessageBegin. destruct strict; auto with ovw.
  - apply h_seq; apply over_b_write.
  - apply WB.
  - apply h_seq; [apply WB|apply h_seq; [apply WB|apply WI32]].
  - apply h_seq; [apply WB|apply WI32].
  - apply h_seq; [apply WB|apply WI32].
  - unfold o_bWriteBool, bWriteBool. destruct v; apply WB.
  - apply over_b_write.
  - apply over_b_write.
  - apply over_b_write.
  - apply h_seq; [apply WI32|apply over_b_write].
Qed.
End Writing.

(** TCompactProtocol never writes an empty piece. *)
Section CompactWriting.
Variables pan pan' : bool.
Context {T : Type}.
Variable wr : bytes -> T -> outcome (Z * option err * T).
Variable inv : T -> bytes -> Prop.
Hypothesis A : accepts pan' wr inv.
Notation hresp := (hresp pan).
Notation hsame := (hsame pan).
Notation wsimc := (@wsimc T inv).

Lemma oc_raw : forall p, p <> [] -> hresp wsimc (o_c_write_raw wr p) (c_write_raw p).
Proof.
  intros p N [s c] [w c2] [E1 E2]. cbn in E1, E2; subst c2. unfold o_c_write_raw, c_write_raw.
  destruct (over_write pan' wr inv A p s w E1) as (w' & -> & [(n & s' & -> & E')|(_ & P & _)]); [|congruence].
  cbn. unfold OverSim.wsimc. auto.
Qed.
Lemma oc_wrap : forall (m1 : wop (T * cstate)) (m2 : wop cw), hresp wsimc m1 m2 -> hresp wsimc (o_wrap_exc m1) (wrap_exc m2).
Proof.
  intros m1 m2 H s w E. unfold o_wrap_exc, wrap_exc. eapply hsame_bind; [apply H, E|].
  intros e t1 t2 E'. apply hsame_ok, E'.
Qed.
Lemma oc_dir : forall b, hresp wsimc (o_writeByteDirect wr b) (writeByteDirect b).
Proof. intro b. apply oc_raw. discriminate. Qed.
Lemma v32_nonempty : forall r n bs, varint32_bytes r n = Ok bs -> bs <> [].
Proof.
  intros [|r] n bs H; cbn in H; [discriminate|]. destruct (_ =? 0); [injection H as <-; discriminate|].
  destruct (varint32_bytes r _); cbn in H; try discriminate. injection H as <-. discriminate.
Qed.
Lemma v64_nonempty : forall r n bs, varint64_bytes r n = Ok bs -> bs <> [].
Proof.
  intros [|r] n bs H; cbn in H; [discriminate|]. destruct (_ =? 0); [injection H as <-; discriminate|].
  destruct (varint64_bytes r _); cbn in H; try discriminate. injection H as <-. discriminate.
Qed.
Lemma ow_v32 : forall n, hresp wsimc (o_writeVarint32 wr n) (writeVarint32 n).
Proof.
  intros n s w E. unfold o_writeVarint32, writeVarint32. destruct (varint32_bytes 5 n) as [bs| |] eqn:V; cbn [obind].
  - apply oc_raw; [exact (v32_nonempty _ _ _ V)|exact E].
  - exact I.
  - exact I.
Qed.
Lemma ow_v64 : forall n, hresp wsimc (o_writeVarint64 wr n) (writeVarint64 n).
Proof.
  intros n s w E. unfold o_writeVarint64, writeVarint64. destruct (varint64_bytes 10 n) as [bs| |] eqn:V; cbn [obind].
  - apply oc_raw; [exact (v64_nonempty _ _ _ V)|exact E].
  - exact I.
  - exact I.
Qed.
Lemma ow_bin : forall b, hresp wsimc (o_cWriteBinary wr b) (cWriteBinary b).
Proof.
  intro b. apply h_seq; [apply oc_wrap, ow_v32|]. destruct b as [|c b]; [apply hnop|].
  apply oc_wrap, oc_raw. discriminate.
Qed.
Lemma ow_i16 : forall v, hresp wsimc (o_cWriteI16 wr v) (cWriteI16 v).
Proof. intro. apply oc_wrap, ow_v32. Qed.
Lemma ow_fbi : forall t i ov, hresp wsimc (o_writeFieldBeginInternal wr t i ov) (writeFieldBeginInternal t i ov).
Proof.
  intros t i ov [s c] [w c2] [E1 E2]. cbn in E1, E2; subst c2.
  unfold o_writeFieldBeginInternal, writeFieldBeginInternal.
  apply hsame_pure. intro tw. cbv zeta. apply h_seq.
  - destruct (_ && _); [apply oc_dir|]. apply h_seq; [apply oc_dir|apply ow_i16].
  - intros [s1 c1] [w1 c2] [F1 F2]. cbn in F1, F2; subst c2. apply hsame_ok. split; [exact F1|reflexivity].
  - split; [exact E1|reflexivity].
Qed.
Lemma ow_coll : forall t n, hresp wsimc (o_writeCollectionBegin wr t n) (writeCollectionBegin t n).
Proof.
  intros t n s w E. unfold o_writeCollectionBegin, writeCollectionBegin. apply hsame_pure. intro b.
  destruct (n <=? 14); [apply oc_dir, E|]. apply h_seq; [apply oc_dir|apply ow_v32|exact E].
Qed.
Theorem over_compactW : wrel pan wsimc (o_compactW wr) compactW.
Proof.
  constructor; cbn [o_compactW compactW wMessageBegin wMessageEnd wStructBegin
    wStructEnd wFieldBegin wFieldEnd wFieldStop wMapBegin wMapEnd wListBegin wListEnd wSetBegin wSetEnd
    wBool wByte wI16 wI32 wI64 wDouble wString wBinary]; intros; try exact (hnop pan wsimc); try exact (ow_bin v); try exact (ow_i16 v).
  - unfold o_cWriteMessageBegin, cWriteMessageBegin.
    apply h_seq; [apply oc_wrap, oc_dir|]. apply h_seq; [apply oc_wrap, oc_dir|].
    apply h_seq; [apply oc_wrap, ow_v32|apply ow_bin].
  - intros [s c] [w c2] [E1 E2]. cbn in E1, E2; subst c2. apply hsame_ok. split; [exact E1|reflexivity].
  - intros [s c] [w c2] [E1 E2]. cbn in E1, E2; subst c2. unfold o_cWriteStructEnd, cWriteStructEnd.
    destruct (lastField c); [exact I|]. apply hsame_ok. split; [exact E1|reflexivity].
  - intros [s c] [w c2] [E1 E2]. cbn in E1, E2; subst c2. unfold o_cWriteFieldBegin, cWriteFieldBegin.
    destruct (t =? BOOL); [apply hsame_ok; split; [exact E1|reflexivity]|].
    apply oc_wrap; [apply ow_fbi|split; [exact E1|reflexivity]].
  - apply oc_wrap, oc_dir.
  - unfold o_cWriteMapBegin, cWriteMapBegin. destruct (n =? 0); [apply oc_wrap, oc_dir|].
    apply h_seq; [apply oc_wrap, ow_v32|]. intros s w E. apply hsame_pure. intro. apply hsame_pure. intro.
    apply oc_wrap; [apply oc_dir|exact E].
  - apply oc_wrap, ow_coll.
  - apply oc_wrap, ow_coll.
  - intros [s c] [w c2] [E1 E2]. cbn in E1, E2; subst c2. unfold o_cWriteBool, cWriteBool. cbv zeta.
    destruct (booleanField c) as [[t i]|].
    + eapply hsame_bind; [apply ow_fbi; split; [exact E1|reflexivity]|].
      intros e [s1 c1] [w1 c2] [F1 F2]. cbn in F1, F2; subst c2. apply hsame_ok. split; [exact F1|reflexivity].
    + apply oc_wrap; [apply oc_dir|split; [exact E1|reflexivity]].
  - apply oc_wrap, oc_dir.
  - apply oc_wrap, ow_v64.
  - apply oc_wrap, oc_raw. discriminate.
Qed.
End CompactWriting.
