(** Lemmas about TFramedTransport. *)
From Coq Require Import ZArith List Bool Lia.
From Coq Require Import ZifyBool ZifyNat.
From Verif Require Import Base Errors Transport Arith TransportProofs Binary BinaryProofs Buffer Framed.
Import ListNotations.
Open Scope Z_scope.
Ltac Zify.zify_post_hook ::= Z.div_mod_to_equations.

(** A frame as published: the length in four bytes, big-endian, then the payload. *)
Definition frame (p : bytes) : bytes := be 4 (Z.of_nat (length p)) ++ p.

Lemma mod_byte : forall v a b, 0 < a -> 0 <= b -> (v mod (a * (256 * 2 ^ b))) / a mod 256 = v / a mod 256.
Proof.
  intros v a b A B. assert (P : 0 < 2 ^ b) by (apply Z.pow_pos_nonneg; lia).
  assert (Q : 0 < a * (256 * 2 ^ b)) by (repeat apply Z.mul_pos_pos; lia).
  rewrite (Z.div_mod v (a * (256 * 2 ^ b))) at 2 by lia.
  replace (a * (256 * 2 ^ b) * (v / (a * (256 * 2 ^ b))) + v mod (a * (256 * 2 ^ b)))
    with ((2 ^ b * (v / (a * (256 * 2 ^ b))) * 256) * a + v mod (a * (256 * 2 ^ b))) by lia.
  rewrite Z.div_add_l by lia. rewrite Z.add_comm, Z.mod_add by lia. reflexivity.
Qed.
Lemma put_uint32_be : forall v, put_uint32 (wrapu 32 v) = be 4 v.
Proof.
  intro v. unfold put_uint32, wrapu. rewrite !Z.shiftr_div_pow2 by lia.
  change (be 4 v) with [(v / 2 ^ 24) mod 256; (v / 2 ^ 16) mod 256; (v / 2 ^ 8) mod 256; (v / 1) mod 256].
  rewrite <- (mod_byte v (2 ^ 24) 0), <- (mod_byte v (2 ^ 16) 8), <- (mod_byte v (2 ^ 8) 16),
    <- (mod_byte v 1 24) by lia.
  rewrite Z.div_1_r. reflexivity.
Qed.

Lemma frame_hdr : forall (p : bytes), Z.of_nat (length p) < 2 ^ 31 ->
  be_uint32 (be 4 (Z.of_nat (length p))) = Z.of_nat (length p).
Proof.
  intros p H. rewrite be_uint32_be, unbe_be. change (256 ^ Z.of_nat 4) with (2 ^ 32).
  apply Z.mod_small. lia.
Qed.

Lemma wraps_len : forall intw n, 32 <= intw -> 0 <= n < 2 ^ 31 -> wraps intw n = n.
Proof.
  intros intw n W H. apply wraps_id; [lia|]. unfold in_s.
  assert (2 ^ 31 <= 2 ^ (intw - 1)) by (apply Z.pow_le_mono_r; lia). lia.
Qed.

(** What is left of a stream that ends inside a frame. *)
Definition cut (t : bytes) : Prop :=
  exists p q, Z.of_nat (length p) < 2 ^ 31 /\ frame p = t ++ q /\ q <> [].

Lemma cut_nil : cut [].
Proof. exists [], (frame []). split; [cbn; lia|]. split; [reflexivity|]. intro H. apply (f_equal (@length Z)) in H. discriminate. Qed.

Lemma readFrame_whole : forall intw f p rest, 32 <= intw -> benign (f_r f) ->
  0 < Z.of_nat (length p) < 2 ^ 31 -> content (f_r f) = frame p ++ rest ->
  exists r', readFrame intw f = MkFramed (f_w f) r' (f_wbuf f) (bNew p) /\ benign r' /\ content r' = rest.
Proof.
  intros intw f p rest W B L X. unfold frame in X. rewrite <- app_assoc in X. unfold readFrame.
  destruct (read_all_exact _ _ _ B X) as (r1 & R1 & B1 & X1). rewrite be_length in R1.
  rewrite R1. rewrite (frame_hdr p) by lia. rewrite wraps_len by lia.
  replace (Z.of_nat (length p) <? 0) with false by lia.
  replace (Z.of_nat (length p) =? 0) with false by lia. rewrite Nat2Z.id.
  destruct (read_all_exact _ _ _ B1 X1) as (r2 & R2 & B2 & X2). rewrite R2. eauto.
Qed.

Lemma readFrame_cut : forall intw f, 32 <= intw -> benign (f_r f) -> cut (content (f_r f)) ->
  exists r', readFrame intw f = MkFramed (f_w f) r' (f_wbuf f) (f_rbuf f) /\ benign r' /\ content r' = [].
Proof.
  intros intw f W B (p & q & L & E & N). unfold readFrame.
  destruct (Nat.lt_ge_cases (length (content (f_r f))) 4) as [S|S].
  - destruct (read_all_short _ 4 B S) as (r1 & R1 & B1 & X1). rewrite R1. eauto.
  - assert (X : exists t, content (f_r f) = be 4 (Z.of_nat (length p)) ++ t /\ p = t ++ q).
    { unfold frame in E. exists (skipn 4 (content (f_r f))).
      assert (L4 := be_length 4 (Z.of_nat (length p))).
      rewrite <- (firstn_skipn 4 (content (f_r f))) in E at 1. rewrite <- app_assoc in E.
      assert (F : length (firstn 4 (content (f_r f))) = 4%nat) by (apply firstn_length_le; lia).
      assert (Q := f_equal (firstn 4) E). rewrite !firstn_app, L4, F, Nat.sub_diag in Q.
      rewrite !firstn_O, !app_nil_r in Q.
      rewrite (firstn_all2 (n := 4) (be 4 _)) in Q by lia.
      rewrite (firstn_all2 (n := 4) (firstn 4 _)) in Q by lia.
      rewrite Q in E |- *. apply app_inv_head in E. split; [|assumption].
      rewrite (firstn_skipn 4). reflexivity. }
    destruct X as (t & X & P).
    destruct (read_all_exact _ _ _ B X) as (r1 & R1 & B1 & X1). rewrite be_length in R1.
    rewrite R1. rewrite (frame_hdr p) by lia. rewrite wraps_len by lia.
    assert (length t < length p)%nat.
    { rewrite P, app_length. destruct q; [congruence|cbn; lia]. }
    replace (Z.of_nat (length p) <? 0) with false by lia.
    replace (Z.of_nat (length p) =? 0) with false by lia. rewrite Nat2Z.id.
    destruct (read_all_short r1 (length p) B1) as (r2 & R2 & B2 & X2).
    { rewrite X1. assumption. }
    rewrite R2. eauto.
Qed.

Definition payload_ok (p : bytes) : Prop := p <> [] /\ Z.of_nat (length p) < 2 ^ 31.
(** The reader's state when the bytes of [buf] and the complete frames [ps] are still to be
    read, followed by an incomplete frame. *)
Definition rd_inv (f : framed) (buf : bytes) (ps : list bytes) (tail : bytes) : Prop :=
  b_ok (f_rbuf f) /\ bBytes (f_rbuf f) = buf /\ benign (f_r f) /\
  content (f_r f) = concat (map frame ps) ++ tail /\ Forall payload_ok ps /\ cut tail.

Lemma bRead_nonempty : forall n b, (0 < n)%nat -> b_ok b -> bBytes b <> [] ->
  exists d b', bRead n b = (d, None, b') /\ b_ok b' /\ bBytes b = d ++ bBytes b' /\
    d <> [] /\ (length d <= n)%nat.
Proof.
  intros n b N H E. destruct (bRead_spec n b H) as (b' & H' & B' & R).
  exists (firstn n (bBytes b)), b'. rewrite R. rewrite B', firstn_skipn.
  destruct (bBytes b); [congruence|]. destruct n; [lia|].
  repeat split; auto; try discriminate. apply firstn_le_length.
Qed.

Lemma framed_read_step : forall intw n f buf ps tail, 32 <= intw -> (0 < n)%nat ->
  rd_inv f buf ps tail ->
  match buf ++ concat ps with
  | [] => exists f', framed_read intw n f = ([], Some (ETransport END_OF_FILE), f') /\
          rd_inv f' [] [] []
  | pending => exists d f' buf' ps', framed_read intw n f = (d, None, f') /\ d <> [] /\
          (length d <= n)%nat /\ pending = d ++ buf' ++ concat ps' /\ rd_inv f' buf' ps' tail
  end.
Proof.
  intros intw n f buf ps tail W N (K & Bu & B & X & P & C). unfold framed_read.
  rewrite bLen_bytes, Bu. destruct buf as [|b0 buf0] eqn:Eb; cbn [length app].
  - change (0 <? 0)%nat with false. cbn iota. destruct ps as [|p ps]; cbn [concat map app] in *.
    + rewrite <- X in C. destruct (readFrame_cut intw f W B C) as (r' & -> & B' & X').
      cbn [f_rbuf f_w f_r f_wbuf]. destruct (bRead_spec n _ K) as (rb & Kb & Bb & ->).
      rewrite Bu. rewrite firstn_nil. replace (n =? 0)%nat with false by lia. cbn [transport_exc_from_os typeid_int].
      eexists. split; [reflexivity|]. unfold rd_inv. cbn [f_rbuf f_r]. rewrite Bb, Bu, skipn_nil.
      repeat split; auto. apply cut_nil.
    + inversion P as [|? ? [P1 P2] Pr]; subst. rewrite <- app_assoc in X.
      assert (Lp : 0 < Z.of_nat (length p)) by (destruct p; [congruence|cbn [length]; lia]).
      destruct (readFrame_whole intw f p _ W B ltac:(lia) X) as (r' & -> & B' & X').
      cbn [f_rbuf f_w f_r f_wbuf].
      destruct (bRead_nonempty n (bNew p) N (bNew_ok p) P1) as (d & rb & -> & Kb & Eb & D & L).
      rewrite bBytes_new in Eb.
      destruct p as [|p0 p']; [congruence|]. cbn [app].
      exists d. eexists. exists (bBytes rb), ps. split; [reflexivity|].
      repeat split; auto. rewrite app_assoc, <- Eb. reflexivity.
  - replace (0 <? S (length buf0))%nat with true by lia. cbn iota.
    assert (NE : bBytes (f_rbuf f) <> []) by (rewrite Bu; discriminate).
    destruct (bRead_nonempty n _ N K NE) as (d & rb & -> & Kb & E & D & L). cbn [transport_exc_from_os].
    replace (0 <? length d)%nat with true by (destruct d; [congruence|cbn [length]; lia]). cbn iota.
    exists d. eexists. exists (bBytes rb), ps. split; [reflexivity|].
    rewrite Bu in E. split; [assumption|]. split; [assumption|].
    split; [rewrite app_assoc, <- E; reflexivity|].
    unfold rd_inv; cbn [f_rbuf f_r]. auto 8.
Qed.

(** ** Sequences of reads *)
Fixpoint framed_reads (intw : Z) (ns : list nat) (f : framed) : list (bytes * option err) * framed :=
  match ns with
  | [] => ([], f)
  | n :: ns' =>
    let '(d, e, f1) := framed_read intw n f in
    let '(l, f2) := framed_reads intw ns' f1 in ((d, e) :: l, f2)
  end.

(** Successive results of Read calls with buffers of the sizes [ns] on a stream of which [rem]
    is unread: progress while there is data, END_OF_FILE and no data afterwards. *)
Fixpoint stream_reads (rem : bytes) (ns : list nat) (res : list (bytes * option err)) : Prop :=
  match ns, res with
  | [], [] => True
  | n :: ns', (d, e) :: res' =>
    match rem with
    | [] => d = [] /\ e = Some (ETransport END_OF_FILE) /\ stream_reads [] ns' res'
    | _ => e = None /\ d <> [] /\ (length d <= n)%nat /\
           exists rem', rem = d ++ rem' /\ stream_reads rem' ns' res'
    end
  | _, _ => False
  end.

Lemma framed_reads_spec : forall intw ns f buf ps tail, 32 <= intw -> Forall (fun n => 0 < n)%nat ns ->
  rd_inv f buf ps tail -> stream_reads (buf ++ concat ps) ns (fst (framed_reads intw ns f)).
Proof.
  induction ns as [|n ns IH]; intros f buf ps tail W N I; [exact Logic.I|].
  inversion N; subst. cbn [framed_reads].
  pose proof (framed_read_step intw n f buf ps tail W H1 I) as St.
  destruct (buf ++ concat ps) as [|c pend] eqn:E.
  - destruct St as (f' & -> & I'). specialize (IH f' _ _ _ W H2 I').
    destruct (framed_reads intw ns f') as [l f2]. cbn. auto.
  - destruct St as (d & f' & buf' & ps' & -> & D & L & Q & I'). specialize (IH f' _ _ _ W H2 I').
    destruct (framed_reads intw ns f') as [l f2]. cbn [fst stream_reads]. eauto 8.
Qed.

(** ReadAll on such a reader. *)
Lemma framed_read_all_spec : forall intw n fuel got e f buf ps tail, 32 <= intw -> (n <= fuel)%nat ->
  rd_inv f buf ps tail ->
  if (n <=? length (buf ++ concat ps))%nat then
    exists f' buf' ps' e', read_all_via (framed_read intw) fuel n got e f =
        (Z.of_nat (got + n), firstn n (buf ++ concat ps), e', f') /\
      (e = None -> e' = None) /\
      rd_inv f' buf' ps' tail /\ buf' ++ concat ps' = skipn n (buf ++ concat ps)
  else
    exists d f', read_all_via (framed_read intw) fuel n got e f =
        (0, d, Some (ETransport UNKNOWN_TRANSPORT_EXCEPTION), f') /\ d = buf ++ concat ps.
Proof.
  intros intw n fuel. revert n. induction fuel as [|fuel IH]; intros n got e f buf ps tail W F I.
  - replace n with O by lia. cbn [Nat.leb read_all_via firstn skipn]. rewrite Nat.add_0_r.
    exists f, buf, ps, e. auto.
  - destruct n as [|n].
    + cbn [Nat.leb read_all_via firstn skipn]. rewrite Nat.add_0_r. exists f, buf, ps, e. auto.
    + cbn [read_all_via].
      pose proof (framed_read_step intw (S n) f buf ps tail W ltac:(lia) I) as St.
      destruct (buf ++ concat ps) as [|c pend] eqn:E.
      * destruct St as (f' & -> & I'). cbn. eauto.
      * destruct St as (d & f' & buf' & ps' & -> & D & L & Q & I').
        destruct d as [|d0 d']; [congruence|]. set (d := d0 :: d') in *.
        assert (Ld : (0 < length d)%nat) by (subst d; cbn; lia).
        specialize (IH (S n - length d)%nat (got + length d)%nat None f' buf' ps' tail W ltac:(lia) I').
        rewrite Q, app_length.
        destruct (Nat.leb_spec (S n) (length d + length (buf' ++ concat ps'))) as [Hn|Hn].
        -- replace (S n - length d <=? length (buf' ++ concat ps'))%nat with true in IH by lia.
           destruct IH as (f2 & b2 & p2 & e2 & -> & En & I2 & Q2).
           exists f2, b2, p2, e2. split; [|split; [|split]].
           ++ rewrite (firstn_app (S n) d), (firstn_all2 d) by lia.
              replace (got + length d + (S n - length d))%nat with (got + S n)%nat by lia. reflexivity.
           ++ intros _. apply En; reflexivity.
           ++ assumption.
           ++ rewrite Q2, (skipn_app (S n) d), (skipn_all2 d) by lia. reflexivity.
        -- replace (S n - length d <=? length (buf' ++ concat ps'))%nat with false in IH by lia.
           destruct IH as (d2 & f2 & -> & ->). eauto.
Qed.

(** ** Writing *)
Inductive fop : Type := FWrite (p : bytes) | FFlush.
Definition framed_op (o : fop) (f : framed) : option err * framed :=
  match o with
  | FWrite p => let '(_, e, f1) := framed_write p f in (e, f1)
  | FFlush => framed_flush None f
  end.
Fixpoint framed_ops (os : list fop) (f : framed) : list (option err) * framed :=
  match os with
  | [] => ([], f)
  | o :: os' => let '(e, f1) := framed_op o f in
                let '(l, f2) := framed_ops os' f1 in (e :: l, f2)
  end.
(** What a history of writes and flushes amounts to: the payload of each flush, in order, and
    the bytes written since the last one.  [acc] holds the bytes before the history. *)
Fixpoint payloads (acc : bytes) (os : list fop) : list bytes * bytes :=
  match os with
  | [] => ([], acc)
  | FWrite p :: os' => payloads (acc ++ p) os'
  | FFlush :: os' => let '(ps, t) := payloads [] os' in (acc :: ps, t)
  end.

Lemma tefo_some : forall x, transport_exc_from_os (Some x) <> None.
Proof. intros []; discriminate. Qed.
Lemma tefo_none : forall x, transport_exc_from_os x = None -> x = None.
Proof. intros [x|] H; [destruct (tefo_some x H)|reflexivity]. Qed.
Lemma twrite_cases : forall p w n e w', twrite p w = (n, e, w') ->
  (e = None /\ w_out w' = w_out w ++ p) \/
  (exists k, e <> None /\ w_out w' = w_out w ++ firstn k p).
Proof.
  intros p w n e w' H. unfold twrite in H. destruct (w_sched w) as [|[|k e0] s]; pinj H; subst; cbn [w_out].
  - left; auto.
  - left; auto.
  - right. exists k. split; [discriminate|reflexivity].
Qed.

(** Whatever the wrapped transport does: if Flush reports success, exactly one frame with the
    buffered bytes has been added. *)
Lemma framed_flush_spec : forall fe f e f', b_ok (f_wbuf f) -> framed_flush fe f = (e, f') ->
  b_ok (f_wbuf f') /\ f_r f' = f_r f /\ f_rbuf f' = f_rbuf f /\
  (e = None -> w_out (f_w f') = w_out (f_w f) ++ frame (bBytes (f_wbuf f)) /\ bBytes (f_wbuf f') = []).
Proof.
  intros fe f e f' K H. unfold framed_flush in H. rewrite put_uint32_be, bLen_bytes in H.
  unfold frame. set (h := be 4 (Z.of_nat (length (bBytes (f_wbuf f))))) in *.
  destruct (twrite h (f_w f)) as [[n e1] w1] eqn:T. apply twrite_cases in T.
  destruct e1 as [e1|].
  - destruct T as [[T _]|(k & _ & T)]; [discriminate|]. pinj H. subst f' e. cbn [f_wbuf f_r f_rbuf f_w].
    split; [assumption|]. split; [reflexivity|]. split; [reflexivity|].
    intro Q; destruct (tefo_some _ Q).
  - destruct T as [[_ T]|(k & T & _)]; [|congruence].
    cbn [f_wbuf] in H. destruct (0 <? length (bBytes (f_wbuf f)))%nat eqn:E.
    + destruct (bWriteTo_spec (f_wbuf f) w1 K) as (sent & rest & e2 & b' & w2 & R & Kb & Q1 & Q2 & Q3 & Q4).
      rewrite R in H. destruct e2 as [e2|]; pinj H; subst f' e; cbn [f_wbuf f_r f_rbuf f_w];
        (split; [assumption|split; [reflexivity|split; [reflexivity|]]]).
      * intro Q; destruct (tefo_some _ Q).
      * intros _. rewrite Q3, T, <- app_assoc. rewrite Q2, Q1, (Q4 eq_refl), app_nil_r. auto.
    + pinj H; subst f' e; cbn [f_wbuf f_r f_rbuf f_w].
      destruct (bBytes (f_wbuf f)) eqn:Bb; [|discriminate].
      split; [assumption|split; [reflexivity|split; [reflexivity|]]].
      intros _. rewrite T, app_nil_r. auto.
Qed.
Lemma framed_write_spec : forall p f, b_ok (f_wbuf f) ->
  exists f', framed_write p f = (Z.of_nat (length p), None, f') /\ b_ok (f_wbuf f') /\
    f_w f' = f_w f /\ f_r f' = f_r f /\ f_rbuf f' = f_rbuf f /\ bBytes (f_wbuf f') = bBytes (f_wbuf f) ++ p.
Proof.
  intros p f K. unfold framed_write. destruct (bWrite_spec p _ K) as (b' & -> & Kb & Q).
  eexists. split; [reflexivity|]. cbn. auto.
Qed.
Lemma framed_flush_ok : forall f, b_ok (f_wbuf f) -> w_sched (f_w f) = [] ->
  exists f', framed_flush None f = (None, f') /\ w_sched (f_w f') = [].
Proof.
  intros f K S. unfold framed_flush, twrite. rewrite S.
  destruct (0 <? bLen (f_wbuf f))%nat.
  - cbn [f_wbuf]. unfold bWriteTo. destruct (_ <? _)%nat; cbn; eauto.
  - cbn. eauto.
Qed.

Lemma framed_ops_spec : forall os f, b_ok (f_wbuf f) -> w_sched (f_w f) = [] ->
  exists l f', framed_ops os f = (l, f') /\ Forall (eq None) l /\ b_ok (f_wbuf f') /\
    w_out (f_w f') = w_out (f_w f) ++ concat (map frame (fst (payloads (bBytes (f_wbuf f)) os))) /\
    bBytes (f_wbuf f') = snd (payloads (bBytes (f_wbuf f)) os) /\ w_sched (f_w f') = [] /\
    f_r f' = f_r f /\ f_rbuf f' = f_rbuf f.
Proof.
  induction os as [|[p|] os IH]; intros f K S; cbn [framed_ops framed_op payloads].
  - exists [], f. cbn. rewrite app_nil_r. auto 10.
  - destruct (framed_write_spec p f K) as (f1 & -> & K1 & Q1 & Q2 & Q3 & Q4).
    destruct (IH f1 K1) as (l & f' & -> & A & B & C & D & E & F & G); [congruence|].
    exists (None :: l), f'. rewrite Q4, Q1 in *. repeat split; auto; congruence.
  - destruct (framed_flush_ok f K S) as (f1 & Fl & S1). rewrite Fl.
    destruct (framed_flush_spec _ _ _ _ K Fl) as (K1 & Q1 & Q2 & Q). destruct (Q eq_refl) as [Q3 Q4].
    destruct (IH f1 K1 S1) as (l & f' & -> & A & B & C & D & E & F & G).
    exists (None :: l), f'. rewrite Q4 in *. destruct (payloads [] os) as [ps t]. cbn [fst snd map concat] in *.
    rewrite C, Q3, <- app_assoc. repeat split; auto; congruence.
Qed.
