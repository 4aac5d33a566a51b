(** Properties of the framed transport and the memory buffer: C27 - C30. *)
From Coq Require Import ZArith List Bool Lia.
From Coq Require Import ZifyBool ZifyNat.
From Verif Require Import Base Errors Transport Arith TransportProofs Binary BinaryProofs Buffer
  Framed FramedProofs MemBuffer WfDec.
Import ListNotations.
Open Scope Z_scope.

(** ** C27 *)
(** All bytes of a history of writes. *)
Definition written (os : list fop) : bytes :=
  concat (map (fun o => match o with FWrite p => p | FFlush => [] end) os).
(** What the wrapped transport has received at the end of the history. *)
Definition sent (os : list fop) : bytes :=
  w_out (f_w (snd (framed_ops os (NewTFramedTransport (MkWt [] []) [])))).
Definition reader (r : rt) : framed := NewTFramedTransport (MkWt [] []) r.

(** A Flush with nothing written makes the reader report end of file with data to come. *)
Theorem C27_empty_flush_refuted : exists os r,
  written os = [65; 66] /\ benign r /\ content r = sent (os ++ [FFlush]) /\
  fst (framed_reads 64 [8; 8; 8]%nat (reader r)) =
    [([], Some (ETransport END_OF_FILE)); ([65; 66], None); ([], Some (ETransport END_OF_FILE))].
Proof.
  exists [FFlush; FWrite [65; 66]], [([0; 0; 0; 0; 0; 0; 0; 2; 65; 66], None)]. concrete.
Qed.
Print Assumptions C27_empty_flush_refuted.
(** A Read with an empty buffer throws away the rest of the current frame. *)
Theorem C27_empty_read_refuted : exists os r,
  written os = [65; 66; 67] /\ benign r /\ content r = sent (os ++ [FFlush]) /\
  fst (framed_reads 64 [1; 0; 8]%nat (reader r)) =
    [([65], None); ([], None); ([67], None)].
Proof.
  exists [FWrite [65; 66]; FFlush; FWrite [67]],
    [([0; 0; 0; 2; 65; 66; 0; 0; 0; 1; 67], None)]. concrete.
Qed.
Print Assumptions C27_empty_read_refuted.
(** A wrapped transport that returns the last bytes together with io.EOF loses the last
    frame. *)
Theorem C27_data_with_eof_refuted : exists os r,
  written os = [65] /\ content r = sent (os ++ [FFlush]) /\
  fst (framed_reads 64 [8; 8]%nat (reader r)) =
    [([], Some (ETransport END_OF_FILE)); ([], Some (ETransport END_OF_FILE))].
Proof. exists [FWrite [65]], [([0; 0; 0; 1; 65], Some EEof)]. concrete. Qed.
Print Assumptions C27_data_with_eof_refuted.

Lemma payloads_written : forall os acc,
  concat (fst (payloads acc (os ++ [FFlush]))) = acc ++ written os.
Proof.
  induction os as [|[p|] os IH]; intros acc; cbn [app payloads].
  - reflexivity.
  - rewrite IH, <- app_assoc. reflexivity.
  - specialize (IH []). destruct (payloads [] (os ++ [FFlush])) as [ps t]. cbn in *. rewrite IH. reflexivity.
Qed.
Lemma sent_frames : forall os, sent os = concat (map frame (fst (payloads [] os))).
Proof.
  intro os. unfold sent.
  destruct (framed_ops_spec os (NewTFramedTransport (MkWt [] []) []) (bNew_ok []) eq_refl)
    as (l & f' & -> & _ & _ & W & _). exact W.
Qed.
Lemma reader_inv : forall r ps tail, benign r -> content r = concat (map frame ps) ++ tail ->
  Forall payload_ok ps -> cut tail -> rd_inv (reader r) [] ps tail.
Proof. intros. unfold rd_inv, reader. cbn. split; [apply bNew_ok|]. auto. Qed.

Lemma C27_aux : forall intw os r ns, 32 <= intw ->
  Forall payload_ok (fst (payloads [] (os ++ [FFlush]))) ->
  benign r -> content r = sent (os ++ [FFlush]) -> Forall (fun n => 0 < n)%nat ns ->
  stream_reads (written os) ns (fst (framed_reads intw ns (reader r))) /\
  forall n, exists f',
    framed_read_all intw n (reader r) =
      (if (n <=? length (written os))%nat then (Z.of_nat n, firstn n (written os), None, f')
       else (0, written os, Some (ETransport UNKNOWN_TRANSPORT_EXCEPTION), f')).
Proof.
  intros intw os r ns W P B X N. rewrite sent_frames in X.
  pose proof (payloads_written os []) as Q. cbn [app] in Q. rewrite <- Q.
  assert (I : rd_inv (reader r) [] (fst (payloads [] (os ++ [FFlush]))) []).
  { apply reader_inv; auto; [rewrite app_nil_r; assumption|apply cut_nil]. }
  split; [exact (framed_reads_spec intw ns _ _ _ _ W N I)|].
  intro n. pose proof (framed_read_all_spec intw n n 0 None _ _ _ _ W (Nat.le_refl n) I) as A.
  cbn [app] in A. unfold framed_read_all. destruct (n <=? _)%nat.
  - destruct A as (f' & ? & ? & e' & -> & E & _). rewrite (E eq_refl). eauto.
  - destruct A as (d & f' & -> & ->). eauto.
Qed.
(** What holds: with at least one and fewer than 2^31 bytes before every Flush, non-empty read
    buffers, and a wrapped transport that reports the end separately from data, every sequence
    of Reads of any sizes delivers exactly the written bytes in order and then END_OF_FILE, and
    ReadAll delivers exactly the first bytes.  Missing: the three cases above. *)
Theorem C27_framed_stream_partial : forall intw os r ns, 32 <= intw ->
  Forall payload_ok (fst (payloads [] (os ++ [FFlush]))) ->
  benign r -> content r = sent (os ++ [FFlush]) -> Forall (fun n => 0 < n)%nat ns ->
  stream_reads (written os) ns (fst (framed_reads intw ns (reader r))) /\
  forall n, exists f',
    framed_read_all intw n (reader r) =
      (if (n <=? length (written os))%nat then (Z.of_nat n, firstn n (written os), None, f')
       else (0, written os, Some (ETransport UNKNOWN_TRANSPORT_EXCEPTION), f')).
Proof. exact C27_aux. Qed.
Print Assumptions C27_framed_stream_partial.
Example C27_case :
  let os := [FWrite [1; 2]; FWrite [3]; FFlush; FWrite []; FWrite [4; 5; 6; 7]] in
  let r := [([0; 0], None); ([0; 3; 1; 2; 3; 0; 0], None); ([0; 4; 4; 5], None); ([6; 7], None)] in
  Forall payload_ok (fst (payloads [] (os ++ [FFlush]))) /\
  benign r /\ content r = sent (os ++ [FFlush]) /\
  fst (framed_reads 32 [2; 2; 3; 9; 9]%nat (reader r)) =
    [([1; 2], None); ([3], None); ([4; 5; 6], None); ([7], None); ([], Some (ETransport END_OF_FILE))].
Proof.
  cbn zeta. split; [cbn; repeat constructor; (discriminate || (cbn; lia))|]. concrete.
Qed.

(** ** C28 *)
Lemma framed_flush_inner : forall fe f f', framed_flush fe f = (None, f') -> fe = None.
Proof.
  assert (T : forall e, transport_exc_from_os e = None -> e = None) by (intros [[]|]; cbn; congruence).
  assert (T2 : forall e f2 f', (transport_exc_from_os e, f2) = (None : option err, f' : framed) -> e = None)
    by (intros e f2 f' H; apply T; congruence).
  intros fe f f' H. unfold framed_flush in H.
  destruct (twrite _ (f_w f)) as [[n e] w1]. destruct e as [e|].
  - apply T2 in H. discriminate.
  - destruct (0 <? bLen (f_wbuf f))%nat.
    + destruct (bWriteTo _ w1) as [[[n2 e2] wb] w2]. destruct e2 as [e2|].
      * apply T2 in H. discriminate.
      * apply T2 in H. exact H.
    + apply T2 in H. exact H.
Qed.
Lemma C28_aux : forall os w, w_sched w = [] ->
  exists l f', framed_ops os (NewTFramedTransport w []) = (l, f') /\ Forall (eq None) l /\
    w_out (f_w f') = w_out w ++ concat (map frame (fst (payloads [] os))) /\
    bBytes (f_wbuf f') = snd (payloads [] os).
Proof.
  intros os w S. destruct (framed_ops_spec os (NewTFramedTransport w []) (bNew_ok []) S)
    as (l & f' & R & A & _ & B & C & _). exists l, f'. auto.
Qed.
(** For every history the wrapped transport has received one frame per Flush, with exactly the
    bytes written before it since the previous Flush; the rest is still buffered. *)
Theorem C28_framing : forall os w, w_sched w = [] ->
  exists l f', framed_ops os (NewTFramedTransport w []) = (l, f') /\ Forall (eq None) l /\
    w_out (f_w f') = w_out w ++ concat (map frame (fst (payloads [] os))) /\
    bBytes (f_wbuf f') = snd (payloads [] os).
Proof. exact C28_aux. Qed.
Print Assumptions C28_framing.
(** Even when the wrapped transport fails: a Write never touches it, and a Flush reporting
    success has added exactly one frame with everything buffered, and the wrapped transport's
    own Flush succeeded. *)
Theorem C28_framing_with_failures : forall f, b_ok (f_wbuf f) ->
  (forall p, exists f', framed_write p f = (Z.of_nat (length p), None, f') /\ b_ok (f_wbuf f') /\
     f_w f' = f_w f /\ f_r f' = f_r f /\ f_rbuf f' = f_rbuf f /\
     bBytes (f_wbuf f') = bBytes (f_wbuf f) ++ p) /\
  (forall fe e f', framed_flush fe f = (e, f') -> b_ok (f_wbuf f') /\
     f_r f' = f_r f /\ f_rbuf f' = f_rbuf f /\
     (e = None -> w_out (f_w f') = w_out (f_w f) ++ frame (bBytes (f_wbuf f)) /\
                  bBytes (f_wbuf f') = [] /\ fe = None)).
Proof.
  intros f K. split.
  - intro p. exact (framed_write_spec p f K).
  - intros fe e f' H. destruct (framed_flush_spec fe f e f' K H) as (A & B & C & D).
    split; [exact A|]. split; [exact B|]. split; [exact C|]. intros E. destruct (D E) as [D1 D2].
    split; [exact D1|]. split; [exact D2|]. exact (framed_flush_inner fe f f' ltac:(congruence)).
Qed.
Print Assumptions C28_framing_with_failures.
Example C28_case :
  let os := [FWrite [7]; FWrite [8; 9]; FFlush; FFlush; FWrite [1]] in
  payloads [] os = ([[7; 8; 9]; []], [1]) /\
  sent os = [0; 0; 0; 3; 7; 8; 9; 0; 0; 0; 0] /\
  fst (framed_flush (Some (EOther 5)) (NewTFramedTransport (MkWt [] [WOk]) [])) = Some (ETransport 0).
Proof. vm_compute. auto. Qed.

(** ** C29 *)
(** A (0, nil) Read of the wrapped transport inside a frame: made-up bytes are delivered. *)
Theorem C29_broken_frame_refuted : exists r,
  content r = [0; 0; 0; 3; 65] /\
  fst (framed_reads 64 [8; 8]%nat (reader r)) =
    [([65; 0; 0], None); ([], Some (ETransport END_OF_FILE))].
Proof. exists [([0; 0; 0; 3; 65], None); ([], None)]. concrete. Qed.
Print Assumptions C29_broken_frame_refuted.
Lemma C29_aux : forall intw ps tail r ns, 32 <= intw -> Forall payload_ok ps -> cut tail ->
  benign r -> content r = concat (map frame ps) ++ tail -> Forall (fun n => 0 < n)%nat ns ->
  stream_reads (concat ps) ns (fst (framed_reads intw ns (reader r))).
Proof.
  intros intw ps tail r ns W P C B X N.
  exact (framed_reads_spec intw ns _ _ _ _ W N (reader_inv r ps tail B X P C)).
Qed.
(** What holds: a stream cut off anywhere inside a frame, for every chunking without (0, nil)
    reads: the complete frames are delivered, then every Read reports END_OF_FILE and delivers
    nothing of the incomplete frame.  Missing: (0, nil) reads. *)
Theorem C29_broken_frame_partial : forall intw ps tail r ns,
  32 <= intw -> Forall payload_ok ps -> cut tail ->
  benign r -> content r = concat (map frame ps) ++ tail -> Forall (fun n => 0 < n)%nat ns ->
  stream_reads (concat ps) ns (fst (framed_reads intw ns (reader r))).
Proof. exact C29_aux. Qed.
Print Assumptions C29_broken_frame_partial.
(** Where int has 32 bits, a length of 2^31 or more makes Read fail too. *)
Lemma C29_aux2 : forall n b0 b1 b2 b3 rest r, (0 < n)%nat -> is_bytes [b0; b1; b2; b3] -> 128 <= b0 ->
  benign r -> content r = [b0; b1; b2; b3] ++ rest ->
  exists f', framed_read 32 n (reader r) = ([], Some (ETransport END_OF_FILE), f').
Proof.
  intros n b0 b1 b2 b3 rest r N H L B X. unfold framed_read.
  change (0 <? bLen (f_rbuf (reader r)))%nat with false. cbn iota. unfold readFrame, reader, NewTFramedTransport. cbn [f_r].
  destruct (read_all_exact _ _ _ B X) as (r1 & R1 & B1 & X1). cbn [length] in R1. rewrite R1.
  rewrite be_uint32_unbe by assumption.
  assert (Q : wraps 32 (unbe [b0; b1; b2; b3]) <? 0 = true).
  { unfold is_bytes, is_byte in H.
    assert (Hb : (0 <= b0 < 256) /\ (0 <= b1 < 256) /\ (0 <= b2 < 256) /\ (0 <= b3 < 256)).
    { inversion H as [|? ? H0 Ha]; subst. inversion Ha as [|? ? H1 Hb]; subst.
      inversion Hb as [|? ? H2 Hc]; subst. inversion Hc as [|? ? H3 Hd]; subst. auto. }
    cbn [unbe length]. change (256 ^ Z.of_nat 3) with 16777216. change (256 ^ Z.of_nat 2) with 65536.
    change (256 ^ Z.of_nat 1) with 256. change (256 ^ Z.of_nat 0) with 1.
    set (u := b0 * 16777216 + (b1 * 65536 + (b2 * 256 + (b3 * 1 + 0)))).
    assert (U : 2 ^ 31 <= u < 2 ^ 32) by (subst u; lia). clearbody u.
    unfold wraps. rewrite (Z.mod_small u) by lia. change (32 - 1) with 31.
    replace (u <? 2 ^ 31) with false by lia. lia. }
  rewrite Q. cbn [f_rbuf f_w f_r f_wbuf]. unfold bRead. cbn [length b_buf b_off Nat.leb].
  destruct n; [lia|]. cbn. eauto.
Qed.
Theorem C29_negative_size_32bit : forall n b0 b1 b2 b3 rest r,
  (0 < n)%nat -> is_bytes [b0; b1; b2; b3] -> 128 <= b0 ->
  benign r -> content r = [b0; b1; b2; b3] ++ rest ->
  exists f', framed_read 32 n (reader r) = ([], Some (ETransport END_OF_FILE), f').
Proof. exact C29_aux2. Qed.
Print Assumptions C29_negative_size_32bit.
Example C29_case : cut [0; 0; 0; 3; 65; 66] /\ cut [0; 0] /\
  fst (framed_reads 64 [2; 2; 2]%nat (reader [([0; 0; 0; 1; 9; 0; 0; 0; 3; 65], None); ([66], None)])) =
    [([9], None); ([], Some (ETransport END_OF_FILE)); ([], Some (ETransport END_OF_FILE))].
Proof.
  split; [|split].
  - exists [65; 66; 67], [67]. split; [cbn; lia|]. split; [vm_compute; reflexivity|discriminate].
  - exists [65], [0; 1; 65]. split; [cbn; lia|]. split; [vm_compute; reflexivity|discriminate].
  - vm_compute; reflexivity.
Qed.

(** ** C30 *)
(** A queue of bytes as a specification: what each call may do to the queue [q]. *)
Definition queue_step (o : mop) (q : bytes) (x : mres) (q' : bytes) : Prop :=
  match o with
  | MOpen | MFlush => x = MkRes [] 0 None /\ q' = q
  | MIsOpen | MPeek => x = MkRes [] 1 None /\ q' = q
  | MLen => x = MkRes [] (Z.of_nat (length q)) None /\ q' = q
  | MBytes => x = MkRes q (Z.of_nat (length q)) None /\ q' = q
  | MRead n =>
    (* takes the first n bytes, fewer if there are fewer; end of file only when empty *)
    m_data x = firstn n q /\ q' = skipn n q /\ m_num x = Z.of_nat (length (m_data x)) /\
    (m_err x = None \/ m_err x = Some EEof) /\ (m_err x = Some EEof <-> q = [] /\ (0 < n)%nat)
  | MReadAll n =>
    m_data x = firstn n q /\ q' = skipn n q /\
    if (n <=? length q)%nat then m_num x = Z.of_nat n /\ m_err x = None
    else m_num x = 0 /\ m_err x = Some (ETransport UNKNOWN_TRANSPORT_EXCEPTION)
  | MReadByte =>
    match q with
    | [] => x = MkRes [] 0 (Some EEof) /\ q' = []
    | b :: q0 => x = MkRes [b] b None /\ q' = q0
    end
  | MWrite p | MWriteString p => x = MkRes [] (Z.of_nat (length p)) None /\ q' = q ++ p
  | MReadFrom r =>
    (* everything up to the first error; only io.EOF is no error *)
    q' = q ++ fst (upto_error r) /\ m_data x = [] /\
    m_num x = Z.of_nat (length (fst (upto_error r))) /\
    m_err x = match snd (upto_error r) with EEof => None | e => Some e end
  | MWriteTo w =>
    q = m_data x ++ q' /\ m_num x = Z.of_nat (length (m_data x)) /\ (m_err x = None -> q' = [])
  | MReset | MClose => x = MkRes [] 0 None /\ q' = []
  end.
Fixpoint queue_run (q : bytes) (os : list mop) (xs : list mres) (q' : bytes) : Prop :=
  match os, xs with
  | [], [] => q' = q
  | o :: os', x :: xs' => exists q1, queue_step o q x q1 /\ queue_run q1 os' xs' q'
  | _, _ => False
  end.

Lemma mem_read_from : forall r b, b_ok b ->
  exists b' r', bReadFrom r b =
      (Z.of_nat (length (fst (upto_error r))),
       match snd (upto_error r) with EEof => None | e => Some e end, b', r') /\
    b_ok b' /\ bBytes b' = bBytes b ++ fst (upto_error r).
Proof.
  induction r as [|[bs e] r IH]; intros b H; cbn [bReadFrom].
  - exists b, []. cbn. rewrite app_nil_r. auto.
  - destruct (bWrite_spec bs b H) as (b1 & -> & H1 & B1).
    set (b2 := match bs with [] => b | _ => b1 end).
    assert (H2 : b_ok b2 /\ bBytes b2 = bBytes b ++ bs).
    { subst b2. destruct bs; [rewrite app_nil_r; auto|auto]. }
    destruct H2 as [H2 B2]. destruct e as [e|]; cbn [upto_error fst snd].
    + exists b2, r. destruct e; auto.
    + destruct (IH b2 H2) as (b' & r' & -> & K & B). exists b', r'.
      rewrite app_length, Nat2Z.inj_add. split; [reflexivity|]. split; [assumption|].
      rewrite B, B2, app_assoc. reflexivity.
Qed.
Lemma mem_read_all : forall n fuel got e b, b_ok b -> (n <= fuel)%nat ->
  exists c e' b', read_all_via bRead fuel n got e b = (c, firstn n (bBytes b), e', b') /\ b_ok b' /\
    bBytes b' = skipn n (bBytes b) /\
    if (n <=? length (bBytes b))%nat then c = Z.of_nat (got + n) /\ (e = None -> e' = None)
    else c = 0 /\ e' = Some (ETransport UNKNOWN_TRANSPORT_EXCEPTION).
Proof.
  intros n fuel. revert n. induction fuel as [|fuel IH]; intros n got e b K F.
  - replace n with O by lia. exists (Z.of_nat got), e, b. rewrite Nat.add_0_r. cbn. auto.
  - destruct n as [|n].
    + exists (Z.of_nat got), e, b. rewrite Nat.add_0_r. cbn. auto.
    + cbn [read_all_via]. destruct (bRead_spec (S n) b K) as (b1 & K1 & B1 & R). rewrite R.
      destruct (bBytes b) as [|c0 q] eqn:Q.
      * cbn. eexists _, _, b1. split; [reflexivity|]. split; [assumption|].
        split; [rewrite B1; reflexivity|]. auto.
      * set (d := firstn (S n) (c0 :: q)) in *.
        assert (D : d <> []) by (subst d; discriminate). assert (Ld : (0 < length d)%nat) by (subst d; cbn; lia).
        destruct d as [|d0 d'] eqn:Ed; [congruence|]. rewrite <- Ed in *. fold d.
        assert (L1 : (length d <= S n)%nat) by (subst d; apply firstn_le_length).
        destruct (IH (S n - length d)%nat (got + length d)%nat None b1 K1 ltac:(lia))
          as (c & e' & b' & -> & K' & B' & H). rewrite B1 in *.
        destruct (Nat.le_gt_cases (S n) (length (c0 :: q))) as [Hn|Hn].
        -- assert (Ln : length d = S n) by (subst d; apply firstn_length_le; lia).
           rewrite Ln, Nat.sub_diag in *. cbn [firstn] in *. rewrite app_nil_r.
           exists c, e', b'. split; [reflexivity|]. split; [assumption|].
           split; [exact B'|]. replace (S n <=? length (c0 :: q))%nat with true by lia.
           cbn [Nat.leb] in H. rewrite Nat.add_0_r in H. destruct H as [-> H]. auto.
        -- assert (Ln : length d = length (c0 :: q)) by (subst d; rewrite firstn_all2 by lia; reflexivity).
           rewrite (skipn_all2 (n := S n) (c0 :: q)) in * by lia.
           rewrite firstn_nil, skipn_nil in *. rewrite app_nil_r.
           exists c, e', b'. split; [reflexivity|]. split; [assumption|]. split; [assumption|].
           replace (S n <=? length (c0 :: q))%nat with false by lia.
           replace (S n - length d <=? length (@nil Z))%nat with false in H by (cbn [length]; lia).
           exact H.
Qed.

Lemma mem_step : forall o b, b_ok b ->
  exists x b', mem_op o b = (x, b') /\ b_ok b' /\ queue_step o (bBytes b) x (bBytes b').
Proof.
  intros o b K. destruct o; cbn [mem_op queue_step];
    try (eexists _, _; split; [reflexivity|]; split; [assumption|]; auto; fail).
  - eexists _, _; split; [reflexivity|]; split; [assumption|]. rewrite bLen_bytes. auto.
  - destruct (bRead_spec n b K) as (b' & K' & B' & ->). eexists _, _; split; [reflexivity|].
    split; [assumption|]. cbn [m_data m_num m_err]. rewrite B'. repeat split; auto.
    + destruct (bBytes b); [|auto]. destruct (n =? 0)%nat; auto.
    + destruct (bBytes b); [reflexivity|discriminate].
    + destruct (bBytes b); [|discriminate]. destruct n; [discriminate|lia].
    + intros [-> N]. destruct n; [lia|reflexivity].
  - destruct (mem_read_all n n 0 None b K (Nat.le_refl n)) as (c & e & b' & -> & K' & B' & H).
    eexists _, _; split; [reflexivity|]. split; [assumption|]. cbn [m_data m_num m_err].
    rewrite B'. split; [reflexivity|]. split; [reflexivity|].
    destruct (n <=? _)%nat; [destruct H as [-> H]; auto|assumption].
  - pose proof (bReadByte_spec b K) as H. destruct (bBytes b); destruct H as (b' & -> & K' & B');
      eexists _, _; (split; [reflexivity|]); (split; [assumption|]); rewrite B'; auto.
  - destruct (mem_read_from r b K) as (b' & r' & -> & K' & B').
    eexists _, _; split; [reflexivity|]. split; [assumption|]. auto.
  - destruct (bWrite_spec p b K) as (b' & -> & K' & B').
    eexists _, _; split; [reflexivity|]. split; [assumption|]. auto.
  - destruct (bWrite_spec p b K) as (b' & -> & K' & B').
    eexists _, _; split; [reflexivity|]. split; [assumption|]. auto.
  - destruct (bWriteTo_spec b w K) as (s & rest & e & b' & w' & -> & K' & Q1 & Q2 & Q3 & Q4).
    eexists _, _; split; [reflexivity|]. split; [assumption|]. cbn [m_data m_num m_err].
    rewrite Q3, skipn_app, skipn_all2, Nat.sub_diag by lia. cbn [app skipn]. rewrite Q2. auto.
  - eexists _, _; split; [reflexivity|]. split; [apply bReset_ok|]. auto.
  - eexists _, _; split; [reflexivity|]. split; [apply bReset_ok|]. auto.
Qed.
Lemma C30_aux : forall os b, b_ok b ->
  exists xs b', mem_ops os b = (xs, b') /\ queue_run (bBytes b) os xs (bBytes b').
Proof.
  induction os as [|o os IH]; intros b K; cbn [mem_ops].
  - exists [], b. split; reflexivity.
  - destruct (mem_step o b K) as (x & b1 & -> & K1 & Q1).
    destruct (IH b1 K1) as (xs & b' & -> & Q). exists (x :: xs), b'. cbn. eauto.
Qed.
(** Every history of calls on a new buffer behaves like a queue. *)
Theorem C30_memory_buffer_fifo : forall os,
  exists xs b', mem_ops os NewTMemoryBuffer = (xs, b') /\ queue_run [] os xs (bBytes b').
Proof. intro os. exact (C30_aux os NewTMemoryBuffer (bNew_ok [])). Qed.
Print Assumptions C30_memory_buffer_fifo.

(** Reads and writes only: what came out, followed by what is left, is what went in. *)
Definition put_get (o : mop) : Prop := match o with MWrite _ | MRead _ | MReadAll _ | MReadByte => True | _ => False end.
Lemma C30_aux2 : forall os q xs q', Forall put_get os -> queue_run q os xs q' ->
  concat (map m_data xs) ++ q' = q ++ concat (map (fun o => match o with MWrite p => p | _ => [] end) os).
Proof.
  induction os as [|o os IH]; intros q xs q' P H; destruct xs as [|x xs]; try contradiction.
  - cbn in *. subst. now rewrite app_nil_r.
  - inversion P as [|? ? Po Ps]; subst. destruct H as (q1 & Hs & H). specialize (IH _ _ _ Ps H).
    cbn [map concat]. rewrite <- app_assoc, IH.
    destruct o; try contradiction; cbn [queue_step] in Hs.
    + destruct Hs as (-> & -> & _). cbn [app]. rewrite app_assoc, firstn_skipn. reflexivity.
    + destruct Hs as (-> & -> & _). cbn [app]. rewrite app_assoc, firstn_skipn. reflexivity.
    + destruct q; destruct Hs as [-> ->]; reflexivity.
    + destruct Hs as [-> ->]. cbn [m_data app]. rewrite <- app_assoc. reflexivity.
Qed.
Theorem C30_bytes_in_order_once : forall os, Forall put_get os ->
  exists xs b', mem_ops os NewTMemoryBuffer = (xs, b') /\
    concat (map m_data xs) ++ bBytes b' =
    concat (map (fun o => match o with MWrite p => p | _ => [] end) os).
Proof.
  intros os P. destruct (C30_memory_buffer_fifo os) as (xs & b' & R & Q). exists xs, b'.
  split; [assumption|]. exact (C30_aux2 os [] xs _ P Q).
Qed.
Print Assumptions C30_bytes_in_order_once.
Example C30_case :
  let os := [MWrite [1; 2; 3]; MRead 2; MWrite [4]; MReadByte; MReadAll 1; MRead 5; MWrite [5]; MReadAll 2] in
  Forall put_get os /\
  map m_data (fst (mem_ops os NewTMemoryBuffer)) = [[]; [1; 2]; []; [3]; [4]; []; []; [5]] /\
  map m_err (fst (mem_ops os NewTMemoryBuffer)) =
    [None; None; None; None; None; Some EEof; None; Some (ETransport 0)].
Proof. cbn zeta. split; [repeat constructor|]. concrete. Qed.
