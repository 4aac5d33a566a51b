(** Go's bytes.Buffer as the transports use it (bytes/buffer.go of the Go 1 library): the
    slice and the read offset. *)
From Coq Require Import ZArith List Bool Lia.
From Coq Require Import ZifyBool ZifyNat.
From Verif Require Import Base Transport.
Import ListNotations.
Open Scope Z_scope.

Record buffer : Type := MkBuf { b_buf : bytes; b_off : nat }.
(** bytes.NewBuffer(buf) and &bytes.Buffer{} *)
Definition bNew (bs : bytes) : buffer := MkBuf bs 0.
(** Len *)
Definition bLen (b : buffer) : nat := length (b_buf b) - b_off b.
(** Bytes and String: b.buf[b.off:] *)
Definition bBytes (b : buffer) : bytes := skipn (b_off b) (b_buf b).
(** Truncate(0) and Reset *)
Definition bReset (b : buffer) : buffer := MkBuf [] 0.
(** Write and WriteString.  [grow] first resets an empty buffer.
    Simplification: when the capacity is exhausted Go also slides the unread bytes to the front;
    here they stay, with the same [bBytes]. *)
Definition bWrite (p : bytes) (b : buffer) : Z * option err * buffer :=
  let b' := if ((bLen b =? 0) && negb (b_off b =? 0))%nat then bReset b else b in
  (Z.of_nat (length p), None, MkBuf (b_buf b' ++ p) (b_off b')).
(** Read(p) with len(p) = n *)
Definition bRead (n : nat) (b : buffer) : bytes * option err * buffer :=
  if (length (b_buf b) <=? b_off b)%nat
  then ([], if (n =? 0)%nat then None else Some EEof, bReset b)
  else let got := firstn n (bBytes b) in (got, None, MkBuf (b_buf b) (b_off b + length got)).
(** ReadByte *)
Definition bReadByte (b : buffer) : Z * option err * buffer :=
  if (length (b_buf b) <=? b_off b)%nat then (0, Some EEof, bReset b)
  else (at_ (b_off b) (b_buf b), None, MkBuf (b_buf b) (S (b_off b))).
(** WriteTo(w).  Simplification: Go also maps a short write without an error to io.ErrShortWrite;
    [twrite] has no such writes. *)
Definition bWriteTo (b : buffer) (w : wt) : Z * option err * buffer * wt :=
  if (b_off b <? length (b_buf b))%nat then
    let '(m, e, w') := twrite (bBytes b) w in
    let b' := MkBuf (b_buf b) (b_off b + Z.to_nat m) in
    match e with
    | Some e => (m, Some e, b', w')
    | None => (m, None, bReset b', w')
    end
  else (0, None, bReset b, w).
(** ReadFrom(r): reads until io.EOF or another error; the number of bytes read. *)
Fixpoint bReadFrom (r : rt) (b : buffer) : Z * option err * buffer * rt :=
  match r with
  | [] => (0, None, b, [])
  | (bs, e) :: r' =>
    let '(_, _, b1) := bWrite bs b in
    let b1 := match bs with [] => b | _ => b1 end in
    match e with
    | Some EEof => (Z.of_nat (length bs), None, b1, r')
    | Some e => (Z.of_nat (length bs), Some e, b1, r')
    | None => let '(n, e', b2, r2) := bReadFrom r' b1 in (Z.of_nat (length bs) + n, e', b2, r2)
    end
  end.

(** ** Lemmas *)
(** The invariant b.off <= len(b.buf). *)
Definition b_ok (b : buffer) : Prop := (b_off b <= length (b_buf b))%nat.

Lemma bNew_ok : forall bs, b_ok (bNew bs). Proof. intros; unfold b_ok; cbn; lia. Qed.
Lemma bReset_ok : forall b, b_ok (bReset b). Proof. intros; unfold b_ok; cbn; lia. Qed.
Lemma bBytes_new : forall bs, bBytes (bNew bs) = bs. Proof. reflexivity. Qed.
Lemma bLen_bytes : forall b, bLen b = length (bBytes b).
Proof. intros; unfold bLen, bBytes; rewrite skipn_length; lia. Qed.
Lemma bEmpty : forall b, b_ok b -> (length (b_buf b) <=? b_off b)%nat = true -> bBytes b = [].
Proof.
  intros b H E. unfold bBytes. apply skipn_all2. lia.
Qed.

Lemma bWrite_spec : forall p b, b_ok b ->
  exists b', bWrite p b = (Z.of_nat (length p), None, b') /\ b_ok b' /\ bBytes b' = bBytes b ++ p.
Proof.
  intros p b H. unfold bWrite. eexists. split; [reflexivity|].
  destruct ((bLen b =? 0)%nat && negb (b_off b =? 0)%nat) eqn:E.
  - rewrite andb_true_iff, Nat.eqb_eq in E. destruct E as [E _]. split; [apply bNew_ok|].
    rewrite bLen_bytes in E. apply length_zero_iff_nil in E. rewrite E. reflexivity.
  - split; [unfold b_ok in *; cbn; rewrite app_length; lia|].
    unfold bBytes; cbn [b_buf b_off]. rewrite skipn_app.
    replace (b_off b - length (b_buf b))%nat with O by (unfold b_ok in H; lia). reflexivity.
Qed.

Lemma bRead_spec : forall n b, b_ok b ->
  exists b', b_ok b' /\ bBytes b' = skipn n (bBytes b) /\
    bRead n b = (firstn n (bBytes b),
                 match bBytes b with [] => if (n =? 0)%nat then None else Some EEof | _ => None end, b').
Proof.
  intros n b H. unfold bRead. destruct (length (b_buf b) <=? b_off b)%nat eqn:E.
  - rewrite (bEmpty b H E). exists (bReset b). rewrite firstn_nil, skipn_nil.
    split; [apply bReset_ok|]. split; reflexivity.
  - exists (MkBuf (b_buf b) (b_off b + length (firstn n (bBytes b)))). split; [|split; [|]].
    3: { cbv zeta. assert (L := bLen_bytes b). destruct (bBytes b) eqn:B; [|reflexivity].
         cbn in L. unfold bLen in L. lia. }
    + unfold b_ok in *; cbn. assert (L := bLen_bytes b). unfold bLen in L.
      rewrite firstn_length. lia.
    + unfold bBytes; cbn [b_buf b_off]. rewrite firstn_length, skipn_length.
      assert (G : forall (l : bytes) a b, skipn b (skipn a l) = skipn (a + b) l).
      { clear. induction l as [|x l IH]; intros a b; [rewrite !skipn_nil; reflexivity|].
        destruct a; [reflexivity|]. cbn. apply IH. }
      rewrite G. destruct (Nat.le_gt_cases n (length (b_buf b) - b_off b)).
      * f_equal. lia.
      * rewrite !skipn_all2 by lia. reflexivity.
Qed.

Lemma bReadByte_spec : forall b, b_ok b ->
  match bBytes b with
  | [] => exists b', bReadByte b = (0, Some EEof, b') /\ b_ok b' /\ bBytes b' = []
  | c :: rest => exists b', bReadByte b = (c, None, b') /\ b_ok b' /\ bBytes b' = rest
  end.
Proof.
  intros b H. unfold bReadByte. destruct (length (b_buf b) <=? b_off b)%nat eqn:E.
  - rewrite (bEmpty b H E). exists (bReset b). split; [reflexivity|]. split; [apply bReset_ok|reflexivity].
  - unfold bBytes, at_, b_ok in *. destruct b as [buf off]; cbn [b_buf b_off] in *.
    assert (L : (off < length buf)%nat) by lia. clear E H.
    revert off L. induction buf as [|x buf IH]; intros off L; [cbn in L; lia|].
    destruct off as [|off].
    + cbn [skipn nth]. exists (MkBuf (x :: buf) 1). cbn. repeat split. lia.
    + cbn [skipn]. cbn in L. specialize (IH off ltac:(lia)). destruct (skipn off buf).
      * destruct IH as (b' & Q & _). discriminate.
      * destruct IH as (b' & Q & K1 & K2). cbn [nth] in *. apply pair_equal_spec in Q.
        destruct Q as [Q Q2]. apply pair_equal_spec in Q. destruct Q as [Q _]. subst b'.
        exists (MkBuf (x :: buf) (S (S off))). rewrite Q. cbn in *. repeat split; [lia|assumption].
Qed.

Lemma bWriteTo_spec : forall b w, b_ok b ->
  exists sent rest e b' w', bWriteTo b w = (Z.of_nat (length sent), e, b', w') /\ b_ok b' /\
    bBytes b = sent ++ rest /\ bBytes b' = rest /\ w_out w' = w_out w ++ sent /\
    (e = None -> rest = []).
Proof.
  intros b w H. unfold bWriteTo. destruct (b_off b <? length (b_buf b))%nat eqn:E.
  - unfold twrite. destruct (w_sched w) as [|[|k e] sch].
    + exists (bBytes b), []. eexists _, _, _. split; [reflexivity|].
      rewrite app_nil_r. repeat split; auto; cbn; apply Nat.le_refl.
    + exists (bBytes b), []. eexists _, _, _. split; [reflexivity|].
      rewrite app_nil_r. repeat split; auto; cbn; apply Nat.le_refl.
    + exists (firstn k (bBytes b)), (skipn k (bBytes b)). eexists _, _, _. split; [reflexivity|].
      rewrite firstn_skipn, Nat2Z.id. cbn [w_out].
      assert (L := bLen_bytes b). unfold bLen in L.
      split; [|split; [|split; [|split]]]; auto.
      * unfold b_ok in *; cbn. rewrite firstn_length. lia.
      * unfold bBytes; cbn [b_buf b_off]. rewrite firstn_length, skipn_length.
        assert (G : forall (l : bytes) a b, skipn b (skipn a l) = skipn (a + b) l).
        { clear. induction l as [|x l IH]; intros a b; [rewrite !skipn_nil; reflexivity|].
          destruct a; [reflexivity|]. cbn. apply IH. }
        rewrite G. destruct (Nat.le_gt_cases k (length (b_buf b) - b_off b)).
        -- f_equal. lia.
        -- rewrite !skipn_all2 by lia. reflexivity.
      * discriminate.
  - exists [], [], None, (bReset b), w. split; [reflexivity|]. rewrite !app_nil_r.
    split; [apply bReset_ok|]. split; [apply bEmpty; [assumption|lia]|]. auto.
Qed.
