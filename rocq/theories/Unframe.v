(** What arrives over TFramedTransport, whatever it is, as a plain input: its frames, and an error for each that is broken. *)
From Coq Require Import ZArith List Bool Lia.
From Coq Require Import ZifyBool ZifyNat.
From Verif Require Import Base Errors Arith Transport TransportProofs Proto Buffer Framed Binary Compact Over Het OverSim OverInst.
Import ListNotations.
Open Scope Z_scope.

(** The next frame, if it is whole and not empty, and what is left.  [intw]: the width of Go's int, for the length. *)
Definition next_frame (intw : Z) (r : rt) : option bytes * rt :=
  let '(_, head, e, r1) := read_all 4 r in
  match e with
  | Some _ => (None, r1)
  | None =>
    let size := wraps intw (be_uint32 head) in
    if size <=? 0 then (None, r1)
    else let '(_, body, e2, r2) := read_all (Z.to_nat size) r1 in
         (match e2 with Some _ => None | None => Some body end, r2)
  end.
Definition frame_event (o : option bytes) : event := match o with Some b => (b, None) | None => ([], Some EEof) end.
(** One Read for each frame.  [fuel]: there are no more frames than bytes and Reads of the input. *)
Fixpoint unframe (intw : Z) (fuel : nat) (r : rt) : rt :=
  match fuel, r with
  | S f, _ :: _ => let '(o, r') := next_frame intw r in frame_event o :: unframe intw f r'
  | _, _ => []
  end.
Definition rt_work (r : rt) : nat := length (content r) + length r.
Definition unframed (intw : Z) (r : rt) : rt := unframe intw (rt_work r) r.

Lemma read_all_work : forall r n c b e r', read_all n r = (c, b, e, r') ->
  (rt_work r' <= rt_work r)%nat /\ ((0 < n)%nat -> r <> [] -> (rt_work r' < rt_work r)%nat) /\ length b = n /\ (r = [] -> r' = []).
Proof.
  intros r n c b e r' E. unfold read_all in E. destruct (read_all_loop n 0 None r) as [[[c1 d1] e1] r1] eqn:R. injection E as <- <- <- <-.
  pose proof (read_all_loop_len _ _ _ _ _ _ _ _ R) as L. pose proof (read_all_loop_any _ _ _ _ _ _ _ _ R) as (C & Ld & _).
  unfold rt_work. rewrite C, app_length. split; [lia|]. split; [|split; [apply pad_length; exact Ld|]].
  - intros Hn Nr. destruct r as [|[bs e0] r]; [congruence|]. destruct n as [|n]; [lia|]. cbn [read_all_loop] in R.
    destruct bs as [|b0 bs].
    + injection R as <- <- <- <-. cbn. lia.
    + destruct (S n <? length (b0 :: bs))%nat eqn:Q.
      * injection R as <- <- <- <-. cbn [length app]. lia.
      * destruct (read_all_loop (S n - length (b0 :: bs)) (0 + length (b0 :: bs)) e0 r) as [[[c2 d2] e2] r2]. assert (1 <= length d1)%nat; [|lia]. injection R as _ <- _ _. cbn [length app]. lia.
  - intros ->. destruct n; cbn in R; injection R as <- <- <- <-; reflexivity.
Qed.
Lemma next_frame_work : forall intw r o r', next_frame intw r = (o, r') ->
  (r <> [] -> (rt_work r' < rt_work r)%nat) /\ (r = [] -> o = None /\ r' = []) /\ (forall b, o = Some b -> b <> []).
Proof.
  intros intw r o r' E. unfold next_frame in E. destruct (read_all 4 r) as [[[c1 hd] e1] r1] eqn:E1.
  destruct (read_all_work _ _ _ _ _ _ E1) as (_ & W1 & _ & N1). specialize (W1 ltac:(lia)).
  destruct e1 as [e1|].
  - injection E as <- <-. split; [exact W1|]. split; [intro N; auto|discriminate].
  - assert (Nr : r <> []) by (intros ->; discriminate E1). specialize (W1 Nr).
    destruct (wraps intw (be_uint32 hd) <=? 0) eqn:Sz; [injection E as <- <-; split; [auto|]; split; [congruence|discriminate]|].
    destruct (read_all (Z.to_nat (wraps intw (be_uint32 hd))) r1) as [[[c2 bd] e2] r2] eqn:E2.
    destruct (read_all_work _ _ _ _ _ _ E2) as (W2 & _ & Lb & _). injection E as <- <-.
    split; [lia|]. split; [congruence|]. intros b Eb. destruct e2; [discriminate|]. injection Eb as <-. intros ->. cbn in Lb. lia.
Qed.
Lemma unframe_enough : forall intw f1 f2 r, (rt_work r <= f1)%nat -> (rt_work r <= f2)%nat -> unframe intw f1 r = unframe intw f2 r.
Proof.
  intro intw. induction f1 as [|f1 IH]; intros f2 r L1 L2.
  - destruct r as [|ev r]; [|unfold rt_work in L1; cbn in L1; lia]. destruct f2; reflexivity.
  - destruct f2 as [|f2]; [destruct r as [|ev r]; [reflexivity|unfold rt_work in L2; cbn in L2; lia]|].
    cbn [unframe]. destruct r as [|ev r]; [reflexivity|].
    destruct (next_frame intw (ev :: r)) as [o r'] eqn:E. destruct (next_frame_work _ _ _ _ E) as (W & _). specialize (W ltac:(discriminate)).
    f_equal. apply IH; lia.
Qed.
Lemma unframed_step : forall intw r o r', r <> [] -> next_frame intw r = (o, r') ->
  unframed intw r = frame_event o :: unframed intw r'.
Proof.
  intros intw r o r' N E. unfold unframed at 1. destruct r as [|ev r]; [congruence|].
  destruct (next_frame_work _ _ _ _ E) as (W & _). specialize (W N).
  destruct (rt_work (ev :: r)) as [|f] eqn:F; [lia|]. cbn [unframe]. rewrite E. f_equal. apply unframe_enough; unfold rt_work in *; lia.
Qed.

(** ** Reading over TFramedTransport is reading this *)
Definition lead (bs : bytes) : rt := match bs with [] => [] | _ => [(bs, None)] end.
Definition fsim (intw : Z) (f : framed) (r : rt) : Prop := r = lead (bBytes (f_rbuf f)) ++ unframed intw (f_r f).

Lemma readFrame_next : forall intw f o r', next_frame intw (f_r f) = (o, r') ->
  f_r (readFrame intw f) = r' /\ f_rbuf (readFrame intw f) = match o with Some b => bNew b | None => f_rbuf f end.
Proof.
  intros intw f o r' E. unfold next_frame in E. unfold readFrame. destruct (read_all 4 (f_r f)) as [[[c1 hd] e1] r1].
  destruct e1 as [e1|]; [injection E as <- <-; split; reflexivity|].
  destruct (wraps intw (be_uint32 hd) <=? 0) eqn:Sz.
  - injection E as <- <-. destruct (wraps intw (be_uint32 hd) <? 0) eqn:S1; [split; reflexivity|].
    destruct (wraps intw (be_uint32 hd) =? 0) eqn:S0; [split; reflexivity|]. exfalso. lia.
  - replace (wraps intw (be_uint32 hd) <? 0) with false by lia. replace (wraps intw (be_uint32 hd) =? 0) with false by lia.
    destruct (read_all (Z.to_nat (wraps intw (be_uint32 hd))) r1) as [[[c2 bd] e2] r2]. injection E as <- <-. destruct e2; split; reflexivity.
Qed.
Lemma skipn_twice : forall (l : bytes) a b, skipn a (skipn b l) = skipn (b + a) l.
Proof. induction l as [|c l IH]; intros a b; [rewrite !skipn_nil; reflexivity|]. destruct b; [reflexivity|]. cbn. apply IH. Qed.
(** Read of a buffer that is not empty. *)
Lemma bRead_some : forall n b, bBytes b <> [] -> (0 < n)%nat ->
  exists b', bRead n b = (firstn n (bBytes b), None, b') /\ bBytes b' = skipn n (bBytes b).
Proof.
  intros n b Nb Hn. unfold bRead. destruct (length (b_buf b) <=? b_off b)%nat eqn:L.
  - exfalso. apply Nb. unfold bBytes. apply skipn_all2. lia.
  - eexists. split; [reflexivity|]. unfold bBytes at 1. cbn [b_buf b_off]. rewrite firstn_length. unfold bBytes.
    rewrite skipn_length, skipn_twice.
    destruct (Nat.leb n (length (b_buf b) - b_off b)) eqn:Q.
    + f_equal. lia.
    + rewrite !skipn_all2; [reflexivity|lia|lia].
Qed.
Lemma bRead_none : forall n b, bBytes b = [] -> (0 < n)%nat -> bRead n b = ([], Some EEof, bReset b).
Proof.
  intros n b Nb Hn. unfold bRead. destruct (length (b_buf b) <=? b_off b)%nat eqn:L.
  - replace (n =? 0)%nat with false by lia. reflexivity.
  - exfalso. unfold bBytes in Nb. apply (f_equal (@length Z)) in Nb. rewrite skipn_length in Nb. cbn in Nb. lia.
Qed.
Lemma tread_lead : forall n bs u, bs <> [] -> (0 < n)%nat -> tread n ((bs, None) :: u) = (firstn n bs, None, lead (skipn n bs) ++ u).
Proof.
  intros n bs u Nb Hn. cbn [tread]. destruct (n <? length bs)%nat eqn:L.
  - destruct (skipn n bs) as [|c l] eqn:Sk; [|reflexivity]. exfalso. apply (f_equal (@length Z)) in Sk. rewrite skipn_length in Sk. cbn in Sk. lia.
  - rewrite firstn_all2, skipn_all2 by lia. reflexivity.
Qed.
Lemma fsim_read : forall intw n f r, (0 < n)%nat -> fsim intw f r -> exists d e1 e2 f' r',
  framed_read intw n f = (d, e1, f') /\ tread n r = (d, e2, r') /\ fsim intw f' r' /\ (length d <= n)%nat /\
  (d = [] -> e1 <> None /\ e2 <> None) /\ (d <> [] -> e1 = None /\ e2 = None).
Proof.
  intros intw n f r Hn ->. destruct (bBytes (f_rbuf f)) as [|b0 bs] eqn:B.
  - cbn [lead app]. unfold framed_read.
    replace (0 <? bLen (f_rbuf f))%nat with false
      by (apply (f_equal (@length Z)) in B; unfold bBytes in B; rewrite skipn_length in B; unfold bLen; cbn in B; lia).
    destruct (next_frame intw (f_r f)) as [o r'] eqn:E. destruct (readFrame_next _ _ _ _ E) as [E1 E2].
    destruct (next_frame_work _ _ _ _ E) as (_ & W & Ne). rewrite E1, E2. destruct o as [b|].
    + specialize (Ne b eq_refl). assert (Nr : f_r f <> []) by (intro N; destruct (W N); discriminate).
      rewrite (unframed_step _ _ _ _ Nr E). cbn [frame_event].
      destruct (bRead_some n (bNew b) Ne Hn) as (b' & -> & Bb). change (bBytes (bNew b)) with b in *. rewrite tread_lead by assumption.
      eexists _, _, _, _, _. split; [reflexivity|]. split; [reflexivity|]. split; [unfold fsim; cbn [f_rbuf f_r]; rewrite Bb; reflexivity|].
      split; [rewrite firstn_length; lia|]. destruct b as [|c b]; [congruence|]. destruct n; [lia|]. split; [discriminate|auto].
    + rewrite (bRead_none n _ B Hn).
      destruct (f_r f) as [|ev r0] eqn:Fr.
      * destruct (W eq_refl) as [_ ->]. eexists _, _, _, _, _. split; [reflexivity|]. split; [reflexivity|]. split; [reflexivity|]. split; [cbn; lia|].
        split; [intros _; split; discriminate|congruence].
      * rewrite (unframed_step intw (ev :: r0) None r' ltac:(discriminate) E). cbn [frame_event tread]. replace (n <? @length Z [])%nat with false by (cbn; lia).
        eexists _, _, _, _, _. split; [reflexivity|]. split; [reflexivity|]. split; [reflexivity|]. split; [cbn; lia|]. split; [intros _; split; discriminate|congruence].
  - cbn [lead app]. unfold framed_read.
    replace (0 <? bLen (f_rbuf f))%nat with true
      by (apply (f_equal (@length Z)) in B; unfold bBytes in B; rewrite skipn_length in B; unfold bLen; cbn in B; lia).
    destruct (bRead_some n (f_rbuf f)) as (b' & -> & Bb); [rewrite B; discriminate|exact Hn|]. rewrite B in *.
    replace (0 <? length (firstn n (b0 :: bs)))%nat with true by (rewrite firstn_length; cbn [length]; lia).
    rewrite tread_lead by (discriminate || exact Hn).
    eexists _, _, _, _, _. split; [reflexivity|]. split; [reflexivity|]. split; [unfold fsim; cbn [f_rbuf f_r]; rewrite Bb; reflexivity|].
    split; [rewrite firstn_length; lia|]. destruct n; [lia|]. split; [discriminate|auto].
Qed.
Lemma fsim_via : forall intw fuel n got e f r, (n <= fuel)%nat -> fsim intw f r -> exists c d e' f' r',
  read_all_via (framed_read intw) fuel n got e f = (c, d, e', f') /\ read_all_loop n got e r = (c, d, e', r') /\ fsim intw f' r'.
Proof.
  intro intw. induction fuel as [|fuel IH]; intros n got e f r L S.
  - replace n with 0%nat by lia. destruct r; eexists _, _, _, _, _; (split; [reflexivity|]; split; [reflexivity|exact S]).
  - destruct n as [|n]; [destruct r; eexists _, _, _, _, _; (split; [reflexivity|]; split; [reflexivity|exact S])|].
    rewrite read_all_unfold. cbn [read_all_via].
    destruct (fsim_read intw (Datatypes.S n) f r ltac:(lia) S) as (d & e1 & e2 & f1 & r1 & -> & -> & S1 & Ld & Z0 & Z1).
    destruct d as [|d0 d].
    + destruct (Z0 eq_refl) as [N1 N2]. destruct e1; [|congruence]. destruct e2; [|congruence].
      eexists _, _, _, _, _. split; [reflexivity|]. split; [reflexivity|exact S1].
    + destruct (Z1 ltac:(discriminate)) as [-> ->].
      destruct (IH (Datatypes.S n - length (d0 :: d))%nat (got + length (d0 :: d))%nat None f1 r1) as (c & d' & e' & f' & r' & -> & -> & S2);
        [cbn [length]; lia|exact S1|].
      eexists _, _, _, _, _. split; [reflexivity|]. split; [reflexivity|exact S2].
Qed.
Lemma fsim_read_all : forall intw n f r, fsim intw f r -> exists c b e f' r',
  read_all_over (framed_read intw) n f = (c, b, e, f') /\ read_all n r = (c, b, e, r') /\ fsim intw f' r'.
Proof.
  intros intw n f r S. unfold read_all_over, read_all.
  destruct (fsim_via intw n n 0 None f r (Nat.le_refl n) S) as (c & d & e' & f' & r' & -> & -> & S').
  eexists _, _, _, _, _. split; [reflexivity|]. split; [reflexivity|exact S'].
Qed.
Lemma fsim_new : forall intw w r, fsim intw (NewTFramedTransport w r) (unframed intw r).
Proof. intros. reflexivity. Qed.

(** ** The protocols over it *)
Section Exact.
Context {T : Type}.
Variable ra : nat -> T -> Z * bytes * option err * T.
Variable sim : T -> rt -> Prop.
Hypothesis RA : forall n s r, sim s r -> exists c b e s' r', ra n s = (c, b, e, s') /\ read_all n r = (c, b, e, r') /\ sim s' r'.
Notation hresp := (hresp false).
Notation hsame := (hsame false).
Lemma ex_readAll : forall n, hresp sim (o_b_readAll ra n) (b_readAll n).
Proof.
  intros n s r E. unfold o_b_readAll, b_readAll. destruct (RA n s r E) as (c & b & e & s' & r' & -> & -> & E'). cbn. auto.
Qed.
Lemma ex_body : forall n, hresp sim (o_bReadStringBody ra n) (bReadStringBody n).
Proof.
  intros n s r E. unfold o_bReadStringBody, bReadStringBody. destruct (n <? 0); [cbn; auto|].
  destruct (RA (Z.to_nat n) s r E) as (c & b & e & s' & r' & -> & -> & E'). cbn. auto.
Qed.
Lemma ex_app : forall S1 S2 (sim : S1 -> S2 -> Prop) A (f1 : S1 -> outcome (A * S1)) (f2 : S2 -> outcome (A * S2)),
  hresp sim f1 f2 -> forall s1 s2, sim s1 s2 -> hsame sim (f1 s1) (f2 s2).
Proof. auto. Qed.
Hint Resolve ex_readAll ex_body ex_app hnop : exc.
Ltac xs :=
  repeat match goal with
  | |- Het.hresp _ _ (fun _ => _) (fun _ => _) => let s1 := fresh "s" in let s2 := fresh "s" in
                              let E := fresh "E" in intros s1 s2 E
  | |- Het.hsame _ _ (obind ?a _) (obind ?b _) =>
    eapply hsame_bind; [solve [eauto with exc]|]; intros [? ?] ? ? ?
  | |- Het.hsame _ _ (Ok _) (Ok _) => apply hsame_ok; assumption
  | |- Het.hsame _ _ Panic Panic => exact I
  | |- Het.hsame _ _ (match ?e with Some _ => _ | None => _ end) _ => destruct e
  | |- Het.hsame _ _ (if ?c then _ else _) _ => destruct c
  | |- Het.hsame _ _ (let '(_, _) := ?x in _) _ => destruct x
  | |- Het.hsame _ _ _ _ => solve [eauto with exc]
  end.
Lemma ex_byte : hresp sim (o_bReadByte ra) bReadByte. Proof. unfold o_bReadByte, bReadByte. xs. Qed.
Lemma ex_i16 : hresp sim (o_bReadI16 ra) bReadI16. Proof. unfold o_bReadI16, bReadI16. xs. Qed.
Lemma ex_i32 : hresp sim (o_bReadI32 ra) bReadI32. Proof. unfold o_bReadI32, bReadI32. xs. Qed.
Lemma ex_i64 : hresp sim (o_bReadI64 ra) bReadI64. Proof. unfold o_bReadI64, bReadI64. xs. Qed.
Lemma ex_dbl : hresp sim (o_bReadDouble ra) bReadDouble. Proof. unfold o_bReadDouble, bReadDouble. xs. Qed.
Hint Resolve ex_byte ex_i16 ex_i32 ex_i64 ex_dbl : exc.
Lemma ex_bool : hresp sim (o_bReadBool ra) bReadBool. Proof. unfold o_bReadBool, bReadBool. xs. Qed.
Lemma ex_str : hresp sim (o_bReadString ra) bReadString. Proof. unfold o_bReadString, bReadString. xs. Qed.
Hint Resolve ex_bool ex_str : exc.
Lemma ex_bin : hresp sim (o_bReadBinary ra) bReadBinary.
Proof.
  unfold o_bReadBinary, bReadBinary. intros s1 s2 E. eapply hsame_bind; [apply ex_i32, E|].
  intros [n [e|]] t1 t2 E'; [apply hsame_ok, E'|]. destruct (n <? 0); [exact I|].
  destruct (RA (Z.to_nat n) _ _ E') as (c & b & e & r1' & r2' & -> & -> & E''). cbn. auto.
Qed.
Lemma ex_field : hresp sim (o_bReadFieldBegin ra) bReadFieldBegin. Proof. unfold o_bReadFieldBegin, bReadFieldBegin. xs. Qed.
Lemma ex_map : hresp sim (o_bReadMapBegin ra) bReadMapBegin. Proof. unfold o_bReadMapBegin, bReadMapBegin. xs. Qed.
Lemma ex_list : hresp sim (o_bReadListBegin ra) bReadListBegin. Proof. unfold o_bReadListBegin, bReadListBegin. xs. Qed.
Lemma ex_set : hresp sim (o_bReadSetBegin ra) bReadSetBegin. Proof. unfold o_bReadSetBegin, bReadSetBegin. xs. Qed.
Lemma ex_msg : forall strict, hresp sim (o_bReadMessageBegin ra strict) (bReadMessageBegin strict).
Proof. unfold o_bReadMessageBegin, bReadMessageBegin. intros. xs. Qed.
Hint Resolve ex_bin ex_field ex_map ex_list ex_set ex_msg : exc.
Theorem ex_binaryR : forall strict, rrel false sim (o_binaryR ra strict) (binaryR strict).
Proof.
  intro strict. constructor; cbn [o_binaryR binaryR rMessageBegin rMessageEnd rStructBegin
    rStructEnd rFieldBegin rFieldEnd rMapBegin rMapEnd rListBegin rListEnd rSetBegin rSetEnd
    rBool rByte rI16 rI32 rI64 rDouble rString rBinary]; eauto with exc.
  intros s1 s2 E. apply hsame_ok, E.
Qed.
End Exact.
