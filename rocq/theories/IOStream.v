(** TIOStreamTransport (tiostream_transport.go). *)
From Coq Require Import ZArith List Bool Lia.
From Verif Require Import Base Errors Transport BufIO Framed.
Import ListNotations.
Open Scope Z_scope.

(** tiostream_transport.go:34-38: the fields Reader and Writer, each nil, a bufio object (made by
    the constructors) or the object given by the caller; what these objects hold; whether the
    caller's object has methods Close and Flush. *)
Inductive ref : Type := RNil | RBuf | RRaw.
Record ios : Type := MkIos {
  i_reader : ref; i_writer : ref; i_isrw : bool;
  i_br : bufr; i_bw : bufw;
  i_closer : bool; i_flusher : bool
}.
(** The bytes the wrapped writer has received. *)
Definition i_out (s : ios) : bytes := w_out (bw_w (i_bw s)).

(** The constructors (tiostream_transport.go:88-131) *)
Inductive variant : Type := VDefault | VR | VW | VRAndW | VRW.
Definition NewTIOStreamTransport (v : variant) (closer flusher : bool) (r : rt) (w : wt) : ios :=
  let mk rd wr rw := MkIos rd wr rw (NewBufReader r) (NewBufWriter w) closer flusher in
  match v with
  | VDefault => mk RNil RNil false
  | VR => mk RBuf RNil false
  | VW => mk RNil RBuf false
  | VRAndW => mk RBuf RBuf false
  | VRW => mk RRaw RRaw true
  end.

(** tiostream_transport.go:157-181.  bufio.Reader and bufio.Writer are not io.Closers; errors of
    Close are only logged. *)
Definition ios_close (s : ios) : ios :=
  let closedReader := match i_reader s with RRaw => i_closer s | _ => false end in
  let wr := match i_writer s with
            | RNil => RNil
            | x => if negb closedReader || negb (i_isrw s) then RNil else x
            end in
  MkIos RNil wr (i_isrw s) (i_br s) (i_bw s) (i_closer s) (i_flusher s).

(** tiostream_transport.go:186-192, len(buf) = n *)
Definition ios_read (n : nat) (s : ios) : bytes * option err * ios :=
  let upd b := MkIos (i_reader s) (i_writer s) (i_isrw s) b (i_bw s) (i_closer s) (i_flusher s) in
  match i_reader s with
  | RNil => ([], Some (ETransport NOT_OPEN), s)
  | RBuf => let '(d, e, b) := br_read n (i_br s) in (d, transport_exc_from_os e, upd b)
  | RRaw => let '(d, e, r) := tread n (br_r (i_br s)) in
            (d, transport_exc_from_os e, upd (MkBr (br_buf (i_br s)) (br_err (i_br s)) r))
  end.

(** tiostream_transport.go:201-211: err.Error() of a nil error panics. *)
Definition ios_write (p : bytes) (s : ios) : outcome (Z * option err * ios) :=
  let upd b := MkIos (i_reader s) (i_writer s) (i_isrw s) (i_br s) b (i_closer s) (i_flusher s) in
  match i_writer s with
  | RNil => Ok (0, Some (ETransport NOT_OPEN), s)
  | x =>
    let '(n, e, b) :=
      match x with
      | RBuf => bw_write p (i_bw s)
      | _ => let '(n, e, w) := twrite p (bw_w (i_bw s)) in
             (n, e, MkBw (bw_buf (i_bw s)) (bw_err (i_bw s)) w)
      end in
    match e with
    | None => if n =? 0 then Panic else Ok (n, None, upd b)
    | Some _ => Ok (n, transport_exc_from_os e, upd b)
    end
  end.

(** tiostream_transport.go:216-228; [fe] is what Flush of the caller's object returns *)
Definition ios_flush (fe : option err) (s : ios) : option err * ios :=
  match i_writer s with
  | RNil => (Some (ETransport NOT_OPEN), s)
  | RBuf => let '(e, b) := bw_flush (i_bw s) in
            (transport_exc_from_os e,
             MkIos (i_reader s) (i_writer s) (i_isrw s) (i_br s) b (i_closer s) (i_flusher s))
  | RRaw => (if i_flusher s then transport_exc_from_os fe else None, s)
  end.

(** Histories of calls. *)
Inductive iop : Type :=
| IOpen | IRead (n : nat) | IReadAll (n : nat) | IWrite (p : bytes) | IFlush (fe : option err) | IClose.
Definition ios_op (o : iop) (s : ios) : outcome (bytes * Z * option err * ios) :=
  match o with
  | IOpen => Ok ([], 0, None, s)
  | IRead n => let '(d, e, s') := ios_read n s in Ok (d, Z.of_nat (length d), e, s')
  | IReadAll n => let '(c, d, e, s') := read_all_via ios_read n n 0 None s in Ok (d, c, e, s')
  | IWrite p => '(n, e, s') <- ios_write p s ;; Ok ([], n, e, s')
  | IFlush fe => let '(e, s') := ios_flush fe s in Ok ([], 0, e, s')
  | IClose => Ok ([], 0, None, ios_close s)
  end.
Fixpoint ios_run (os : list iop) (s : ios) : outcome (list (bytes * Z * option err) * ios) :=
  match os with
  | [] => Ok ([], s)
  | o :: os' =>
    '(d, n, e, s1) <- ios_op o s ;; '(l, s2) <- ios_run os' s1 ;; Ok ((d, n, e) :: l, s2)
  end.

(** ** Lemmas *)
Lemma ios_read_frame : forall n s d e s', ios_read n s = (d, e, s') ->
  i_reader s' = i_reader s /\ i_writer s' = i_writer s /\ i_bw s' = i_bw s /\ i_isrw s' = i_isrw s /\
  i_closer s' = i_closer s /\ i_flusher s' = i_flusher s.
Proof.
  intros n s d e s' H. unfold ios_read in H. destruct (i_reader s) eqn:R.
  - injection H as <- <- <-. auto 8.
  - destruct (br_read n (i_br s)) as [[d1 e1] b1]. injection H as <- <- <-. cbn. auto 8.
  - destruct (tread n (br_r (i_br s))) as [[d1 e1] b1]. injection H as <- <- <-. cbn. auto 8.
Qed.
Lemma ios_read_all_frame : forall fuel n got e s c d e' s', 
  read_all_via ios_read fuel n got e s = (c, d, e', s') ->
  i_reader s' = i_reader s /\ i_writer s' = i_writer s /\ i_bw s' = i_bw s /\ i_isrw s' = i_isrw s /\
  i_closer s' = i_closer s /\ i_flusher s' = i_flusher s.
Proof.
  induction fuel as [|f IH]; intros n got e s c d e' s' H.
  - cbn in H. injection H as <- <- <- <-. auto 8.
  - destruct n as [|n]; cbn [read_all_via] in H; [injection H as <- <- <- <-; auto 8|].
    destruct (ios_read (S n) s) as [[d1 e1] s1] eqn:R.
    destruct (ios_read_frame _ _ _ _ _ R) as (A & B & C & D & E & F).
    destruct d1 as [|x d1]; [injection H as <- <- <- <-; auto 8|].
    destruct (read_all_via ios_read f _ _ _ s1) as [[[c2 d2] e2] s2] eqn:Q. injection H as <- <- <- <-.
    destruct (IH _ _ _ _ _ _ _ _ Q) as (A' & B' & C' & D' & E' & F').
    repeat split; congruence.
Qed.

(** Nothing the caller does with a nil Writer changes the wrapped writer. *)
Lemma ios_nil_writer : forall os s, i_writer s = RNil ->
  exists l s', ios_run os s = Ok (l, s') /\ i_writer s' = RNil /\ i_out s' = i_out s.
Proof.
  induction os as [|o os IH]; intros s W; cbn [ios_run]; [eauto|].
  assert (G : exists d n e s1, ios_op o s = Ok (d, n, e, s1) /\ i_writer s1 = RNil /\ i_out s1 = i_out s).
  { destruct o; cbn [ios_op].
    - eauto 8.
    - destruct (ios_read n s) as [[d e] s1] eqn:R. destruct (ios_read_frame _ _ _ _ _ R) as (_ & A & B & _).
      eexists _, _, _, s1. unfold i_out. rewrite A, B. auto.
    - destruct (read_all_via ios_read n n 0 None s) as [[[c d] e] s1] eqn:R.
      destruct (ios_read_all_frame _ _ _ _ _ _ _ _ _ R) as (_ & A & B & _).
      eexists _, _, _, s1. unfold i_out. rewrite A, B. auto.
    - unfold ios_write. rewrite W. cbn. eauto 8.
    - unfold ios_flush. rewrite W. eauto 8.
    - eexists _, _, _, _. split; [reflexivity|]. unfold ios_close, i_out. rewrite W. auto. }
  destruct G as (d & n & e & s1 & -> & W1 & O1). cbn [obind].
  destruct (IH s1 W1) as (l & s' & -> & W' & O'). cbn [obind]. exists ((d, n, e) :: l), s'.
  rewrite O', O1. auto.
Qed.

Definition ios_ok (s : ios) : Prop := bw_ok (i_bw s).
Lemma new_ok : forall v c f r w, ios_ok (NewTIOStreamTransport v c f r w).
Proof. intros. unfold ios_ok, bw_ok. destruct v; cbn; lia. Qed.

Definition wr_nonempty (o : iop) : Prop := match o with IWrite p => p <> [] | _ => True end.

Lemma ios_op_ok : forall o s, ios_ok s -> wr_nonempty o ->
  exists d n e s', ios_op o s = Ok (d, n, e, s') /\ ios_ok s'.
Proof.
  intros o s K N. destruct o; cbn [ios_op].
  - eauto 8.
  - destruct (ios_read n s) as [[d e] s1] eqn:R. destruct (ios_read_frame _ _ _ _ _ R) as (_ & A & B & _).
    unfold ios_ok in *. rewrite <- B in K. eauto 8.
  - destruct (read_all_via ios_read n n 0 None s) as [[[c d] e] s1] eqn:R.
    destruct (ios_read_all_frame _ _ _ _ _ _ _ _ _ R) as (_ & A & B & _).
    unfold ios_ok in *. rewrite <- B in K. eauto 8.
  - unfold ios_write. cbn in N. assert (L : (0 < length p)%nat) by (destruct p; [congruence|cbn; lia]).
    destruct (i_writer s); [cbn; eauto 8| |].
    + destruct (bw_write p (i_bw s)) as [[n e] b] eqn:B.
      destruct (bw_write_spec _ _ _ _ _ K B) as (K' & _ & _ & _ & rest & _ & Ln & E).
      destruct e as [e|].
      * cbn [obind]. eexists _, _, _, _. split; [reflexivity|]. exact K'.
      * rewrite (E eq_refl) in Ln. cbn [length] in Ln. replace (n =? 0) with false by lia.
        cbn [obind]. eexists _, _, _, _. split; [reflexivity|]. exact K'.
    + destruct (twrite p (bw_w (i_bw s))) as [[n e] w] eqn:T.
      destruct (twrite_parts _ _ _ _ _ T) as (k & Hn & _ & F).
      destruct e as [e|].
      * cbn [obind]. eexists _, _, _, _. split; [reflexivity|]. exact K.
      * rewrite (F eq_refl) in Hn. replace (n =? 0) with false by lia.
        cbn [obind]. eexists _, _, _, _. split; [reflexivity|]. exact K.
  - unfold ios_flush. destruct (i_writer s).
    + eexists _, _, _, _. split; [reflexivity|]. exact K.
    + destruct (bw_flush (i_bw s)) as [e b] eqn:B. destruct (bw_flush_spec _ _ _ B) as (_ & _ & K' & _).
      eexists _, _, _, _. split; [reflexivity|]. exact (K' K).
    + eexists _, _, _, _. split; [reflexivity|]. exact K.
  - eexists _, _, _, _. split; [reflexivity|]. exact K.
Qed.
Lemma ios_no_panic : forall os s, ios_ok s -> Forall wr_nonempty os ->
  exists l s', ios_run os s = Ok (l, s') /\ ios_ok s'.
Proof.
  induction os as [|o os IH]; intros s K N; cbn [ios_run]; [eauto|]. inversion N; subst.
  destruct (ios_op_ok o s K) as (d & n & e & s1 & -> & K1); [assumption|]. cbn [obind].
  destruct (IH s1 K1) as (l & s' & -> & K'); [assumption|]. cbn [obind]. eauto.
Qed.

(** The flag and the capabilities never change. *)
Lemma ios_op_frame : forall o s d n e s', ios_op o s = Ok (d, n, e, s') ->
  i_isrw s' = i_isrw s /\ i_closer s' = i_closer s.
Proof.
  intros o s d n e s' H. destruct o; cbn [ios_op] in H.
  - injection H as <- <- <- <-. auto.
  - destruct (ios_read n0 s) as [[d1 e1] s1] eqn:R. destruct (ios_read_frame _ _ _ _ _ R) as (_ & _ & _ & A & B & _).
    injection H as <- <- <- <-. auto.
  - destruct (read_all_via ios_read n0 n0 0 None s) as [[[c d1] e1] s1] eqn:R.
    destruct (ios_read_all_frame _ _ _ _ _ _ _ _ _ R) as (_ & _ & _ & A & B & _).
    injection H as <- <- <- <-. auto.
  - unfold ios_write in H. destruct (i_writer s).
    + injection H as <- <- <- <-. auto.
    + destruct (bw_write p (i_bw s)) as [[m x] b]. destruct x; [|destruct (m =? 0); [discriminate|]];
        injection H as <- <- <- <-; auto.
    + destruct (twrite p (bw_w (i_bw s))) as [[m x] b]. destruct x; [|destruct (m =? 0); [discriminate|]];
        injection H as <- <- <- <-; auto.
  - unfold ios_flush in H. destruct (i_writer s).
    + injection H as <- <- <- <-. auto.
    + destruct (bw_flush (i_bw s)) as [x b]. injection H as <- <- <- <-. auto.
    + injection H as <- <- <- <-. auto.
  - injection H as <- <- <- <-. auto.
Qed.
Lemma ios_run_frame : forall os s l s', ios_run os s = Ok (l, s') ->
  i_isrw s' = i_isrw s /\ i_closer s' = i_closer s.
Proof.
  induction os as [|o os IH]; intros s l s' H; cbn [ios_run] in H; [injection H as <- <-; auto|].
  destruct (ios_op o s) as [[[[d n] e] s1]| |] eqn:O; cbn [obind] in H; try discriminate.
  destruct (ios_run os s1) as [[l1 s2]| |] eqn:R; cbn [obind] in H; try discriminate.
  injection H as <- <-. destruct (ios_op_frame _ _ _ _ _ _ O), (IH _ _ _ R). split; congruence.
Qed.
Lemma ios_run_app : forall os1 os2 s,
  ios_run (os1 ++ os2) s =
  ('(l1, s1) <- ios_run os1 s ;; '(l2, s2) <- ios_run os2 s1 ;; Ok (l1 ++ l2, s2)).
Proof.
  induction os1 as [|o os IH]; intros os2 s; cbn [app ios_run obind].
  - destruct (ios_run os2 s) as [[l2 s2]| |]; reflexivity.
  - destruct (ios_op o s) as [[[[d n] e] s1]| |]; cbn [obind]; try reflexivity.
    rewrite IH. destruct (ios_run os s1) as [[l1 s2]| |]; cbn [obind]; try reflexivity.
    destruct (ios_run os2 s2) as [[l2 s3]| |]; reflexivity.
Qed.
Lemma ios_close_nil : forall s, i_isrw s && i_closer s = false ->
  i_writer (ios_close s) = RNil /\ i_out (ios_close s) = i_out s.
Proof.
  intros s H. unfold ios_close. cbn [i_writer]. split; [|reflexivity].
  destruct (i_writer s); [reflexivity| |];
    destruct (i_reader s), (i_isrw s), (i_closer s); try discriminate; reflexivity.
Qed.

(** Writes and flushes without errors. *)
Definition iwrites (os : list iop) : bytes :=
  concat (map (fun o => match o with IWrite p => p | _ => [] end) os).
Definition write_or_flush (o : iop) : Prop := match o with IWrite _ | IFlush _ => True | _ => False end.
Definition no_err (x : bytes * Z * option err) : Prop := snd x = None.

(** What was taken but not passed on. *)
Definition i_pending (s : ios) : bytes := match i_writer s with RBuf => bw_buf (i_bw s) | _ => [] end.
Lemma tefo_none' : forall x, transport_exc_from_os x = None -> x = None.
Proof. intros [e|]; [|reflexivity]. destruct e; discriminate. Qed.

Lemma ios_op_stream : forall o s d n s', ios_ok s -> i_writer s <> RNil -> write_or_flush o ->
  ios_op o s = Ok (d, n, None, s') ->
  ios_ok s' /\ i_writer s' = i_writer s /\
  i_out s' ++ i_pending s' = (i_out s ++ i_pending s) ++ iwrites [o] /\
  match o with IFlush _ => i_pending s' = [] | _ => True end.
Proof.
  intros o s d n s' K W T H. unfold ios_ok, i_out, i_pending, iwrites in *. destruct o; try contradiction; cbn [ios_op] in H.
  - unfold ios_write in H. cbn [map concat]. rewrite app_nil_r. destruct (i_writer s) eqn:Ws; [congruence| |].
    + destruct (bw_write p (i_bw s)) as [[m x] b] eqn:B.
      destruct (bw_write_spec _ _ _ _ _ K B) as (K' & _ & _ & _ & rest & A & Ln & E).
      destruct x as [x|].
      * cbn [obind] in H. destruct (transport_exc_from_os (Some x)) eqn:Q; [discriminate|].
        apply tefo_none' in Q. discriminate.
      * destruct (m =? 0); [discriminate|]. cbn [obind] in H. injection H as <- <- <-. cbn [i_bw i_writer].
        rewrite (E eq_refl), app_nil_r in A. unfold bw_all in A. auto.
    + destruct (twrite p (bw_w (i_bw s))) as [[m x] w] eqn:T'.
      destruct (twrite_parts _ _ _ _ _ T') as (k & Hn & O & F). destruct x as [x|].
      * cbn [obind] in H. destruct (transport_exc_from_os (Some x)) eqn:Q; [discriminate|].
        apply tefo_none' in Q. discriminate.
      * destruct (m =? 0); [discriminate|]. cbn [obind] in H. injection H as <- <- <-. cbn [i_bw i_writer bw_w].
        rewrite O, (F eq_refl), !app_nil_r. auto.
  - unfold ios_flush in H. cbn [map concat]. rewrite app_nil_r. destruct (i_writer s) eqn:Ws; [congruence| |].
    + destruct (bw_flush (i_bw s)) as [x b] eqn:B. destruct (bw_flush_spec _ _ _ B) as (A & _ & K' & N & _).
      injection H as <- <- H <-. apply tefo_none' in H. cbn [i_bw i_writer]. unfold bw_all in A. auto.
    + injection H as <- <- _ <-. rewrite Ws. auto.
Qed.
Lemma ios_run_stream : forall os s l s', ios_ok s -> i_writer s <> RNil -> Forall write_or_flush os ->
  ios_run os s = Ok (l, s') -> Forall no_err l ->
  ios_ok s' /\ i_writer s' = i_writer s /\
  i_out s' ++ i_pending s' = (i_out s ++ i_pending s) ++ iwrites os.
Proof.
  induction os as [|o os IH]; intros s l s' K W T H N; cbn [ios_run] in H.
  - injection H as <- <-. unfold iwrites. cbn. rewrite app_nil_r. auto.
  - inversion T as [|? ? To Ts]; subst.
    destruct (ios_op o s) as [[[[d n] e] s1]| |] eqn:O; cbn [obind] in H; try discriminate.
    destruct (ios_run os s1) as [[l1 s2]| |] eqn:R; cbn [obind] in H; try discriminate.
    injection H as <- <-. inversion N as [|? ? Ne Ns]; subst. unfold no_err in Ne; cbn in Ne. subst e.
    destruct (ios_op_stream o s d n s1 K W To O) as (K1 & W1 & A1 & _).
    destruct (IH s1 l1 s2 K1) as (K2 & W2 & A2); auto; [congruence|].
    split; [assumption|]. split; [congruence|]. rewrite A2, A1. unfold iwrites. cbn [map concat].
    rewrite app_nil_r, <- !app_assoc. reflexivity.
Qed.
