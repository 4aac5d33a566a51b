(** TSocket (tsocket.go) and TNonblockingSocket (tnonblocking_socket.go): the writing side. *)
From Coq Require Import ZArith List Bool Lia.
From Coq Require Import ZifyBool ZifyNat.
From Verif Require Import Base Errors Transport Buffer BufIO.
Import ListNotations.
Open Scope Z_scope.

(** The address: nil, with an empty network name, with an empty address, or usable. *)
Inductive addr : Type := AddrNil | AddrNoNet | AddrNoName | AddrOk.
(** tsocket.go:32-46, tnonblocking_socket.go:30-37.  Connections are numbered in the order they
    are made; [k_conns] is what each of them has received and how it will answer coming writes.
    Deadlines (pushDeadline) are in Deadline.v; the reading side is that of Transport.v.  [k_buf] is unused by
    TNonblockingSocket. *)
Record sock : Type := MkSock {
  k_conn : option nat; k_addr : addr; k_buf : buffer; k_conns : list wt
}.
(** NewTSocket, NewTSocketAddr (tsocket.go:82-97), NewTNonblockingSocketAddr* *)
Definition NewTSocket (a : addr) : sock := MkSock None a (bNew []) [].
(** NewTSocketConn, NewTSocketConnTimeout (tsocket.go:54-72) *)
Definition NewTSocketConn (a : addr) (sched : list wres) : sock :=
  MkSock (Some O) a (bNew []) [MkWt [] sched].

Definition conn_wt (i : nat) (cs : list wt) : wt := nth i cs (MkWt [] []).
Fixpoint set_conn (i : nat) (w : wt) (cs : list wt) : list wt :=
  match i, cs with
  | _, [] => []
  | O, _ :: t => w :: t
  | S i', c :: t => c :: set_conn i' w t
  end.

(** Open (tsocket.go:141-167, tnonblocking_socket.go:108-128); [dial] is the result of net.Dial: an
    error, or a new connection. *)
Definition sock_open (dial : option (list wres)) (s : sock) : option err * sock :=
  match k_conn s with
  | Some _ => (Some (ETransport ALREADY_OPEN), s)
  | None =>
    match k_addr s with
    | AddrOk =>
      match dial with
      | None => (Some (ETransport NOT_OPEN), MkSock None (k_addr s) (k_buf s) (k_conns s))
      | Some sched =>
        (None, MkSock (Some (length (k_conns s))) (k_addr s) (k_buf s) (k_conns s ++ [MkWt [] sched]))
      end
    | _ => (Some (ETransport NOT_OPEN), s)
    end
  end.
(** Close (tsocket.go:172-183, tnonblocking_socket.go:185-194); [ce] is the result of closing the
    connection. *)
Definition sock_close (ce : option err) (s : sock) : option err * sock :=
  match k_conn s with
  | None => (None, s)
  | Some _ =>
    match ce with
    | Some e => (Some e, s)
    | None => (None, MkSock None (k_addr s) (k_buf s) (k_conns s))
    end
  end.
(** TSocket.Write (tsocket.go:198-205) *)
Definition sock_write (p : bytes) (s : sock) : Z * option err * sock :=
  match k_conn s with
  | None => (0, Some (ETransport NOT_OPEN), s)
  | Some _ =>
    let '(_, _, b) := bWrite p (k_buf s) in
    (Z.of_nat (length p), None, MkSock (k_conn s) (k_addr s) b (k_conns s))
  end.
(** TSocket.Flush (tsocket.go:211-217) *)
Definition sock_flush (s : sock) : option err * sock :=
  match k_conn s with
  | None => (Some (ETransport NOT_OPEN), s)
  | Some i =>
    let '(_, e, b, w) := bWriteTo (k_buf s) (conn_wt i (k_conns s)) in
    (transport_exc_from_os e, MkSock (k_conn s) (k_addr s) b (set_conn i w (k_conns s)))
  end.
(** TSocket.Interrupt (tsocket.go:219-225): closes the connection but keeps it *)
Definition sock_interrupt (ce : option err) (s : sock) : option err * sock :=
  match k_conn s with
  | None => (None, s)
  | Some _ => (ce, s)
  end.
(** TNonblockingSocket.Write (tnonblocking_socket.go:149-155) *)
Definition nsock_write (p : bytes) (s : sock) : Z * option err * sock :=
  match k_conn s with
  | None => (0, Some (ETransport NOT_OPEN), s)
  | Some i =>
    let '(n, e, w) := twrite p (conn_wt i (k_conns s)) in
    (n, e, MkSock (k_conn s) (k_addr s) (k_buf s) (set_conn i w (k_conns s)))
  end.
(** TNonblockingSocket.Flush (tnonblocking_socket.go:160-172); net connections have no Flush *)
Definition nsock_flush (s : sock) : option err * sock :=
  match k_conn s with
  | None => (Some (ETransport NOT_OPEN), s)
  | Some _ => (None, s)
  end.

Inductive sop : Type :=
| SOpen (dial : option (list wres)) | SWrite (p : bytes) | SFlush
| SInterrupt (ce : option err) | SClose (ce : option err).
(** The count and the error a call returns. *)
Definition sres := (Z * option err)%type.
Definition sock_op (o : sop) (s : sock) : sres * sock :=
  match o with
  | SOpen d => let '(e, s') := sock_open d s in ((0, e), s')
  | SWrite p => let '(n, e, s') := sock_write p s in ((n, e), s')
  | SFlush => let '(e, s') := sock_flush s in ((0, e), s')
  | SInterrupt ce => let '(e, s') := sock_interrupt ce s in ((0, e), s')
  | SClose ce => let '(e, s') := sock_close ce s in ((0, e), s')
  end.
(** TNonblockingSocket; its Interrupt is Close (tnonblocking_socket.go:196-202) *)
Definition nsock_op (o : sop) (s : sock) : sres * sock :=
  match o with
  | SOpen d => let '(e, s') := sock_open d s in ((0, e), s')
  | SWrite p => let '(n, e, s') := nsock_write p s in ((n, e), s')
  | SFlush => let '(e, s') := nsock_flush s in ((0, e), s')
  | SInterrupt ce | SClose ce => let '(e, s') := sock_close ce s in ((0, e), s')
  end.
Fixpoint run_ops (step : sop -> sock -> sres * sock) (os : list sop) (s : sock) : list sres * sock :=
  match os with
  | [] => ([], s)
  | o :: os' => let '(x, s1) := step o s in let '(l, s2) := run_ops step os' s1 in (x :: l, s2)
  end.

(** ** What an observer of calls and results knows *)
(** The connection that is open and how many there were, after each call. *)
Definition view := (option nat * nat)%type.
Definition view_step (closing_interrupt : bool) (o : sop) (x : sres) (v : view) : view :=
  match o, snd x with
  | SOpen _, None => (Some (snd v), S (snd v))
  | SClose _, None => (None, snd v)
  | SInterrupt _, None => if closing_interrupt then (None, snd v) else v
  | _, _ => v
  end.
(** The bytes accepted by Write while connection [c] was the open one. *)
Fixpoint accepted (ci : bool) (c : nat) (os : list sop) (xs : list sres) (v : view) : bytes :=
  match os, xs with
  | o :: os', x :: xs' =>
    match o, fst v with
    | SWrite p, Some i => if (i =? c)%nat then firstn (Z.to_nat (fst x)) p else []
    | _, _ => []
    end ++ accepted ci c os' xs' (view_step ci o x v)
  | _, _ => []
  end.
Fixpoint view_run (ci : bool) (os : list sop) (xs : list sres) (v : view) : view :=
  match os, xs with
  | o :: os', x :: xs' => view_run ci os' xs' (view_step ci o x v)
  | _, _ => v
  end.
(** Every successful Close comes after a successful Flush with no Write in between ([dirty]: bytes
    were written since). *)
Fixpoint flushed_before_close (dirty : bool) (os : list sop) (xs : list sres) : Prop :=
  match os, xs with
  | o :: os', x :: xs' =>
    match o, snd x with
    | SWrite _, None => flushed_before_close true os' xs'
    | SFlush, None => flushed_before_close false os' xs'
    | SClose _, None => dirty = false /\ flushed_before_close dirty os' xs'
    | _, _ => flushed_before_close dirty os' xs'
    end
  | _, _ => True
  end.
Definition conn_out (c : nat) (s : sock) : bytes := w_out (conn_wt c (k_conns s)).

(** ** Lemmas *)
Lemma set_conn_length : forall i w cs, length (set_conn i w cs) = length cs.
Proof. induction i; intros w [|c cs]; cbn; auto. Qed.
Lemma set_conn_same : forall i w cs, (i < length cs)%nat -> conn_wt i (set_conn i w cs) = w.
Proof. unfold conn_wt. induction i; intros w [|c cs] H; cbn in *; try lia; auto. apply IHi. lia. Qed.
Lemma set_conn_other : forall i j w cs, i <> j -> conn_wt j (set_conn i w cs) = conn_wt j cs.
Proof.
  unfold conn_wt. induction i; intros j w [|c cs] H; cbn; auto.
  - destruct j; [lia|reflexivity].
  - destruct j; [reflexivity|]. apply IHi. lia.
Qed.
Lemma conn_new : forall c cs sched,
  w_out (conn_wt c (cs ++ [MkWt [] sched])) = w_out (conn_wt c cs).
Proof.
  intros c cs sched. unfold conn_wt. destruct (Nat.lt_ge_cases c (length cs)) as [H|H].
  - now rewrite app_nth1.
  - rewrite app_nth2 by lia. rewrite (nth_overflow cs) by lia.
    destruct (c - length cs)%nat as [|[|k]]; reflexivity.
Qed.

(** The observer's view is right. *)
Definition k_ok (s : sock) (v : view) : Prop :=
  b_ok (k_buf s) /\ fst v = k_conn s /\ snd v = length (k_conns s) /\
  match k_conn s with Some i => (i < length (k_conns s))%nat | None => True end.

Lemma tefo_none2 : forall x, transport_exc_from_os x = None -> x = None.
Proof. intros [e|]; [|reflexivity]. destruct e; discriminate. Qed.

(** [pend c]: what is still buffered for connection c *)
Definition pend (c : nat) (s : sock) : bytes :=
  match k_conn s with Some i => if (i =? c)%nat then bBytes (k_buf s) else [] | None => [] end.

Lemma open_cases : forall d s e s', sock_open d s = (e, s') ->
  (e <> None /\ s' = s) \/
  (e = None /\ k_conn s = None /\ exists sched,
     s' = MkSock (Some (length (k_conns s))) (k_addr s) (k_buf s) (k_conns s ++ [MkWt [] sched])).
Proof.
  intros d s e s' H. unfold sock_open in H. destruct (k_conn s) as [i|] eqn:C.
  - injection H as <- <-. left. split; [discriminate|reflexivity].
  - destruct (k_addr s) eqn:A; try (injection H as <- <-; left; split; [discriminate|reflexivity]).
    destruct d as [sched|]; injection H as <- <-.
    + right. rewrite <- A. eauto.
    + left. split; [discriminate|]. destruct s; cbn in *; congruence.
Qed.
Lemma close_cases : forall ce s e s', sock_close ce s = (e, s') ->
  (e <> None /\ s' = s) \/ (e = None /\ s' = MkSock None (k_addr s) (k_buf s) (k_conns s)).
Proof.
  intros ce s e s' H. unfold sock_close in H. destruct (k_conn s) as [i|] eqn:C.
  - destruct ce; injection H as <- <-; [left; split; [discriminate|reflexivity]|right; auto].
  - injection H as <- <-. right. split; [reflexivity|]. destruct s; cbn in *; congruence.
Qed.

Lemma sock_step : forall o s x s' v, k_ok s v -> sock_op o s = (x, s') ->
  k_ok s' (view_step false o x v) /\
  (match o, snd x with SClose _, None => bBytes (k_buf s) = [] | _, _ => True end ->
   match o, snd x with SOpen _, None => bBytes (k_buf s) = [] | _, _ => True end ->
   forall c, conn_out c s' ++ pend c s' =
     (conn_out c s ++ pend c s) ++
     match o, fst v with
     | SWrite p, Some i => if (i =? c)%nat then firstn (Z.to_nat (fst x)) p else []
     | _, _ => []
     end) /\
  match o, snd x with
  | SWrite _, None => k_conn s <> None
  | SFlush, None => bBytes (k_buf s') = []
  | _, _ => bBytes (k_buf s) = [] -> bBytes (k_buf s') = []
  end.
Proof.
  intros o s x s' v (B & V1 & V2 & C) H. destruct o; cbn [sock_op] in H.
  - destruct (sock_open dial s) as [e s1] eqn:O. injection H as <- <-. cbn [snd fst view_step].
    destruct (open_cases _ _ _ _ O) as [[E ->]|(-> & N & sched & ->)].
    + destruct e as [e|]; [|congruence]. split; [exact (conj B (conj V1 (conj V2 C)))|].
      split; [|auto]. intros _ _ c. now rewrite app_nil_r.
    + split; [|split; [|auto]].
      * unfold k_ok. cbn. rewrite app_length. cbn. rewrite V2. repeat split; auto; lia.
      * intros _ E c. unfold conn_out, pend. cbn [k_conns k_conn k_buf]. rewrite conn_new, N, E.
        destruct (_ =? c)%nat; now rewrite !app_nil_r.
  - destruct (sock_write p s) as [[n e] s1] eqn:W. injection H as <- <-. cbn [snd fst view_step].
    unfold sock_write in W. destruct (bWrite_spec p (k_buf s) B) as (b' & Wb & B' & Bb). rewrite Wb in W.
    rewrite V1. destruct (k_conn s) as [i|] eqn:Ci; injection W as <- <- <-.
    + split; [unfold k_ok; cbn [k_buf k_conn k_conns]; auto|]. split; [|discriminate].
      intros _ _ c. unfold conn_out, pend. cbn [k_conns k_conn k_buf]. rewrite Ci, Bb, Nat2Z.id, firstn_all.
      destruct (i =? c)%nat; now rewrite ?app_nil_r, ?app_assoc.
    + split; [unfold k_ok; rewrite Ci; auto|]. split; [|auto]. intros _ _ c. now rewrite app_nil_r.
  - destruct (sock_flush s) as [e s1] eqn:F. injection H as <- <-. cbn [snd fst view_step].
    unfold sock_flush in F. destruct (k_conn s) as [i|] eqn:Ci.
    + destruct (bWriteTo_spec (k_buf s) (conn_wt i (k_conns s)) B) as (sent & rest & e1 & b' & w' & R & B' & Q1 & Q2 & Q3 & Q4).
      rewrite R in F. injection F as <- <-.
      assert (G : k_ok (MkSock (Some i) (k_addr s) b' (set_conn i w' (k_conns s))) v).
      { unfold k_ok. cbn [k_buf k_conn k_conns]. rewrite set_conn_length. auto. }
      split; [destruct (transport_exc_from_os e1); exact G|]. split.
      * intros _ _ c. unfold conn_out, pend. cbn [k_conns k_conn k_buf]. rewrite Ci, Q2, app_nil_r.
        destruct (i =? c)%nat eqn:Ic.
        -- apply Nat.eqb_eq in Ic. subst c. rewrite set_conn_same by assumption.
           rewrite Q3, Q1, <- app_assoc. reflexivity.
        -- apply Nat.eqb_neq in Ic. rewrite set_conn_other by assumption. reflexivity.
      * destruct (transport_exc_from_os e1) eqn:T.
        -- intro E. rewrite E in Q1. cbn [k_buf]. rewrite Q2. destruct sent, rest; (discriminate || reflexivity).
        -- apply tefo_none2 in T. cbn [k_buf]. rewrite Q2. auto.
    + injection F as <- <-. split; [unfold k_ok; rewrite Ci; auto|]. split; [|auto].
      intros _ _ c. now rewrite app_nil_r.
  - destruct (sock_interrupt ce s) as [e s1] eqn:F. injection H as <- <-. cbn [snd fst view_step].
    assert (s1 = s) by (unfold sock_interrupt in F; destruct (k_conn s); congruence). subst s1.
    split; [destruct e; exact (conj B (conj V1 (conj V2 C)))|]. split; [|destruct e; auto].
    intros _ _ c. now rewrite app_nil_r.
  - destruct (sock_close ce s) as [e s1] eqn:F. injection H as <- <-. cbn [snd fst view_step].
    destruct (close_cases _ _ _ _ F) as [[E ->]|[-> ->]].
    + destruct e as [e|]; [|congruence]. split; [exact (conj B (conj V1 (conj V2 C)))|].
      split; [|auto]. intros _ _ c. now rewrite app_nil_r.
    + split; [unfold k_ok; cbn; auto|]. split; [|auto]. intros E _ c.
      unfold conn_out, pend. cbn [k_conns k_conn k_buf]. rewrite E.
      destruct (k_conn s); [destruct (_ =? c)%nat|]; now rewrite !app_nil_r.
Qed.

Lemma sock_run : forall os s xs s' v dirty, k_ok s v ->
  (dirty = false -> bBytes (k_buf s) = []) -> (k_conn s = None -> bBytes (k_buf s) = []) ->
  run_ops sock_op os s = (xs, s') -> flushed_before_close dirty os xs ->
  k_ok s' (view_run false os xs v) /\
  forall c, conn_out c s' ++ pend c s' = (conn_out c s ++ pend c s) ++ accepted false c os xs v.
Proof.
  induction os as [|o os IH]; intros s xs s' v dirty K D N R F; cbn [run_ops] in R.
  - injection R as <- <-. cbn. split; [assumption|]. intros c. now rewrite app_nil_r.
  - destruct (sock_op o s) as [x s1] eqn:O. destruct (run_ops sock_op os s1) as [l s2] eqn:R2.
    injection R as <- <-. destruct (sock_step _ _ _ _ _ K O) as (K1 & A & B).
    cbn [flushed_before_close] in F. cbn [accepted view_run].
    assert (P1 : match o, snd x with SClose _, None => bBytes (k_buf s) = [] | _, _ => True end).
    { destruct o; auto. destruct (snd x); auto. apply D. tauto. }
    assert (P2 : match o, snd x with SOpen _, None => bBytes (k_buf s) = [] | _, _ => True end).
    { destruct o; auto. destruct (snd x) eqn:X; auto. cbn [sock_op] in O.
      destruct (sock_open dial s) as [e s3] eqn:Op. injection O as <- <-. cbn in X. subst e.
      destruct (open_cases _ _ _ _ Op) as [[E _]|(_ & E & _)]; [congruence|auto]. }
    specialize (A P1 P2).
    assert (N1 : k_conn s1 = None -> bBytes (k_buf s1) = []).
    { intro C1. destruct K1 as (_ & V1 & _ & _). rewrite C1 in V1.
      destruct K as (_ & V0 & _ & _). cbn [view_step] in V1.
      destruct o; cbn [view_step] in V1; destruct (snd x) eqn:X; cbn [fst] in V1;
        try discriminate; try (apply B; apply N; congruence); try exact B.
      - exfalso. congruence.
      - apply B. exact P1. }
    assert (G : forall d1, flushed_before_close d1 os l -> (d1 = false -> bBytes (k_buf s1) = []) ->
      k_ok s2 (view_run false os l (view_step false o x v)) /\
      forall c, conn_out c s2 ++ pend c s2 = (conn_out c s ++ pend c s) ++
        match o, fst v with
        | SWrite p, Some i => if (i =? c)%nat then firstn (Z.to_nat (fst x)) p else []
        | _, _ => []
        end ++ accepted false c os l (view_step false o x v)).
    { intros d1 Fd Dd. destruct (IH s1 l s2 _ d1 K1 Dd N1 R2 Fd) as [Kf Af]. split; [assumption|].
      intro c. rewrite Af, A, <- !app_assoc. reflexivity. }
    destruct o; destruct (snd x) eqn:X; try (apply (G dirty); [assumption|]; auto; fail).
    + apply (G true); [assumption|discriminate].
    + apply (G false); [assumption|]. auto.
    + destruct F as [Fd F]. apply (G dirty); [assumption|]. auto.
Qed.

(** TNonblockingSocket *)
Lemma nsock_step : forall o s x s' v, k_ok s v -> nsock_op o s = (x, s') ->
  k_ok s' (view_step true o x v) /\
  forall c, conn_out c s' = conn_out c s ++
     match o, fst v with
     | SWrite p, Some i => if (i =? c)%nat then firstn (Z.to_nat (fst x)) p else []
     | _, _ => []
     end.
Proof.
  intros o s x s' v (B & V1 & V2 & C) H.
  assert (Gc : forall ce e s1, sock_close ce s = (e, s1) ->
    k_ok s1 (match e with None => (None, snd v) | _ => v end) /\
    forall c, conn_out c s1 = conn_out c s).
  { intros ce e s1 F. destruct (close_cases _ _ _ _ F) as [[E ->]|[-> ->]].
    - destruct e; [|congruence]. split; [exact (conj B (conj V1 (conj V2 C)))|auto].
    - split; [unfold k_ok; cbn; auto|reflexivity]. }
  destruct o; cbn [nsock_op] in H.
  - destruct (sock_open dial s) as [e s1] eqn:O. injection H as <- <-. cbn [snd fst view_step].
    destruct (open_cases _ _ _ _ O) as [[E ->]|(-> & N & sched & ->)].
    + destruct e as [e|]; [|congruence]. split; [exact (conj B (conj V1 (conj V2 C)))|].
      intros c. now rewrite app_nil_r.
    + split.
      * unfold k_ok. cbn. rewrite app_length. cbn. rewrite V2. repeat split; auto; lia.
      * intros c. unfold conn_out. cbn [k_conns]. now rewrite conn_new, app_nil_r.
  - destruct (nsock_write p s) as [[n e] s1] eqn:W. injection H as <- <-. cbn [snd fst view_step].
    unfold nsock_write in W. rewrite V1. destruct (k_conn s) as [i|] eqn:Ci.
    + destruct (twrite p (conn_wt i (k_conns s))) as [[m x] w] eqn:T. injection W as <- <- <-.
      destruct (twrite_parts _ _ _ _ _ T) as (k & -> & O & _).
      split; [destruct x; unfold k_ok; cbn [k_buf k_conn k_conns]; rewrite set_conn_length; auto|].
      intros c. unfold conn_out. cbn [k_conns]. rewrite Nat2Z.id. destruct (i =? c)%nat eqn:Ic.
      * apply Nat.eqb_eq in Ic. subst c. rewrite set_conn_same by assumption. rewrite O. f_equal.
        clear. revert k. induction p as [|y p IH]; intros [|k]; cbn; try reflexivity. now rewrite <- IH.
      * apply Nat.eqb_neq in Ic. rewrite set_conn_other, app_nil_r by assumption. reflexivity.
    + injection W as <- <- <-. split; [unfold k_ok; rewrite Ci; auto|]. intros c. now rewrite app_nil_r.
  - destruct (nsock_flush s) as [e s1] eqn:F. injection H as <- <-. cbn [snd fst view_step].
    assert (s1 = s) by (unfold nsock_flush in F; destruct (k_conn s); congruence). subst s1.
    split; [destruct e; exact (conj B (conj V1 (conj V2 C)))|]. intros c. now rewrite app_nil_r.
  - destruct (sock_close ce s) as [e s1] eqn:F. injection H as <- <-. cbn [snd fst view_step].
    destruct (Gc _ _ _ F) as [G1 G2]. split; [destruct e; exact G1|]. intros c. now rewrite app_nil_r.
  - destruct (sock_close ce s) as [e s1] eqn:F. injection H as <- <-. cbn [snd fst view_step].
    destruct (Gc _ _ _ F) as [G1 G2]. split; [destruct e; exact G1|]. intros c. now rewrite app_nil_r.
Qed.
Lemma nsock_run : forall os s xs s' v, k_ok s v -> run_ops nsock_op os s = (xs, s') ->
  k_ok s' (view_run true os xs v) /\
  forall c, conn_out c s' = conn_out c s ++ accepted true c os xs v.
Proof.
  induction os as [|o os IH]; intros s xs s' v K R; cbn [run_ops] in R.
  - injection R as <- <-. cbn. split; [assumption|]. intros c. now rewrite app_nil_r.
  - destruct (nsock_op o s) as [x s1] eqn:O. destruct (run_ops nsock_op os s1) as [l s2] eqn:R2.
    injection R as <- <-. destruct (nsock_step _ _ _ _ _ K O) as (K1 & A).
    destruct (IH _ _ _ _ K1 R2) as [K2 A2]. cbn [accepted view_run]. split; [assumption|].
    intro c. rewrite A2, A, <- app_assoc. reflexivity.
Qed.
