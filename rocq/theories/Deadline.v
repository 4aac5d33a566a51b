(** The timeouts of TSocket and TNonblockingSocket (tsocket.go, tnonblocking_socket.go): the
    deadlines under which they use their connections.

    Simplifications.  Times are integers without bounds (nanoseconds).  The bytes are left out
    (Socket.v has them) but for whether any are waiting in the writeBuffer of a TSocket.  An
    address that is not usable is left out: Open dials. *)
From Coq Require Import ZArith List Bool Lia.
From Verif Require Import Base.
Import ListNotations.
Open Scope Z_scope.

Inductive kind : Type := KSocket | KNonblocking.
(** The deadlines set on a connection: [None] is the zero time, no deadline. *)
Record lines : Type := MkLines { l_read : option Z; l_write : option Z }.
(** The fields conn and nsecTimeout; the deadlines of the connections made so far; whether
    writeBuffer is not empty. *)
Record dsock : Type := MkDs { d_conn : option nat; d_timeout : Z; d_lines : list lines; d_waiting : bool }.

(** What is asked of the network, when, and the time by which it must be done. *)
Inductive event : Type :=
| EDial (now : Z) (until : option Z)
| ERead (c : nat) (now : Z) (until : option Z)
| EWrite (c : nat) (now : Z) (until : option Z).

(** Calls, with the time they are made at and how the network answers: whether Dial and Close
    succeed, whether Flush leaves bytes behind. *)
Inductive call : Type :=
| DOpen (now : Z) (ok : bool) | DRead (now : Z) | DWrite (now : Z) (p : bytes) | DFlush (now : Z) (rest : bool)
| DSetTimeout (nsec : Z) | DInterrupt (ok : bool) | DClose (ok : bool).

Definition get_lines (c : nat) (l : list lines) : lines := nth c l (MkLines None None).
Fixpoint set_lines (c : nat) (x : lines) (l : list lines) : list lines :=
  match c, l with
  | _, [] => []
  | O, _ :: l' => x :: l'
  | S c', y :: l' => y :: set_lines c' x l'
  end.

(** pushDeadline, tsocket.go:107-119, tnonblocking_socket.go:84-96 *)
Definition pushDeadline (read write : bool) (now : Z) (c : nat) (s : dsock) : dsock :=
  let t := if 0 <? d_timeout s then Some (now + d_timeout s) else None in
  let l := get_lines c (d_lines s) in
  let l' := if read && write then MkLines t t
            else if read then MkLines t (l_write l)
            else if write then MkLines (l_read l) t
            else l in
  MkDs (d_conn s) (d_timeout s) (set_lines c l' (d_lines s)) (d_waiting s).

Definition close_conn (ok : bool) (s : dsock) : dsock :=
  match d_conn s with
  | Some _ => if ok then MkDs None (d_timeout s) (d_lines s) (d_waiting s) else s
  | None => s
  end.

(** Open: tsocket.go:141-167, tnonblocking_socket.go:108-128; Read: 185-192, 133-140; Write: 198-205,
    149-155; Flush: 211-217, 160-172; SetTimeout: 102-105, 79-82; Interrupt: 219-225, 196-202; Close:
    172-183, 185-194. *)
Definition dcall (k : kind) (o : call) (s : dsock) : list event * dsock :=
  match o with
  | DOpen now ok =>
    match d_conn s with
    | Some _ => ([], s)
    | None =>
      let until := match k with
                   | KSocket => if 0 <? d_timeout s then Some (now + d_timeout s) else None  (* net.DialTimeout *)
                   | KNonblocking => None                                                    (* net.Dial *)
                   end in
      ([EDial now until],
       if ok then MkDs (Some (length (d_lines s))) (d_timeout s) (d_lines s ++ [MkLines None None]) (d_waiting s) else s)
    end
  | DRead now =>
    match d_conn s with
    | None => ([], s)
    | Some c => let s' := pushDeadline true false now c s in ([ERead c now (l_read (get_lines c (d_lines s')))], s')
    end
  | DWrite now p =>
    match d_conn s with
    | None => ([], s)
    | Some c =>
      let s' := pushDeadline false true now c s in
      match k with
      | KSocket =>                                           (* p.writeBuffer.Write(buf) *)
        ([], MkDs (d_conn s') (d_timeout s') (d_lines s') (d_waiting s' || negb (length p =? 0)%nat))
      | KNonblocking => ([EWrite c now (l_write (get_lines c (d_lines s')))], s')
      end
    end
  | DFlush now rest =>
    match d_conn s, k with
    | Some c, KSocket =>                                     (* p.writeBuffer.WriteTo(p.conn) *)
      if d_waiting s
      then ([EWrite c now (l_write (get_lines c (d_lines s)))], MkDs (d_conn s) (d_timeout s) (d_lines s) rest)
      else ([], s)
    | _, _ => ([], s)                                        (* connections have no Flush *)
    end
  | DSetTimeout n => ([], MkDs (d_conn s) n (d_lines s) (d_waiting s))
  | DInterrupt ok => ([], match k with KSocket => s | KNonblocking => close_conn ok s end)
  | DClose ok => ([], close_conn ok s)
  end.
Fixpoint dcalls (k : kind) (os : list call) (s : dsock) : list event * dsock :=
  match os with
  | [] => ([], s)
  | o :: os' => let '(e1, s1) := dcall k o s in let '(e2, s2) := dcalls k os' s1 in (e1 ++ e2, s2)
  end.
(** NewTSocket (tsocket.go:92-95), NewTNonblockingSocketAddrTimeout (tnonblocking_socket.go:69-72) *)
Definition NewSock (timeout : Z) : dsock := MkDs None timeout [] false.
(** NewTSocketConnTimeout (tsocket.go:64-72), NewTNonblockingSocketConn (59-62) and SetTimeout *)
Definition NewSockConn (timeout : Z) : dsock := MkDs (Some O) timeout [MkLines None None] false.

(** ** Lemmas *)
Lemma dcalls_app : forall k a b s,
  dcalls k (a ++ b) s = let '(e1, s1) := dcalls k a s in let '(e2, s2) := dcalls k b s1 in (e1 ++ e2, s2).
Proof.
  intros k a b. induction a as [|o a IH]; intros s; cbn [app dcalls].
  - destruct (dcalls k b s). reflexivity.
  - destruct (dcall k o s) as [e1 s1]. rewrite IH. destruct (dcalls k a s1) as [e2 s2].
    destruct (dcalls k b s2) as [e3 s3]. rewrite app_assoc. reflexivity.
Qed.
Lemma get_set : forall c x l, (c < length l)%nat -> get_lines c (set_lines c x l) = x.
Proof. unfold get_lines. induction c; intros x [|y l] L; cbn in *; try lia; auto. apply IHc. lia. Qed.
Lemma set_length : forall c x l, length (set_lines c x l) = length l.
Proof. induction c; intros x [|y l]; cbn; auto. Qed.
Definition d_ok (s : dsock) : Prop := match d_conn s with Some c => (c < length (d_lines s))%nat | None => True end.
Lemma dcall_ok : forall k o s e s', d_ok s -> dcall k o s = (e, s') -> d_ok s'.
Proof.
  intros k o s e s' K H. unfold d_ok in *. destruct o; cbn [dcall] in H.
  - destruct (d_conn s) eqn:C; injection H as <- <-; [rewrite C; exact K|]. destruct ok; [|rewrite C; exact I].
    cbn. rewrite app_length. cbn. lia.
  - destruct (d_conn s) eqn:C; injection H as <- <-; cbn; rewrite C; [|exact I]. rewrite set_length. exact K.
  - destruct (d_conn s) eqn:C; [|injection H as <- <-; rewrite C; exact I].
    destruct k; injection H as <- <-; cbn; rewrite C; rewrite set_length; exact K.
  - destruct (d_conn s) eqn:C; [|injection H as <- <-; rewrite C; exact I].
    destruct k; [destruct (d_waiting s)|]; injection H as <- <-; cbn; try rewrite C; exact K.
  - injection H as <- <-. exact K.
  - injection H as <- <-. destruct k; [exact K|]. unfold close_conn. destruct (d_conn s) eqn:C; [destruct ok|];
      cbn; try rewrite C; auto.
  - injection H as <- <-. unfold close_conn. destruct (d_conn s) eqn:C; [destruct ok|]; cbn; try rewrite C; auto.
Qed.
Lemma dcalls_ok : forall k os s e s', d_ok s -> dcalls k os s = (e, s') -> d_ok s'.
Proof.
  intros k os. induction os as [|o os IH]; intros s e s' K H; cbn [dcalls] in H; [injection H as <- <-; exact K|].
  destruct (dcall k o s) as [e1 s1] eqn:E. destruct (dcalls k os s1) as [e2 s2] eqn:F. injection H as <- <-.
  exact (IH _ _ _ (dcall_ok _ _ _ _ _ K E) F).
Qed.
