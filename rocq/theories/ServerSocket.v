(** TServerSocket (tserver_socket.go) and TNonblockingServerSocket
    (tnonblocking_server_socket.go). *)
From Coq Require Import ZArith List Bool Lia.
From Verif Require Import Base Errors.
Import ListNotations.
Open Scope Z_scope.

(** tserver_socket.go:26-47, tnonblocking_server_socket.go:29-36: whether there is a listener and
    (TServerSocket made from a connection) a connection to be closed with it. *)
Record ssock : Type := MkSsock { ss_listener : bool; ss_conn : bool }.
(** NewTServerSocketAddr*, NewTNonblockingServerSocketAddr* *)
Definition NewServerSocketAddr : ssock := MkSsock false false.
(** NewTServerSocketConn* (tserver_socket.go:68-75) *)
Definition NewTServerSocketConn : ssock := MkSsock false true.
(** NewTNonblockingServerSocketListener (tnonblocking_server_socket.go:58-61) *)
Definition NewTNonblockingServerSocketListener : ssock := MkSsock true false.

(** What the operating system does: [le] the result of net.Listen, [ae] of the listener's Accept,
    [lc] and [cc] of closing the listener and the connection; None is success. *)
(** TServerSocket.Listen (tserver_socket.go:86-93) *)
Definition ss_listen (le : option err) (s : ssock) : option err * ssock :=
  if ss_listener s then (None, s)
  else match le with
       | Some e => (Some e, s)
       | None => (None, MkSsock true (ss_conn s))
       end.
(** TServerSocket.Accept (tserver_socket.go:95-109); true: a connection was accepted *)
Definition ss_accept (le ae : option err) (s : ssock) : bool * option err * ssock :=
  let '(e, s1) := ss_listen le s in
  match e with
  | Some _ => (false, transport_exc_from_os e, s1)
  | None =>
    match ae with
    | Some _ => (false, transport_exc_from_os ae, s1)
    | None => (true, None, s1)
    end
  end.
(** Open (tserver_socket.go:121-131, tnonblocking_server_socket.go:97-107) *)
Definition ss_open (le : option err) (s : ssock) : option err * ssock :=
  if ss_listener s then (Some (ETransport ALREADY_OPEN), s)
  else match le with
       | Some e => (Some e, s)
       | None => (None, MkSsock true (ss_conn s))
       end.
(** Close (tserver_socket.go:169-185); TNonblockingServerSocket (156-165) has no connection *)
Definition ss_close (lc cc : option err) (s : ssock) : option err * ssock :=
  match (if ss_listener s then lc else None) with
  | Some e => (transport_exc_from_os (Some e), s)
  | None =>
    match (if ss_conn s then cc else None) with
    | Some e => (transport_exc_from_os (Some e), MkSsock false (ss_conn s))
    | None => (None, MkSsock false false)
    end
  end.
(** TServerSocket.Interrupt (tserver_socket.go:187-190); TNonblockingServerSocket.Interrupt is
    Close (167-170) *)
Definition ss_interrupt (lc cc : option err) (s : ssock) : option err * ssock :=
  let '(e, s') := ss_close lc cc s in (transport_exc_from_os e, s').
(** TNonblockingServerSocket.Accept (tnonblocking_server_socket.go:138-147) *)
Definition nss_accept (ae : option err) (s : ssock) : bool * option err * ssock :=
  if negb (ss_listener s) then (false, Some (ETransport NOT_OPEN), s)
  else match ae with
       | Some _ => (false, transport_exc_from_os ae, s)
       | None => (true, None, s)
       end.

Inductive ssop : Type :=
| SsListen (le : option err) | SsOpen (le : option err) | SsAccept (le ae : option err)
| SsInterrupt (lc cc : option err) | SsClose (lc cc : option err).
(** Whether a connection was accepted, and the error. *)
Definition ssres := (bool * option err)%type.
Definition ss_op (o : ssop) (s : ssock) : ssres * ssock :=
  match o with
  | SsListen le => let '(e, s') := ss_listen le s in ((false, e), s')
  | SsOpen le => let '(e, s') := ss_open le s in ((false, e), s')
  | SsAccept le ae => let '(a, e, s') := ss_accept le ae s in ((a, e), s')
  | SsInterrupt lc cc => let '(e, s') := ss_interrupt lc cc s in ((false, e), s')
  | SsClose lc cc => let '(e, s') := ss_close lc cc s in ((false, e), s')
  end.
(** TNonblockingServerSocket; Listen is Open (tnonblocking_server_socket.go:73-75) *)
Definition nss_op (o : ssop) (s : ssock) : ssres * ssock :=
  match o with
  | SsListen le | SsOpen le => let '(e, s') := ss_open le s in ((false, e), s')
  | SsAccept _ ae => let '(a, e, s') := nss_accept ae s in ((a, e), s')
  | SsInterrupt lc cc | SsClose lc cc => let '(e, s') := ss_close lc cc s in ((false, e), s')
  end.
Fixpoint ss_run (step : ssop -> ssock -> ssres * ssock) (os : list ssop) (s : ssock) : list ssres * ssock :=
  match os with
  | [] => ([], s)
  | o :: os' => let '(x, s1) := step o s in let '(l, s2) := ss_run step os' s1 in (x :: l, s2)
  end.

(** What an observer of calls and results expects: listening after a successful Listen or Open,
    no longer after a successful Close or Interrupt. *)
Definition lstep (o : ssop) (x : ssres) (l : bool) : bool :=
  match o, snd x with
  | (SsListen _ | SsOpen _), None => true
  | (SsInterrupt _ _ | SsClose _ _), None => false
  | _, _ => l
  end.
(** Accept succeeds only while listening. *)
Fixpoint accepts_while_listening (l : bool) (os : list ssop) (xs : list ssres) : Prop :=
  match os, xs with
  | o :: os', x :: xs' =>
    (fst x = true -> l = true) /\
    (match o with
     | SsAccept _ _ => l = false -> x = (false, Some (ETransport NOT_OPEN))
     | _ => True
     end) /\
    accepts_while_listening (lstep o x l) os' xs'
  | [], [] => True
  | _, _ => False
  end.
Lemma nss_accepts : forall os s, ss_conn s = false ->
  accepts_while_listening (ss_listener s) os (fst (ss_run nss_op os s)).
Proof.
  induction os as [|o os IH]; intros s C; cbn [ss_run]; [exact I|].
  destruct (nss_op o s) as [x s1] eqn:O. destruct (ss_run nss_op os s1) as [l s2] eqn:R.
  cbn [fst accepts_while_listening].
  assert (G : ss_conn s1 = false /\ ss_listener s1 = lstep o x (ss_listener s) /\
    (fst x = true -> ss_listener s = true) /\
    (match o with
     | SsAccept _ _ => ss_listener s = false -> x = (false, Some (ETransport NOT_OPEN))
     | _ => True
     end)).
  { destruct s as [sl sc]. cbn in C. subst sc.
    destruct o; cbn [nss_op] in O;
      unfold ss_open, nss_accept, ss_close in O; cbn [ss_listener ss_conn] in O; destruct sl; cbn [negb] in O.
    all: repeat match goal with
         | H : context [match ?e with Some _ => _ | None => _ end] |- _ => destruct e eqn:?
         end.
    all: try (injection O as <- <-; cbn; repeat split; congruence).
    all: injection O as <- <-; cbn; repeat split; try congruence;
      match goal with e : err |- _ => destruct e; cbn in *; congruence end. }
  destruct G as (G1 & G2 & G3 & G4). split; [assumption|]. split; [assumption|].
  rewrite <- G2. specialize (IH s1 G1). rewrite R in IH. exact IH.
Qed.
