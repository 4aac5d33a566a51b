(** Properties of the sockets' timeouts: C109. *)
From Coq Require Import ZArith List Bool Lia.
From Coq Require Import ZifyBool ZifyNat.
From Verif Require Import Base Deadline.
Import ListNotations.
Open Scope Z_scope.

(** ** C109: a socket waits for the network as long as its timeout says *)

(** The timeout after some calls: that of the constructor or of the last SetTimeout. *)
Definition timeout_after (t0 : Z) (os : list call) : Z :=
  fold_left (fun t o => match o with DSetTimeout n => n | _ => t end) os t0.
(** The time by which something begun at [now] is done; never, if there is no timeout. *)
Definition limit (timeout now : Z) : option Z := if 0 <? timeout then Some (now + timeout) else None.
(** A socket as a constructor makes it. *)
Inductive created (t0 : Z) : dsock -> Prop :=
| cr_addr : created t0 (NewSock t0)
| cr_conn : created t0 (NewSockConn t0).
(** What the last of some calls asks of the network. *)
Definition last_asks (k : kind) (os : list call) (o : call) (s : dsock) : list event :=
  fst (dcall k o (snd (dcalls k os s))).

Lemma created_ok : forall t0 s, created t0 s -> d_ok s /\ d_timeout s = t0.
Proof. intros t0 s [|]; unfold d_ok; cbn; auto. Qed.
Lemma dcall_timeout : forall k o s,
  d_timeout (snd (dcall k o s)) = match o with DSetTimeout n => n | _ => d_timeout s end.
Proof.
  intros k o s. destruct o; cbn [dcall].
  - destruct (d_conn s); [reflexivity|]. destruct ok; reflexivity.
  - destruct (d_conn s); reflexivity.
  - destruct (d_conn s); [|reflexivity]. destruct k; reflexivity.
  - destruct (d_conn s); [|reflexivity]. destruct k; [destruct (d_waiting s)|]; reflexivity.
  - reflexivity.
  - destruct k; cbn [snd]; [reflexivity|]. unfold close_conn. destruct (d_conn s); [destruct ok|]; reflexivity.
  - cbn [snd]. unfold close_conn. destruct (d_conn s); [destruct ok|]; reflexivity.
Qed.
Lemma run_timeout : forall k os s, d_timeout (snd (dcalls k os s)) = timeout_after (d_timeout s) os.
Proof.
  intros k os. induction os as [|o os IH]; intros s; [reflexivity|]. cbn [dcalls]. unfold timeout_after. cbn [fold_left].
  pose proof (dcall_timeout k o s) as T. destruct (dcall k o s) as [e1 s1]. cbn [snd] in T.
  specialize (IH s1). destruct (dcalls k os s1) as [e2 s2]. cbn [snd] in *. rewrite IH, T. reflexivity.
Qed.
Lemma run_ok : forall k os s, d_ok s -> d_ok (snd (dcalls k os s)).
Proof.
  intros k os s K. destruct (dcalls k os s) as [e s'] eqn:E. exact (dcalls_ok _ _ _ _ _ K E).
Qed.

(** Every Read waits as long as the timeout in force says, counted from when it is called. *)
Theorem C109_reads : forall k t0 s os now, created t0 s ->
  last_asks k os (DRead now) s = [] \/
  exists c, last_asks k os (DRead now) s = [ERead c now (limit (timeout_after t0 os) now)].
Proof.
  intros k t0 s os now C. destruct (created_ok _ _ C) as [K T]. unfold last_asks.
  pose proof (run_ok k os s K) as K1. pose proof (run_timeout k os s) as T1. rewrite T in T1.
  destruct (dcalls k os s) as [e s1]. cbn [snd] in *. cbn [dcall]. unfold d_ok in K1.
  destruct (d_conn s1) as [c|]; [|left; reflexivity]. right. exists c. cbn [fst pushDeadline d_lines andb].
  rewrite get_set by exact K1. cbn [l_read]. rewrite T1. reflexivity.
Qed.
Print Assumptions C109_reads.

(** So does every Write of a TNonblockingSocket, which writes at once. *)
Theorem C109_nonblocking_writes : forall t0 s os now p, created t0 s ->
  last_asks KNonblocking os (DWrite now p) s = [] \/
  exists c, last_asks KNonblocking os (DWrite now p) s = [EWrite c now (limit (timeout_after t0 os) now)].
Proof.
  intros t0 s os now p C. destruct (created_ok _ _ C) as [K T]. unfold last_asks.
  pose proof (run_ok KNonblocking os s K) as K1. pose proof (run_timeout KNonblocking os s) as T1. rewrite T in T1.
  destruct (dcalls KNonblocking os s) as [e s1]. cbn [snd] in *. cbn [dcall]. unfold d_ok in K1.
  destruct (d_conn s1) as [c|]; [|left; reflexivity]. right. exists c. cbn [fst pushDeadline d_lines andb].
  rewrite get_set by exact K1. cbn [l_write]. rewrite T1. reflexivity.
Qed.
Print Assumptions C109_nonblocking_writes.

(** Open of a TSocket does too; that of a TNonblockingSocket waits for ever, whatever the
    timeout. *)
Theorem C109_open : forall t0 s os now ok, created t0 s ->
  last_asks KSocket os (DOpen now ok) s = [] \/
  last_asks KSocket os (DOpen now ok) s = [EDial now (limit (timeout_after t0 os) now)].
Proof.
  intros t0 s os now ok C. destruct (created_ok _ _ C) as [K T]. unfold last_asks.
  pose proof (run_timeout KSocket os s) as T1. rewrite T in T1.
  destruct (dcalls KSocket os s) as [e s1]. cbn [snd] in *. cbn [dcall].
  destruct (d_conn s1) as [c|]; [left; reflexivity|]. right. cbn [fst]. rewrite T1. reflexivity.
Qed.
Print Assumptions C109_open.
Theorem C109_nonblocking_open_refuted : forall t0 os now ok,
  (forall n b, ~ In (DOpen n b) os) -> 0 < timeout_after t0 os ->
  last_asks KNonblocking os (DOpen now ok) (NewSock t0) = [EDial now None] /\ limit (timeout_after t0 os) now <> None.
Proof.
  intros t0 os now ok N T. split.
  - assert (G : forall s, d_conn s = None -> d_conn (snd (dcalls KNonblocking os s)) = None).
    { clear T. induction os as [|o os IH]; intros s C; [exact C|]. cbn [dcalls].
      assert (C1 : d_conn (snd (dcall KNonblocking o s)) = None).
      { destruct o; cbn [dcall]; try rewrite C; cbn [snd]; auto.
        - destruct (N now0 ok0). left. reflexivity.
        - unfold close_conn. rewrite C. exact C.
        - unfold close_conn. rewrite C. exact C. }
      destruct (dcall KNonblocking o s) as [e1 s1]. cbn [snd] in C1.
      assert (I1 : forall n b, ~ In (DOpen n b) os) by (intros n b I1; apply (N n b); right; exact I1).
      specialize (IH I1 s1 C1). destruct (dcalls KNonblocking os s1). exact IH. }
    unfold last_asks. specialize (G (NewSock t0) eq_refl). cbn [dcall]. rewrite G. reflexivity.
  - unfold limit. replace (0 <? timeout_after t0 os) with true by lia. discriminate.
Qed.
Print Assumptions C109_nonblocking_open_refuted.

(** A TSocket writes when it is flushed, under the deadline of the last Write to the connection:
    that Write's time and the timeout it found.  [written] is that deadline, and whether the socket
    is open, as the calls and their results tell. *)
Definition mark : Type := (bool * option Z * Z)%type.
Definition mark_step (m : mark) (o : call) : mark :=
  let '(op, until, t) := m in
  match o with
  | DOpen _ true => if op then m else (true, None, t)
  | DWrite now _ => if op then (true, limit t now, t) else m
  | DSetTimeout n => (op, until, n)
  | DClose true => (false, None, t)
  | _ => m
  end.
Definition written (op : bool) (t0 : Z) (os : list call) : option Z := snd (fst (fold_left mark_step os (op, None, t0))).

Definition agrees (s : dsock) (m : mark) : Prop :=
  let '(op, until, t) := m in
  d_timeout s = t /\
  match d_conn s with
  | Some c => op = true /\ (c < length (d_lines s))%nat /\ l_write (get_lines c (d_lines s)) = until
  | None => op = false
  end.
Local Arguments get_lines : simpl never.
Lemma get_new : forall l x, get_lines (length l) (l ++ [x]) = x.
Proof. intros l x. unfold get_lines. rewrite app_nth2 by lia. rewrite Nat.sub_diag. reflexivity. Qed.
Lemma agrees_step : forall o s m, agrees s m -> agrees (snd (dcall KSocket o s)) (mark_step m o).
Proof.
  intros o s [[op until] t] A. unfold agrees in A. destruct A as [T A]. destruct o; cbn [dcall mark_step].
  - destruct (d_conn s) as [c|] eqn:C; cbn [snd].
    + destruct A as (-> & L & D). assert (Q : agrees s (true, until, t)) by (unfold agrees; rewrite C; auto).
      destruct ok; exact Q.
    + subst op. destruct ok; cbn; rewrite ?C; auto. split; [exact T|]. rewrite app_length. cbn. split; [reflexivity|].
      split; [lia|]. rewrite get_new. reflexivity.
  - destruct (d_conn s) as [c|] eqn:C; cbn.
    + destruct A as (-> & L & D). rewrite C. rewrite set_length, get_set by exact L. cbn. auto.
    + rewrite C. auto.
  - destruct (d_conn s) as [c|] eqn:C; cbn.
    + destruct A as (-> & L & D). cbn. rewrite C. rewrite set_length, get_set by exact L. cbn.
      split; [exact T|]. split; [reflexivity|]. split; [exact L|]. rewrite T. reflexivity.
    + subst op. cbn. rewrite C. auto.
  - destruct (d_conn s) as [c|] eqn:C; [destruct (d_waiting s)|]; cbn; rewrite ?C; auto.
  - cbn. auto.
  - cbn. rewrite T. auto.
  - cbn [snd]. unfold close_conn. destruct ok; destruct (d_conn s) as [c|] eqn:C; cbn; rewrite ?C; auto.
Qed.
Lemma agrees_run : forall os s m, agrees s m -> agrees (snd (dcalls KSocket os s)) (fold_left mark_step os m).
Proof.
  induction os as [|o os IH]; intros s m A; [exact A|]. cbn [dcalls fold_left].
  pose proof (agrees_step o s m A) as A1. destruct (dcall KSocket o s) as [e1 s1]. cbn [snd] in A1.
  specialize (IH s1 _ A1). destruct (dcalls KSocket os s1). exact IH.
Qed.
Definition has_conn (s : dsock) : bool := match d_conn s with Some _ => true | None => false end.
Theorem C109_flush : forall t0 s os now rest, created t0 s ->
  last_asks KSocket os (DFlush now rest) s = [] \/
  exists c, last_asks KSocket os (DFlush now rest) s = [EWrite c now (written (has_conn s) t0 os)].
Proof.
  intros t0 s os now rest C.
  assert (A : agrees s (has_conn s, None, t0)).
  { destruct C; cbn; auto. }
  apply (agrees_run os) in A. unfold last_asks, written.
  destruct (fold_left mark_step os (has_conn s, None, t0)) as [[op until] t]. cbn [fst snd].
  destruct (dcalls KSocket os s) as [e s1]. cbn [snd] in *. destruct A as [T A]. cbn [dcall].
  destruct (d_conn s1) as [c|]; [|left; reflexivity]. destruct A as (_ & _ & <-).
  destruct (d_waiting s1); [right; exists c; reflexivity|left; reflexivity].
Qed.
Print Assumptions C109_flush.

(** So it waits as the timeout says if it is flushed at the time of the last Write ... *)
Theorem C109_flush_partial : forall t0 s os now p rest, created t0 s ->
  last_asks KSocket (os ++ [DWrite now p]) (DFlush now rest) s = [] \/
  exists c, last_asks KSocket (os ++ [DWrite now p]) (DFlush now rest) s =
    [EWrite c now (limit (timeout_after t0 (os ++ [DWrite now p])) now)].
Proof.
  intros t0 s os now p rest C.
  assert (A : agrees s (has_conn s, None, t0)) by (destruct C; cbn; auto).
  pose proof (agrees_run os _ _ A) as A1. destruct (created_ok _ _ C) as [_ T].
  pose proof (run_timeout KSocket os s) as T1. rewrite T in T1.
  unfold last_asks, timeout_after. rewrite fold_left_app. cbn [fold_left]. fold (timeout_after t0 os).
  rewrite dcalls_app. destruct (dcalls KSocket os s) as [e s1]. cbn [snd] in *.
  pose proof (agrees_step (DWrite now p) s1 _ A1) as A2.
  destruct (fold_left mark_step os (has_conn s, None, t0)) as [[op until] t]. destruct A1 as [T2 A1].
  cbn [dcalls]. destruct (dcall KSocket (DWrite now p) s1) as [e2 s2]. cbn [snd] in A2 |- *. cbn [mark_step] in A2.
  cbn [dcall]. unfold agrees in A2. destruct (d_conn s2) as [c|]; [|left; reflexivity].
  destruct op.
  - destruct A2 as (_ & _ & _ & ->). destruct (d_waiting s2); [right; exists c|left; reflexivity].
    cbn [fst]. rewrite <- T2, T1. reflexivity.
  - destruct A2 as (_ & D & _). discriminate.
Qed.
Print Assumptions C109_flush_partial.

(** ... and not if time has passed since: what the Write found may be over before the Flush begins,
    which then fails at once; and a timeout set between the two does not matter. *)
Theorem C109_flush_refuted : forall t0 p now1 now2 rest, 0 < t0 -> p <> [] -> now1 + t0 < now2 ->
  exists past, last_asks KSocket [DWrite now1 p] (DFlush now2 rest) (NewSockConn t0) = [EWrite 0 now2 (Some past)] /\
    past < now2 /\
  last_asks KSocket [DWrite now1 p; DSetTimeout 0] (DFlush now2 rest) (NewSockConn t0) = [EWrite 0 now2 (Some past)].
Proof.
  intros t0 p now1 now2 rest T P L. exists (now1 + t0). unfold last_asks. cbn.
  replace (0 <? t0) with true by lia. destruct p; [congruence|]. cbn. auto.
Qed.
Print Assumptions C109_flush_refuted.

Example C109_case :
  created 10 (NewSock 10) /\
  (* connected at 0, asked at 5, flushed at 6, read at 7 with a timeout of 20 *)
  dcalls KSocket [DOpen 0 true; DWrite 5 [1]; DFlush 6 false; DSetTimeout 20; DRead 7] (NewSock 10) =
    ([EDial 0 (Some 10); EWrite 0 6 (Some 15); ERead 0 7 (Some 27)], MkDs (Some 0%nat) 20 [MkLines (Some 27) (Some 15)] false) /\
  (* bytes left over from an earlier connection are written under no deadline *)
  fst (dcalls KSocket [DOpen 0 true; DWrite 5 [1]; DClose true; DOpen 6 true; DFlush 7 false] (NewSock 10)) =
    [EDial 0 (Some 10); EDial 6 (Some 16); EWrite 1 7 None] /\
  fst (dcalls KNonblocking [DOpen 0 true; DWrite 5 [1]; DFlush 6 false; DSetTimeout 0; DRead 7] (NewSock 10)) =
    [EDial 0 None; EWrite 0 5 (Some 15); ERead 0 7 None].
Proof. repeat match goal with |- _ /\ _ => split end; try reflexivity. constructor. Qed.
