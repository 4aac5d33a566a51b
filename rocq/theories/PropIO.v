(** Properties of the stream and socket transports: C31 - C34. *)
From Coq Require Import ZArith List Bool Lia.
From Coq Require Import ZifyBool ZifyNat.
From Verif Require Import Base Errors Transport TransportProofs Buffer BufIO IOStream Socket Http
  ServerSocket WfDec.
Import ListNotations.
Open Scope Z_scope.

(** ** C31 *)
(** Writing no bytes panics in every variant that has a writer. *)
Theorem C31_empty_write_refuted : exists p, forall v closer flusher r, In v [VW; VRAndW; VRW] ->
  ios_run [IWrite p] (NewTIOStreamTransport v closer flusher r (MkWt [] [])) = Panic.
Proof.
  exists []. intros v c f r [<-|[<-|[<-|[]]]]; destruct c, f; reflexivity.
Qed.
Print Assumptions C31_empty_write_refuted.
(** A ReadWriter that can be closed still receives bytes after Close. *)
Theorem C31_write_after_close_refuted : exists s l s',
  s = NewTIOStreamTransport VRW true false [] (MkWt [] []) /\
  ios_run [IClose; IWrite [65]] s = Ok (l, s') /\ i_out s' = [65].
Proof. eexists _, _, _. split; [reflexivity|]. split; vm_compute; reflexivity. Qed.
Print Assumptions C31_write_after_close_refuted.

Lemma C31_aux : forall v closer flusher r w os, Forall wr_nonempty os ->
  exists l s', ios_run os (NewTIOStreamTransport v closer flusher r w) = Ok (l, s').
Proof.
  intros v c f r w os N. destruct (ios_no_panic os _ (new_ok v c f r w) N) as (l & s' & H & _). eauto.
Qed.
(** What holds: no history whose writes are non-empty panics, whatever the wrapped objects do.
    Missing: empty writes. *)
Theorem C31_no_panic_partial : forall v closer flusher r w os, Forall wr_nonempty os ->
  exists l s', ios_run os (NewTIOStreamTransport v closer flusher r w) = Ok (l, s').
Proof. exact C31_aux. Qed.
Print Assumptions C31_no_panic_partial.

Lemma C31_aux2 : forall v closer flusher r w os1 l1 s1 os2, v <> VRW \/ closer = false ->
  ios_run os1 (NewTIOStreamTransport v closer flusher r w) = Ok (l1, s1) ->
  exists l2 s2, ios_run (os1 ++ IClose :: os2) (NewTIOStreamTransport v closer flusher r w) = Ok (l1 ++ l2, s2) /\
    i_out s2 = i_out s1.
Proof.
  intros v c f r w os1 l1 s1 os2 V R. destruct (ios_run_frame _ _ _ _ R) as [A B].
  assert (Q : i_isrw s1 && i_closer s1 = false).
  { rewrite A, B. destruct v, c; cbn; try reflexivity. destruct V; congruence. }
  destruct (ios_close_nil s1 Q) as [W O].
  destruct (ios_nil_writer os2 _ W) as (l & s2 & R2 & _ & O2).
  exists (([], 0, None) :: l), s2. rewrite ios_run_app, R. cbn [obind ios_run ios_op]. rewrite R2. cbn [obind].
  split; [reflexivity|congruence].
Qed.
(** What holds: except for a closable ReadWriter, nothing done after Close reaches the wrapped
    writer.  Missing: NewTIOStreamTransportRW of an object with a Close method. *)
Theorem C31_nothing_after_close_partial : forall v closer flusher r w os1 l1 s1 os2,
  v <> VRW \/ closer = false ->
  ios_run os1 (NewTIOStreamTransport v closer flusher r w) = Ok (l1, s1) ->
  exists l2 s2, ios_run (os1 ++ IClose :: os2) (NewTIOStreamTransport v closer flusher r w) = Ok (l1 ++ l2, s2) /\
    i_out s2 = i_out s1.
Proof. exact C31_aux2. Qed.
Print Assumptions C31_nothing_after_close_partial.

(** What calls on a closed transport answer. *)
Definition refused (o : iop) (res : bytes * Z * option err) : Prop :=
  match o with
  | IRead _ | IWrite _ | IFlush _ => res = ([], 0, Some (ETransport NOT_OPEN))
  | IReadAll n => (0 < n)%nat -> res = ([], 0, Some (ETransport UNKNOWN_TRANSPORT_EXCEPTION))
  | IOpen | IClose => res = ([], 0, None)
  end.
Lemma C31_aux4 : forall os s, i_writer s = RNil -> i_reader s = RNil ->
  exists l s', ios_run os s = Ok (l, s') /\ Forall2 refused os l.
Proof.
  induction os as [|o os IH]; intros s W R; cbn [ios_run]; [eexists _, _; split; [reflexivity|constructor]|].
  assert (G : exists res s1, ios_op o s = Ok (fst (fst res), snd (fst res), snd res, s1) /\ refused o res /\
                i_writer s1 = RNil /\ i_reader s1 = RNil).
  { destruct o; cbn [ios_op].
    - exists ([], 0, None), s. cbn. auto.
    - unfold ios_read. rewrite R. eexists (_, _, _), s. cbn. auto.
    - destruct n as [|n]; cbn [Framed.read_all_via].
      + eexists (_, _, _), s. cbn. split; [reflexivity|]. split; [lia|auto].
      + unfold ios_read at 1. rewrite R. eexists (_, _, _), s. cbn. auto.
    - unfold ios_write. rewrite W. eexists (_, _, _), s. cbn. auto.
    - unfold ios_flush. rewrite W. eexists (_, _, _), s. cbn. auto.
    - eexists (_, _, _), _. split; [reflexivity|]. unfold ios_close, refused. cbn. rewrite W. auto. }
  destruct G as ([[d n] e] & s1 & E & Q & W1 & R1). rewrite E. cbn [obind fst snd].
  destruct (IH s1 W1 R1) as (l & s' & E2 & Q2). rewrite E2. cbn [obind].
  exists ((d, n, e) :: l), s'. split; [reflexivity|constructor; assumption].
Qed.
(** Every call after Close, in any history and even after Open, reports that the transport is
    not open.  Missing: as above, a closable ReadWriter. *)
Theorem C31_closed_calls_fail_partial : forall v closer flusher r w os1 l1 s1 os2,
  v <> VRW \/ closer = false ->
  ios_run os1 (NewTIOStreamTransport v closer flusher r w) = Ok (l1, s1) ->
  exists l2 s2, ios_run (os1 ++ IClose :: os2) (NewTIOStreamTransport v closer flusher r w) =
      Ok (l1 ++ ([], 0, None) :: l2, s2) /\ Forall2 refused os2 l2.
Proof.
  intros v c f r w os1 l1 s1 os2 V R. destruct (ios_run_frame _ _ _ _ R) as [A B].
  assert (Q : i_isrw s1 && i_closer s1 = false).
  { rewrite A, B. destruct v, c; cbn; try reflexivity. destruct V; congruence. }
  destruct (ios_close_nil s1 Q) as [W O].
  destruct (C31_aux4 os2 (ios_close s1) W eq_refl) as (l & s2 & R2 & F).
  exists l, s2. rewrite ios_run_app, R. cbn [obind ios_run ios_op]. rewrite R2. cbn [obind].
  split; [reflexivity|exact F].
Qed.
Print Assumptions C31_closed_calls_fail_partial.

Lemma C31_aux3 : forall v closer flusher r w os fe l s', v = VW \/ v = VRAndW \/ v = VRW ->
  Forall write_or_flush os ->
  ios_run (os ++ [IFlush fe]) (NewTIOStreamTransport v closer flusher r w) = Ok (l, s') -> Forall no_err l ->
  i_out s' = w_out w ++ iwrites os.
Proof.
  intros v c f r w os fe l s' V T H N. rewrite ios_run_app in H.
  destruct (ios_run os (NewTIOStreamTransport v c f r w)) as [[l1 s1]| |] eqn:R; cbn [obind] in H; try discriminate.
  destruct (ios_run [IFlush fe] s1) as [[l2 s2]| |] eqn:R2; cbn [obind] in H; try discriminate.
  injection H as <- <-. apply Forall_app in N. destruct N as [N1 N2].
  assert (W0 : i_writer (NewTIOStreamTransport v c f r w) <> RNil)
    by (destruct V as [->|[->| ->]]; discriminate).
  destruct (ios_run_stream os _ l1 s1 (new_ok v c f r w) W0 T R N1) as (K1 & W1 & A1).
  cbn [ios_run] in R2. destruct (ios_op (IFlush fe) s1) as [[[[d n] e] s3]| |] eqn:O; cbn [obind] in R2; try discriminate.
  injection R2 as <- <-. inversion N2 as [|? ? Ne _]; subst. unfold no_err in Ne; cbn in Ne. subst e.
  destruct (ios_op_stream (IFlush fe) s1 d n s3 K1 ltac:(congruence) I O) as (_ & W3 & A3 & P).
  rewrite P, app_nil_r in A3. rewrite A3, A1. unfold iwrites. cbn [map concat]. rewrite app_nil_r.
  f_equal. unfold i_out, i_pending. destruct V as [->|[->| ->]]; cbn; rewrite app_nil_r; reflexivity.
Qed.
(** Once a Flush has succeeded the wrapped writer has exactly the written bytes, whatever sizes
    they were written in. *)
Theorem C31_flush_delivers : forall v closer flusher r w os fe l s', v = VW \/ v = VRAndW \/ v = VRW ->
  Forall write_or_flush os ->
  ios_run (os ++ [IFlush fe]) (NewTIOStreamTransport v closer flusher r w) = Ok (l, s') -> Forall no_err l ->
  i_out s' = w_out w ++ iwrites os.
Proof. exact C31_aux3. Qed.
Print Assumptions C31_flush_delivers.
Example C31_case :
  let s := NewTIOStreamTransport VRAndW true true [([1; 2], None)] (MkWt [] []) in
  Forall wr_nonempty [IWrite [65; 66]; IRead 1; IFlush None; IWrite [67]; IClose; IWrite [68]; IFlush None] /\
  match ios_run [IWrite [65; 66]; IRead 1; IFlush None; IWrite [67]; IClose; IWrite [68]; IFlush None] s with
  | Ok (l, s') => i_out s' = [65; 66] /\
      map snd l = [None; None; None; None; None; Some (ETransport NOT_OPEN); Some (ETransport NOT_OPEN)]
  | _ => False
  end.
Proof. cbn zeta. split; [repeat constructor; discriminate|]. vm_compute. auto. Qed.

(** ** C32 *)
(** Bytes written to one connection and not flushed are sent to the next one. *)
Theorem C32_bytes_survive_close_refuted : exists os xs s',
  os = [SOpen (Some []); SWrite [65]; SClose None; SOpen (Some []); SFlush] /\
  run_ops sock_op os (NewTSocket AddrOk) = (xs, s') /\
  accepted false 0 os xs (None, O) = [65] /\ accepted false 1 os xs (None, O) = [] /\
  conn_out 0 s' = [] /\ conn_out 1 s' = [65].
Proof.
  eexists _, _, _. split; [reflexivity|]. split; [vm_compute; reflexivity|].
  repeat split; vm_compute; reflexivity.
Qed.
Print Assumptions C32_bytes_survive_close_refuted.

Lemma C32_aux : forall a os xs s', run_ops sock_op os (NewTSocket a) = (xs, s') ->
  flushed_before_close false os xs ->
  forall c, exists rest, accepted false c os xs (None, O) = conn_out c s' ++ rest /\
    (fst (view_run false os xs (None, O)) <> Some c -> rest = []) /\
    (fst (view_run false os xs (None, O)) = Some c -> rest = bBytes (k_buf s')).
Proof.
  intros a os xs s' R F c.
  assert (K : k_ok (NewTSocket a) (None, O)) by (unfold k_ok; cbn; repeat split; apply bNew_ok).
  destruct (sock_run os _ xs s' _ false K (fun _ => eq_refl) (fun _ => eq_refl) R F) as [(_ & V & _) A].
  specialize (A c). exists (pend c s').
  assert (Z : conn_out c (NewTSocket a) = []) by (unfold conn_out, conn_wt; destruct c; reflexivity).
  rewrite Z in A. unfold pend in A at 2. cbn [NewTSocket k_conn app] in A.
  split; [symmetry; exact A|]. rewrite V. unfold pend. destruct (k_conn s') as [i|].
  - split; intro H.
    + destruct (i =? c)%nat eqn:E; [|reflexivity]. apply Nat.eqb_eq in E. congruence.
    + injection H as ->. rewrite Nat.eqb_refl. reflexivity.
  - split; [reflexivity|discriminate].
Qed.
(** What holds for TSocket: if every successful Close follows a successful Flush with no Write in
    between, each connection has received exactly the bytes accepted while it was open, in order;
    for the one still open the rest is in the buffer.  Open, Write, Flush, Close and Interrupt may
    otherwise fail in any way.  Missing: Close with unflushed bytes. *)
Theorem C32_isolation_partial : forall a os xs s', run_ops sock_op os (NewTSocket a) = (xs, s') ->
  flushed_before_close false os xs ->
  forall c, exists rest, accepted false c os xs (None, O) = conn_out c s' ++ rest /\
    (fst (view_run false os xs (None, O)) <> Some c -> rest = []) /\
    (fst (view_run false os xs (None, O)) = Some c -> rest = bBytes (k_buf s')).
Proof. exact C32_aux. Qed.
Print Assumptions C32_isolation_partial.

Lemma C32_aux2 : forall a os xs s', run_ops nsock_op os (NewTSocket a) = (xs, s') ->
  forall c, conn_out c s' = accepted true c os xs (None, O).
Proof.
  intros a os xs s' R c.
  assert (K : k_ok (NewTSocket a) (None, O)) by (unfold k_ok; cbn; repeat split; apply bNew_ok).
  destruct (nsock_run os _ xs s' _ K R) as [_ A]. rewrite A.
  assert (Z : conn_out c (NewTSocket a) = []) by (unfold conn_out, conn_wt; destruct c; reflexivity).
  rewrite Z. reflexivity.
Qed.
(** TNonblockingSocket: each connection receives exactly what was accepted while it was open, for
    every history. *)
Theorem C32_nonblocking_isolation : forall a os xs s', run_ops nsock_op os (NewTSocket a) = (xs, s') ->
  forall c, conn_out c s' = accepted true c os xs (None, O).
Proof. exact C32_aux2. Qed.
Print Assumptions C32_nonblocking_isolation.

(** What calls answer when no connection is open (as seen by the observer), and when Open fails. *)
Definition sock_answer (a : addr) (ci : bool) (o : sop) (x : sres) (v : view) : Prop :=
  match o, fst v with
  | SOpen _, Some _ => x = (0, Some (ETransport ALREADY_OPEN))
  | SOpen d, None =>
    (snd x = None <-> a = AddrOk /\ d <> None) /\ (snd x = None \/ x = (0, Some (ETransport NOT_OPEN)))
  | (SWrite _ | SFlush), None => x = (0, Some (ETransport NOT_OPEN))
  | (SInterrupt _ | SClose _), None => x = (0, None)
  | (SInterrupt ce | SClose ce), Some _ => x = (0, ce)
  | _, Some _ => True
  end.
Fixpoint sock_answers (a : addr) (ci : bool) (os : list sop) (xs : list sres) (v : view) : Prop :=
  match os, xs with
  | [], [] => True
  | o :: os', x :: xs' => sock_answer a ci o x v /\ sock_answers a ci os' xs' (view_step ci o x v)
  | _, _ => False
  end.
Lemma C32_aux3 : forall (b : bool) a os s v xs s', k_addr s = a -> fst v = k_conn s ->
  snd v = length (k_conns s) ->
  run_ops (if b then nsock_op else sock_op) os s = (xs, s') -> sock_answers a b os xs v.
Proof.
  intros b a. induction os as [|o os IH]; intros s v xs s' A V Vn R; cbn [run_ops] in R.
  - injection R as <- <-. exact I.
  - destruct ((if b then nsock_op else sock_op) o s) as [x s1] eqn:O.
    destruct (run_ops (if b then nsock_op else sock_op) os s1) as [l s2] eqn:Q. injection R as <- <-.
    cbn [sock_answers].
    assert (G : sock_answer a b o x v /\ k_addr s1 = a /\ fst (view_step b o x v) = k_conn s1 /\
                snd (view_step b o x v) = length (k_conns s1));
      [|destruct G as (G & A1 & V1 & N1); split; [exact G|exact (IH _ _ _ _ A1 V1 N1 Q)]].
    clear IH Q l. destruct v as [c n]. cbn [fst snd] in V, Vn. subst c n.
    destruct b, o as [d|p| |ce|ce]; cbn [nsock_op sock_op] in O;
      unfold sock_open, sock_close, sock_interrupt, sock_write, nsock_write, sock_flush, nsock_flush in O;
      destruct (k_conn s) as [i|] eqn:K.
    all: try (destruct (bWrite p (k_buf s)) as [[? ?] ?]).
    all: try (destruct (twrite p (conn_wt i (k_conns s))) as [[? ?] ?]).
    all: try (destruct (bWriteTo (k_buf s) (conn_wt i (k_conns s))) as [[[? ?] ?] ?]).
    all: try (destruct (k_addr s) eqn:AE; subst a; try destruct d).
    all: try (destruct ce).
    all: injection O as <- <-; unfold sock_answer, view_step; cbn [fst snd k_conn k_addr k_conns];
      rewrite ?set_conn_length, ?app_length; cbn [length].
    all: repeat split; try congruence; auto; try (intros [? ?]; congruence); try lia.
    all: try (destruct o; cbn; rewrite ?set_conn_length; congruence).
    all: try (destruct (transport_exc_from_os _); cbn; rewrite ?set_conn_length; congruence).
Qed.
(** In every history of either kind of socket: Write and Flush report NOT_OPEN exactly as long as no
    Open has succeeded since the last successful Close; Open succeeds if and only if the address is
    usable and the dial succeeds, reports NOT_OPEN otherwise, and ALREADY_OPEN on an open socket;
    Close and Interrupt report what closing the connection reports. *)
Theorem C32_answers : forall (nonblocking : bool) a os xs s',
  run_ops (if nonblocking then nsock_op else sock_op) os (NewTSocket a) = (xs, s') ->
  sock_answers a nonblocking os xs (None, O).
Proof. intros b a os xs s' R. exact (C32_aux3 b a os (NewTSocket a) (None, O) xs s' eq_refl eq_refl eq_refl R). Qed.
Print Assumptions C32_answers.
Example C32_case :
  let os := [SWrite [9]; SOpen None; SOpen (Some [WFail 1 (EOther 3)]); SWrite [1; 2]; SFlush; SClose (Some (EOther 4));
             SWrite [3]; SFlush; SClose None; SOpen (Some []); SInterrupt None; SWrite [4]; SFlush; SWrite [5]] in
  let '(xs, s') := run_ops sock_op os (NewTSocket AddrOk) in
  flushed_before_close false os xs /\ conn_out 0 s' = [1; 2; 3] /\ conn_out 1 s' = [4] /\
  accepted false 0 os xs (None, O) = [1; 2; 3] /\ accepted false 1 os xs (None, O) = [4; 5].
Proof. vm_compute. auto 10. Qed.

(** ** C33 *)
(** A Flush whose post fails leaves its bytes to be posted again with the next request. *)
Theorem C33_post_error_refuted : exists os l h',
  os = [HWrite [65]; HFlush (PostErr 0 (EOther 1)); HWrite [66]; HFlush (PostOk 200 [])] /\
  http_run os NewTHttpPostClient = Ok (l, h') /\
  requests [] os = ([[65]; [66]], []) /\ h_posts h' = [[65; 66]].
Proof. eexists _, _, _. split; [reflexivity|]. repeat split; vm_compute; reflexivity. Qed.
Print Assumptions C33_post_error_refuted.
(** Close after a response leaves the client open. *)
Theorem C33_close_refuted : exists os l h',
  os = [HWrite [65]; HFlush (PostOk 200 []); HClose None] /\
  http_run os NewTHttpPostClient = Ok (l, h') /\ http_is_open h' = true.
Proof. eexists _, _, _. split; [reflexivity|]. split; vm_compute; reflexivity. Qed.
Print Assumptions C33_close_refuted.
(** The client made by NewTHttpClient cannot write. *)
Theorem C33_get_client_panics_refuted : exists p, forall body o,
  http_run [HWrite p] (NewTHttpClient body) = Panic /\ http_run [HFlush o] (NewTHttpClient body) = Panic.
Proof. exists [65]. intros body o. split; reflexivity. Qed.
Print Assumptions C33_get_client_panics_refuted.

Lemma C33_aux : forall os, Forall post_ok os ->
  exists l h', http_run os NewTHttpPostClient = Ok (l, h') /\ h_posts h' = fst (requests [] os).
Proof.
  intros os P. destruct (http_run_posts os NewTHttpPostClient (bNew []) eq_refl (bNew_ok []) P)
    as (l & h' & b' & R & _ & _ & Q & _). exists l, h'. split; [exact R|exact Q].
Qed.
(** What holds: as long as the posts get an answer, with any status, the bodies posted are exactly
    the bytes between the Flushes.  Missing: failing posts and Close. *)
Theorem C33_posts_partial : forall os, Forall post_ok os ->
  exists l h', http_run os NewTHttpPostClient = Ok (l, h') /\ h_posts h' = fst (requests [] os).
Proof. exact C33_aux. Qed.
Print Assumptions C33_posts_partial.
Lemma C33_aux2 : forall os l h' n, (0 < n)%nat -> http_run os NewTHttpPostClient = Ok (l, h') ->
  has_response false os = false ->
  http_read n h' = ([], Some (ETransport NOT_OPEN), h').
Proof.
  intros os l h' n N R H. pose proof (http_run_resp _ _ _ _ R) as Q. cbn [NewTHttpPostClient h_resp is_some] in Q.
  rewrite H in Q. apply is_some_none in Q. unfold http_read. rewrite Q. reflexivity.
Qed.
(** Read before a response, or after Close, fails and changes nothing; an answer with another
    status than 200 is no response. *)
Theorem C33_read_needs_response : forall os l h' n, (0 < n)%nat ->
  http_run os NewTHttpPostClient = Ok (l, h') -> has_response false os = false ->
  http_read n h' = ([], Some (ETransport NOT_OPEN), h').
Proof. exact C33_aux2. Qed.
Print Assumptions C33_read_needs_response.

(** Flush reports success if and only if the request got an answer with status 200; the error of a
    failed post is reported as it is classified by NewTTransportExceptionFromOsError. *)
Theorem C33_flush_result : forall os l h' o, http_run os NewTHttpPostClient = Ok (l, h') ->
  h_buf h' <> None ->
  exists e h2, http_flush o h' = Ok (e, h2) /\
    (e = None <-> exists body, o = PostOk 200 body) /\
    (forall k x, o = PostErr k x -> e = transport_exc_from_os (Some x)).
Proof.
  intros os l h' o _ B. unfold http_flush. destruct (h_buf h') as [b|]; [|congruence].
  destruct o as [k x|st body].
  - destruct (bRead k b) as [[d e] b']. eexists _, _. split; [reflexivity|]. split.
    + split; [destruct x; discriminate|]. intros (body & H). discriminate.
    + intros k' x' H. injection H as _ <-. reflexivity.
  - destruct (st =? 200) eqn:S; eexists _, _; (split; [reflexivity|]); (split; [|discriminate]).
    + apply Z.eqb_eq in S. subst st. split; eauto.
    + split; [discriminate|]. intros (body' & H). injection H as -> _. discriminate.
Qed.
Print Assumptions C33_flush_result.
Lemma C33_aux3 : forall ce1 ce2 h,
  (h_resp h = None \/ h_buf h = None -> http_is_open (snd (http_close ce1 h)) = false) /\
  http_is_open (snd (http_close ce2 (snd (http_close ce1 h)))) = false /\
  (forall n, fst (http_read n (snd (http_close ce1 h))) = ([], Some (ETransport NOT_OPEN))).
Proof.
  intros ce1 ce2 [r b p]. unfold http_close, http_is_open, http_read. cbn.
  split; [|split].
  - intros [->| ->]; [reflexivity|]. destruct r; reflexivity.
  - destruct r; reflexivity.
  - intro n. destruct r; reflexivity.
Qed.
(** Close makes the client not open unless it has both a response and a buffer; a second Close
    always does; nothing can be read after Close. *)
Theorem C33_close_partial : forall ce1 ce2 h,
  (h_resp h = None \/ h_buf h = None -> http_is_open (snd (http_close ce1 h)) = false) /\
  http_is_open (snd (http_close ce2 (snd (http_close ce1 h)))) = false /\
  (forall n, fst (http_read n (snd (http_close ce1 h))) = ([], Some (ETransport NOT_OPEN))).
Proof. exact C33_aux3. Qed.
Print Assumptions C33_close_partial.
Example C33_case :
  let os := [HWrite [1]; HWrite [2]; HRead 4; HFlush (PostOk 404 []); HFlush (PostOk 200 [([7; 8], None)]);
             HWrite [3]; HReadAll 2; HFlush (PostOk 500 [])] in
  Forall post_ok os /\ fst (requests [] os) = [[1; 2]; []; [3]] /\
  match http_run os NewTHttpPostClient with
  | Ok (l, h') => h_posts h' = [[1; 2]; []; [3]] /\
      map (fun x => fst (fst x)) l = [[]; []; []; []; []; []; [7; 8]; []]
  | _ => False
  end.
Proof. cbn zeta. split; [repeat constructor|]. vm_compute. auto. Qed.

(** ** C34 *)
(** TServerSocket accepts without Listen, and after Interrupt. *)
Theorem C34_accept_refuted : exists os xs s',
  os = [SsAccept None None; SsInterrupt None None; SsAccept None None] /\
  ss_run ss_op os NewServerSocketAddr = (xs, s') /\
  xs = [(true, None); (false, None); (true, None)] /\
  ~ accepts_while_listening false os xs.
Proof.
  eexists _, _, _. split; [reflexivity|]. split; [vm_compute; reflexivity|]. split; [reflexivity|].
  intros [H _]. specialize (H eq_refl). discriminate.
Qed.
Print Assumptions C34_accept_refuted.
(** TNonblockingServerSocket: a second Listen is an error. *)
Theorem C34_listen_twice_refuted : exists xs s',
  ss_run nss_op [SsListen None; SsListen None] NewServerSocketAddr = (xs, s') /\
  xs = [(false, None); (false, Some (ETransport ALREADY_OPEN))].
Proof. eexists _, _. split; vm_compute; reflexivity. Qed.
Print Assumptions C34_listen_twice_refuted.

Lemma C34_aux : forall os,
  accepts_while_listening false os (fst (ss_run nss_op os NewServerSocketAddr)) /\
  accepts_while_listening true os (fst (ss_run nss_op os NewTNonblockingServerSocketListener)).
Proof.
  intro os. split.
  - exact (nss_accepts os NewServerSocketAddr eq_refl).
  - exact (nss_accepts os NewTNonblockingServerSocketListener eq_refl).
Qed.
(** What holds for TNonblockingServerSocket: in every history Accept succeeds only between a
    successful Listen (or Open) and the next successful Close or Interrupt, and is NOT_OPEN
    otherwise. *)
Theorem C34_nonblocking_accept_partial : forall os,
  accepts_while_listening false os (fst (ss_run nss_op os NewServerSocketAddr)) /\
  accepts_while_listening true os (fst (ss_run nss_op os NewTNonblockingServerSocketListener)).
Proof. exact C34_aux. Qed.
Print Assumptions C34_nonblocking_accept_partial.

Lemma C34_aux2 : forall le le2 lc cc lc2 cc2 s,
  (forall s1, ss_listen le s = (None, s1) -> ss_listen le2 s1 = (None, s1)) /\
  (forall s1, ss_open le s = (None, s1) -> snd (ss_open le2 s1) = s1) /\
  (forall s1, ss_close lc cc s = (None, s1) -> ss_close lc2 cc2 s1 = (None, s1) /\ ss_interrupt lc2 cc2 s1 = (None, s1)) /\
  (forall s1, ss_interrupt lc cc s = (None, s1) -> ss_close lc2 cc2 s1 = (None, s1) /\ ss_interrupt lc2 cc2 s1 = (None, s1)).
Proof.
  intros le le2 lc cc lc2 cc2 [l c].
  assert (T : forall e, transport_exc_from_os e = None -> e = None) by (intros [[]|]; cbn; congruence).
  assert (Cl : forall s1, ss_close lc cc (MkSsock l c) = (None, s1) -> s1 = MkSsock false false).
  { intros s1 H. unfold ss_close in H. cbn [ss_listener ss_conn] in H.
    destruct (if l then lc else None) as [e|]; [injection H as H _; destruct e; discriminate|].
    destruct (if c then cc else None) as [e|]; [injection H as H _; destruct e; discriminate|].
    injection H as <-. reflexivity. }
  split; [|split; [|split]].
  - intros s1 H. unfold ss_listen in *. cbn [ss_listener ss_conn] in *. destruct l.
    + injection H as <-. reflexivity.
    + destruct le; [discriminate|]. injection H as <-. reflexivity.
  - intros s1 H. unfold ss_open in *. cbn [ss_listener ss_conn] in *. destruct l; [discriminate|].
    destruct le; [discriminate|]. injection H as <-. reflexivity.
  - intros s1 H. rewrite (Cl _ H). split; reflexivity.
  - intros s1 H. unfold ss_interrupt in H. destruct (ss_close lc cc (MkSsock l c)) as [e s2] eqn:C2.
    injection H as H <-. apply T in H. subst e. rewrite (Cl _ eq_refl). split; reflexivity.
Qed.
(** Repeating a successful Listen of TServerSocket, or a successful Close or Interrupt of either
    kind, succeeds and changes nothing; repeating Open changes nothing. *)
Theorem C34_idempotent_partial : forall le le2 lc cc lc2 cc2 s,
  (forall s1, ss_listen le s = (None, s1) -> ss_listen le2 s1 = (None, s1)) /\
  (forall s1, ss_open le s = (None, s1) -> snd (ss_open le2 s1) = s1) /\
  (forall s1, ss_close lc cc s = (None, s1) -> ss_close lc2 cc2 s1 = (None, s1) /\ ss_interrupt lc2 cc2 s1 = (None, s1)) /\
  (forall s1, ss_interrupt lc cc s = (None, s1) -> ss_close lc2 cc2 s1 = (None, s1) /\ ss_interrupt lc2 cc2 s1 = (None, s1)).
Proof. exact C34_aux2. Qed.
Print Assumptions C34_idempotent_partial.

(** Accept gives a connection if and only if it reports no error, and this is the case if and only
    if there is a listener (TServerSocket makes one if it can) and the listener gives one. *)
Theorem C34_accept_result : forall le ae s a e s',
  (ss_accept le ae s = (a, e, s') ->
     (a = true <-> e = None) /\ (a = true <-> (ss_listener s = true \/ le = None) /\ ae = None) /\
     (ss_listener s' = true <-> ss_listener s = true \/ le = None)) /\
  (nss_accept ae s = (a, e, s') ->
     (a = true <-> e = None) /\ (a = true <-> ss_listener s = true /\ ae = None) /\ s' = s).
Proof.
  intros le ae [l c] a e s'. unfold ss_accept, nss_accept, ss_listen. cbn [ss_listener ss_conn].
  assert (T : forall x, transport_exc_from_os (Some x) <> None) by (intros []; discriminate).
  split; intro H; destruct l, le, ae; cbn in H; injection H as <- <- <-; cbn [ss_listener].
  all: repeat split; intros;
    repeat match goal with
    | H : _ /\ _ |- _ => destruct H
    | H : _ \/ _ |- _ => destruct H
    end; try discriminate; try (exfalso; eapply T; eassumption); auto.
Qed.
Print Assumptions C34_accept_result.
(** A TServerSocket made from a connection does not listen at first: Open and Listen ask the operating system for
    a listener, and Close, which has no listener to close, closes the connection and keeps it if that fails. *)
Theorem C34_from_connection : forall le lc cc,
  fst (ss_open le NewTServerSocketConn) = le /\ fst (ss_listen le NewTServerSocketConn) = le /\
  (forall s', ss_close lc cc NewTServerSocketConn = (None, s') <-> cc = None /\ s' = NewServerSocketAddr) /\
  (cc <> None -> ss_close lc cc NewTServerSocketConn = (transport_exc_from_os cc, NewTServerSocketConn)).
Proof.
  intros le lc cc. split; [destruct le; reflexivity|]. split; [destruct le; reflexivity|].
  split; [|destruct cc; [reflexivity|congruence]]. intro s'. destruct cc as [e|]; cbn.
  - split; [intro H; destruct e; discriminate|intros [H _]; discriminate].
  - split; [intro H; injection H as <-; split; reflexivity|intros [_ ->]; reflexivity].
Qed.
Print Assumptions C34_from_connection.
Example C34_from_connection_case :
  fst (ss_run ss_op [SsClose (Some (EOther 1)) (Some (EOther 2)); SsClose (Some (EOther 1)) None;
                     SsClose (Some (EOther 1)) (Some (EOther 2))] NewTServerSocketConn) =
  [(false, Some (ETransport 0)); (false, None); (false, None)].
Proof. vm_compute. reflexivity. Qed.
Example C34_case :
  fst (ss_run nss_op [SsAccept None None; SsListen (Some (EOther 1)); SsListen None; SsAccept None None;
                      SsInterrupt (Some (EOther 2)) None; SsAccept None (Some (EOther 3)); SsInterrupt None None;
                      SsAccept None None] NewServerSocketAddr) =
  [(false, Some (ETransport NOT_OPEN)); (false, Some (EOther 1)); (false, None); (true, None);
   (false, Some (ETransport 0)); (false, Some (ETransport 0)); (false, None); (false, Some (ETransport NOT_OPEN))] /\
  ss_close (Some (EOther 1)) None (MkSsock true true) = (Some (ETransport 0), MkSsock true true) /\
  ss_close None None (MkSsock true true) = (None, MkSsock false false).
Proof. vm_compute. auto. Qed.
