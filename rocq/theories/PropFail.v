(** Reading through the stream, HTTP and socket transports when the source fails: C78. *)
From Coq Require Import ZArith List Bool Lia.
From Coq Require Import ZifyBool ZifyNat.
From Verif Require Import Base Errors Transport TransportProofs BufIO IOStream Http OverInst.
Import ListNotations.
Open Scope Z_scope.

(** ** C78 *)
(** A sequence of Reads with buffers of the given lengths: what each returned. *)
Fixpoint reads {S : Type} (rd : nat -> S -> bytes * option err * S) (ns : list nat) (s : S)
  : list (bytes * option err) :=
  match ns with
  | [] => []
  | n :: ns' => let '(d, e, s') := rd n s in (d, e) :: reads rd ns' s'
  end.
(** The source delivers [C] and then fails with [e].  Up to the first Read that reports an error each
    gives the next bytes, no more than asked for, and at least one if [live]; the first error comes
    when everything has been delivered, and it is [e]. *)
Fixpoint faithful (live : Prop) (C : bytes) (e : err) (ns : list nat) (xs : list (bytes * option err)) : Prop :=
  match ns, xs with
  | [], [] => True
  | n :: ns', (d, x) :: xs' =>
    (length d <= n)%nat /\
    match x with
    | None => (live -> (0 < n)%nat -> d <> []) /\ exists C', C = d ++ C' /\ faithful live C' e ns' xs'
    | Some e' => d = C /\ e' = e
    end
  | _, _ => False
  end.
(** Every Read of the source gives data or an error. *)
Definition eager (r : rt) : Prop := Forall (fun ev => fst ev <> [] \/ snd ev <> None) r.
(** The error as the transports report it. *)
Definition as_transport_error (e : err) : err :=
  match e with
  | EEof => ETransport END_OF_FILE
  | ETransport t => ETransport t
  | EProtocol t => EProtocol t
  | _ => ETransport UNKNOWN_TRANSPORT_EXCEPTION
  end.

Lemma as_te : forall e, transport_exc_from_os (Some e) = Some (as_transport_error e).
Proof. intros []; reflexivity. Qed.

Section Faithful.
  Context {S : Type} (rd : nat -> S -> bytes * option err * S).
  Context (inv : Prop -> S -> bytes -> err -> Prop).
  Definition faithful_step : Prop := forall live n s C e d x s', inv live s C e -> rd n s = (d, x, s') ->
    (length d <= n)%nat /\
    match x with
    | None => (live -> (0 < n)%nat -> d <> []) /\ exists C', C = d ++ C' /\ inv live s' C' e
    | Some e' => d = C /\ e' = e
    end.
  Lemma faithful_reads : faithful_step -> forall live ns s C e, inv live s C e ->
    faithful live C e ns (reads rd ns s).
  Proof.
    intros F live. induction ns as [|n ns IH]; intros s C e I; cbn [reads faithful]; [exact Logic.I|].
    destruct (rd n s) as [[d x] s'] eqn:R. cbn [faithful].
    destruct (F _ _ _ _ _ _ _ _ I R) as [L H]. split; [exact L|].
    destruct x as [x|]; [exact H|]. destruct H as [P (C' & -> & I')]. split; [exact P|].
    exists C'. split; [reflexivity|]. exact (IH _ _ _ I').
  Qed.
End Faithful.

(** The source itself. *)
Definition src_inv (live : Prop) (r : rt) (C : bytes) (e : err) : Prop :=
  (live -> eager r) /\ upto_error r = (C, e).
Lemma tread_faithful : faithful_step tread src_inv.
Proof.
  intros live n r C e d x r' [V U] R. unfold tread in R. destruct r as [|[bs eo] r].
  - injection R as <- <- <-. cbn in U. injection U as <- <-. cbn. split; [lia|auto].
  - destruct (n <? length bs)%nat eqn:L.
    + injection R as <- <- <-. split; [apply firstn_le_length|]. split.
      * intros _ N. destruct n; [lia|]. destruct bs; [cbn in L; lia|discriminate].
      * exists (skipn n C).
        assert (X : C = bs ++ skipn (length bs) C).
        { destruct eo; cbn [upto_error] in U; injection U as <- <-.
          - rewrite skipn_all, app_nil_r. reflexivity.
          - rewrite skipn_app, skipn_all, Nat.sub_diag. reflexivity. }
        assert (Y : firstn n bs = firstn n C).
        { rewrite X, firstn_app. replace (n - length bs)%nat with O by lia. cbn. rewrite app_nil_r. reflexivity. }
        split; [rewrite Y; symmetry; apply firstn_skipn|]. split.
        -- intro Lv. specialize (V Lv). inversion V as [|? ? V1 V2]; subst. constructor; [|assumption].
           left. cbn. intro E. apply (f_equal (@length Z)) in E. rewrite skipn_length in E. cbn in E. lia.
        -- destruct eo; cbn [upto_error] in *; injection U as <- <-.
           ++ reflexivity.
           ++ rewrite skipn_app. replace (n - length bs)%nat with O by lia. reflexivity.
    + injection R as <- <- <-. split; [lia|]. destruct eo as [e0|]; cbn [upto_error] in U.
      * injection U as <- <-. auto.
      * injection U as <- <-. split.
        -- intros Lv _. specialize (V Lv). inversion V as [|? ? [V1|V1] V2]; subst; cbn in V1; congruence.
        -- eexists. split; [reflexivity|]. split; [|now destruct (upto_error r)].
           intro Lv. specialize (V Lv). inversion V; assumption.
Qed.

(** bufio.Reader: the buffered bytes, then the pending error, or the source. *)
Definition br_inv (live : Prop) (b : bufr) (C : bytes) (e : err) : Prop :=
  match br_err b with
  | Some x => C = br_buf b /\ e = x
  | None => exists C1, C = br_buf b ++ C1 /\ src_inv live (br_r b) C1 e
  end.
Lemma br_take : forall live n b C e, br_inv live b C e ->
  exists C', C = firstn n (br_buf b) ++ C' /\
    br_inv live (MkBr (skipn n (br_buf b)) (br_err b) (br_r b)) C' e.
Proof.
  intros live n b C e I. unfold br_inv in *. cbn [br_err br_buf br_r]. destruct (br_err b) as [x|].
  - destruct I as [-> ->]. exists (skipn n (br_buf b)). rewrite firstn_skipn. auto.
  - destruct I as (C1 & -> & I). exists (skipn n (br_buf b) ++ C1). rewrite app_assoc, firstn_skipn. eauto.
Qed.
Lemma br_faithful : faithful_step br_read br_inv.
Proof.
  intros live n [buf er r] C e d x b' I R. unfold br_read in R. cbn [br_buf br_err br_r] in R.
  destruct n as [|n]; [destruct buf as [|y buf]|destruct buf as [|y buf]].
  - injection R as <- <- <-. split; [cbn; lia|]. unfold br_inv in I. cbn in I. destruct er as [er|].
    + destruct I as [-> ->]. auto.
    + split; [lia|]. exists C. split; [reflexivity|]. exact I.
  - injection R as <- <- <-. split; [cbn; lia|]. split; [lia|]. exists C. auto.
  - destruct er as [er|].
    + injection R as <- <- <-. unfold br_inv in I. cbn in I. destruct I as [-> ->]. cbn. split; [lia|auto].
    + unfold br_inv in I. cbn [br_err br_buf br_r app] in I. destruct I as (C1 & -> & I).
      destruct (buf_size <=? S n)%nat eqn:B.
      * destruct (tread (S n) r) as [[d0 e0] r0] eqn:T. injection R as <- <- <-.
        destruct (tread_faithful _ _ _ _ _ _ _ _ I T) as [L H]. split; [exact L|].
        destruct e0 as [e0|]; [exact H|]. destruct H as [P (C' & -> & I')]. split; [exact P|].
        exists C'. split; [reflexivity|]. exists C'. auto.
      * unfold br_fill in R. cbn [br_buf br_err br_r] in R.
        destruct (tread (buf_size - length (@nil Z)) r) as [[d0 e0] r0] eqn:T.
        destruct (tread_faithful _ _ _ _ _ _ _ _ I T) as [L H]. cbn [br_buf br_err br_r app] in R.
        assert (X : (match e0 with Some _ => e0 | None => None end) = e0) by now destruct e0.
        rewrite X in R. clear X.
        assert (J : br_inv live (MkBr d0 e0 r0) C1 e).
        { unfold br_inv. cbn. destruct e0 as [e0|].
          - destruct H as [-> ->]. auto.
          - destruct H as [_ (C' & -> & I')]. eauto. }
        destruct d0 as [|z d0].
        -- injection R as <- <- <-. split; [cbn; lia|]. destruct e0 as [e0|]; [exact H|].
           destruct H as [P (C' & -> & I')]. split.
           ++ intros Lv _. apply P; [exact Lv|]. destruct buf_size_pos as [k K]. rewrite K. cbn. lia.
           ++ exists C'. split; [reflexivity|]. exists C'. auto.
        -- injection R as <- <- <-. split; [apply (firstn_le_length (S n) (z :: d0))|]. split; [discriminate|].
           exact (br_take live (S n) (MkBr (z :: d0) e0 r0) C1 e J).
  - injection R as <- <- <-. split; [apply (firstn_le_length (S n) (y :: buf))|]. split; [discriminate|].
    exact (br_take live (S n) (MkBr (y :: buf) er r) C e I).
Qed.

(** The transports: the error goes through NewTTransportExceptionFromOsError. *)
Definition ios_inv (live : Prop) (s : ios) (C : bytes) (e : err) : Prop :=
  exists e0, e = as_transport_error e0 /\
  match i_reader s with
  | RNil => False
  | RBuf => br_inv live (i_br s) C e0
  | RRaw => src_inv live (br_r (i_br s)) C e0
  end.
Lemma ios_faithful : faithful_step ios_read ios_inv.
Proof.
  intros live n s C e d x s' (e0 & -> & I) R. unfold ios_read in R. destruct (i_reader s) eqn:K.
  - contradiction.
  - destruct (br_read n (i_br s)) as [[d1 e1] b1] eqn:T. injection R as <- <- <-.
    destruct (br_faithful _ _ _ _ _ _ _ _ I T) as [L H]. split; [exact L|]. destruct e1 as [e1|].
    + rewrite as_te. destruct H as [-> ->]. auto.
    + cbn. destruct H as [P (C' & -> & I')]. split; [exact P|]. exists C'. split; [reflexivity|].
      exists e0. cbn. rewrite ?K. auto.
  - destruct (tread n (br_r (i_br s))) as [[d1 e1] r1] eqn:T. injection R as <- <- <-.
    destruct (tread_faithful _ _ _ _ _ _ _ _ I T) as [L H]. split; [exact L|]. destruct e1 as [e1|].
    + rewrite as_te. destruct H as [-> ->]. auto.
    + cbn. destruct H as [P (C' & -> & I')]. split; [exact P|]. exists C'. split; [reflexivity|].
      exists e0. cbn. rewrite ?K. auto.
Qed.
Definition opt_inv (live : Prop) (c : option rt) (C : bytes) (e : err) : Prop :=
  exists e0 r, e = as_transport_error e0 /\ c = Some r /\ src_inv live r C e0.
Lemma sock_faithful : faithful_step sock_read opt_inv.
Proof.
  intros live n s C e d x s' (e0 & r & -> & -> & I) R. unfold sock_read in R.
  destruct (tread n r) as [[d1 e1] r1] eqn:T. injection R as <- <- <-.
  destruct (tread_faithful _ _ _ _ _ _ _ _ I T) as [L H]. split; [exact L|]. destruct e1 as [e1|].
  - rewrite as_te. destruct H as [-> ->]. auto.
  - cbn. destruct H as [P (C' & -> & I')]. split; [exact P|]. exists C'. split; [reflexivity|].
    exists e0, r1. auto.
Qed.
Definition http_inv (live : Prop) (h : http) (C : bytes) (e : err) : Prop := opt_inv live (h_resp h) C e.
Lemma http_faithful : faithful_step http_read http_inv.
Proof.
  intros live n s C e d x s' (e0 & r & -> & K & I) R. unfold http_read in R. rewrite K in R.
  destruct (tread n r) as [[d1 e1] r1] eqn:T. injection R as <- <- <-.
  destruct (tread_faithful _ _ _ _ _ _ _ _ I T) as [L H]. split; [exact L|]. destruct e1 as [e1|].
  - rewrite as_te. destruct H as [-> ->]. auto.
  - cbn. destruct H as [P (C' & -> & I')]. split; [exact P|]. exists C'. split; [reflexivity|].
    exists e0, r1. auto.
Qed.

(** TIOStreamTransport with a reader, buffered or not. *)
Theorem C78_stream : forall v closer flusher r w ns, v = VR \/ v = VRAndW \/ v = VRW ->
  faithful (eager r) (fst (upto_error r)) (as_transport_error (snd (upto_error r))) ns
    (reads ios_read ns (NewTIOStreamTransport v closer flusher r w)).
Proof.
  intros v c f r w ns V. apply (faithful_reads ios_read ios_inv ios_faithful).
  exists (snd (upto_error r)). split; [reflexivity|].
  assert (I : src_inv (eager r) r (fst (upto_error r)) (snd (upto_error r)))
    by (split; [auto|now destruct (upto_error r)]).
  destruct V as [->|[->| ->]]; cbn.
  - exists (fst (upto_error r)). auto.
  - exists (fst (upto_error r)). auto.
  - exact I.
Qed.
Print Assumptions C78_stream.
(** The body of a response in THttpClient, after any other calls. *)
Theorem C78_http : forall h r ns, h_resp h = Some r ->
  faithful (eager r) (fst (upto_error r)) (as_transport_error (snd (upto_error r))) ns
    (reads http_read ns h).
Proof.
  intros h r ns H. apply (faithful_reads http_read http_inv http_faithful).
  exists (snd (upto_error r)), r. split; [reflexivity|]. split; [exact H|].
  split; [auto|now destruct (upto_error r)].
Qed.
Print Assumptions C78_http.
(** The connection of TSocket and TNonblockingSocket. *)
Theorem C78_socket : forall r ns,
  faithful (eager r) (fst (upto_error r)) (as_transport_error (snd (upto_error r))) ns
    (reads sock_read ns (Some r)).
Proof.
  intros r ns. apply (faithful_reads sock_read opt_inv sock_faithful).
  exists (snd (upto_error r)), r. split; [reflexivity|]. split; [reflexivity|].
  split; [auto|now destruct (upto_error r)].
Qed.
Print Assumptions C78_socket.
(** Data together with an error: the buffered transport gives the data first and the error with the
    next Read; the others give both at once when the buffer is large enough. *)
Example C78_case :
  let r := [([1; 2; 3], None); ([4; 5], Some (EOther 7)); ([6], None)] in
  eager r /\ upto_error r = ([1; 2; 3; 4; 5], EOther 7) /\
  reads ios_read [2; 8; 1; 4; 1]%nat (NewTIOStreamTransport VR false false r (MkWt [] [])) =
    [([1; 2], None); ([3], None); ([4], None); ([5], None); ([], Some (ETransport 0))] /\
  reads ios_read [2; 8; 1; 4]%nat (NewTIOStreamTransport VRW false false r (MkWt [] [])) =
    [([1; 2], None); ([3], None); ([4], None); ([5], Some (ETransport 0))] /\
  reads http_read [3; 2; 9; 1]%nat (NewTHttpClient [([1; 2; 3; 4], None)]) =
    [([1; 2; 3], None); ([4], None); ([], Some (ETransport END_OF_FILE)); ([], Some (ETransport END_OF_FILE))].
Proof.
  cbn zeta. split; [unfold eager; repeat (apply Forall_cons; [left; discriminate|]); constructor|]. repeat split; vm_compute; reflexivity.
Qed.
