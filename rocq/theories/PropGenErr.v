(** C72: generated code over a transport whose Write calls may fail. *)
From Coq Require Import ZArith List Bool Lia Permutation.
From Coq Require Import ZifyBool ZifyNat.
From Verif Require Import Base Errors Transport Proto Skip Arith Values Codec SkipProofs BinaryProofs BinarySpec Binary BinaryMsg
  TransportProofs Compact CompactSpec CompactProofs CompactRead CompactStruct WfDec WriteErr.
From Verif Require Import TField GoVal Compare TMap Gen GenSpec GenProofs GenInst GenRound PropGen.
From Verif Require Import AppExc AppExcProofs PropRpc Rpc RpcProofs PropService GenErr Json PropJsonWrite.
Import ListNotations.
Open Scope Z_scope.

(** ** Structs *)

(** From [w] to [w'] every Write of the transport succeeded if the generated writer returned no
    error; otherwise all but the last it made succeeded, the last failed with [e0], and the error
    is a protocol exception with the number [e0] has. *)
Theorem C72_binary : forall strict x f t v w e w',
  gwrite (binaryW strict) x f t v w = Ok (e, w') ->
  (exists out, w_out w' = w_out w ++ out) /\
  match e with
  | None => exists pre, Forall (eq WOk) pre /\ w_sched w = pre ++ w_sched w'
  | Some y => exists pre k e0, Forall (eq WOk) pre /\
                w_sched w = pre ++ WFail k e0 :: w_sched w' /\ reported e0 y
  end.
Proof.
  intros strict x f t v w e w' H.
  exact (used_gwrite (binaryW strict) (fun w => w) (binary_write_used strict) x f t v _ _ _ H).
Qed.
Print Assumptions C72_binary.
Theorem C72_compact : forall x f t v w c e w' c',
  gwrite compactW x f t v (w, c) = Ok (e, (w', c')) ->
  (exists out, w_out w' = w_out w ++ out) /\
  match e with
  | None => exists pre, Forall (eq WOk) pre /\ w_sched w = pre ++ w_sched w'
  | Some y => exists pre k e0, Forall (eq WOk) pre /\
                w_sched w = pre ++ WFail k e0 :: w_sched w' /\ reported e0 y
  end.
Proof.
  intros x f t v w c e w' c' H. exact (used_gwrite compactW fst compact_write_used x f t v _ _ _ H).
Qed.
Print Assumptions C72_compact.
Theorem C72_simple_json : forall J x f t v w l e w' l',
  gwrite (simpleW J) x f t v (w, l) = Ok (e, (w', l')) ->
  (exists out, w_out w' = w_out w ++ out) /\
  match e with
  | None => exists pre, Forall (eq WOk) pre /\ w_sched w = pre ++ w_sched w'
  | Some y => exists pre k e0, Forall (eq WOk) pre /\
                w_sched w = pre ++ WFail k e0 :: w_sched w' /\ reported e0 y
  end.
Proof.
  intros J x f t v w l e w' l' H.
  exact (used_gwrite (simpleW J) fst (fun c => proj1 (json_write_used J c)) x f t v _ _ _ H).
Qed.
Print Assumptions C72_simple_json.

(** A writer that returns no error has put the whole value into the transport, whatever the
    results of the Write calls were going to be. *)
Theorem C72_complete_binary : forall strict x f t v wv w w',
  wireof x t v wv -> (need wv <= f)%nat ->
  gwrite (binaryW strict) x f t v w = Ok (None, w') -> w_out w' = w_out w ++ sb_val wv.
Proof.
  intros strict x f t v wv w w' Wv N H.
  apply (calmed_gwrite (binaryW strict) calm (binary_calm strict)) in H.
  pose proof (proj1 (wr_gwrite_all (binaryW strict) x true) t v wv Wv ltac:(discriminate) f (calm w)
    (MkWt (w_out w ++ sb_val wv) []) (bwr_val strict wv (wireof_wf _ _ _ _ Wv) _) N) as G.
  rewrite G in H. injection H; intros E. symmetry. exact E.
Qed.
Print Assumptions C72_complete_binary.
Theorem C72_complete_compact : forall x f t v wv w c w' c',
  wireof x t v wv -> no_binary t -> (need wv <= f)%nat -> booleanField c = None ->
  gwrite compactW x f t v (w, c) = Ok (None, (w', c')) -> w_out w' = w_out w ++ sc_val wv.
Proof.
  intros x f t v wv w c w' c' Wv Nb N Bf H.
  apply (calmed_gwrite compactW ccalm compact_calm) in H. unfold ccalm in H. cbn [fst snd] in H.
  destruct (cow_val wv (calm w, c) (w_out w) (wireof_wf _ _ _ _ Wv) (ex_intro _ c (conj eq_refl Bf)))
    as (s' & Ws & c2 & -> & _).
  pose proof (proj1 (wr_gwrite_all compactW x false) t v wv Wv (fun _ => Nb) f _ _ Ws N) as G.
  rewrite G in H. injection H; intros _ E. symmetry. exact E.
Qed.
Print Assumptions C72_complete_compact.

(** ** Replies *)

(** Process returns true exactly when it returns no error. *)
Theorem C72_success : forall SR SW H (R : rproto SR) (W : wproto SW) flush x M cf fuel errtext
    (handle : H -> bytes -> list any -> (list (Z * any) * option bytes) * H) fs h si so p,
  process R W flush x M cf fuel errtext handle fs h si so = Ok p ->
  (p_success p = true <-> p_err p = None).
Proof.
  intros SR SW H R W flush x M cf fuel errtext handle fs h si so p Hp. unfold process in Hp.
  destruct (rMessageBegin R si) as [[[[[name t] seq] [e|]] s1]| |]; cbn [obind] in Hp; try discriminate;
    [injection Hp; intros; subst; cbn; intuition discriminate|].
  assert (T : forall A (m : outcome A) (k : A -> pout), (forall a, k a = p -> p_success p = true <-> p_err p = None) ->
    (a <- m ;; Ok (k a)) = Ok p -> p_success p = true <-> p_err p = None).
  { intros A [a| |] k Hk E; cbn [obind] in E; try discriminate. injection E. apply Hk. }
  destruct (lookup_fn fs name) as [f|].
  - unfold process_fn in Hp. destruct (gread _ _ _ _ _ _ _) as [[[args|e] s2]| |]; cbn [obind] in Hp; try discriminate;
      destruct (rMessageEnd R s2) as [[e2 s3]| |]; cbn [obind] in Hp; try discriminate.
    + destruct (handle _ _ _) as [[attrs [text|]] h'].
      * revert Hp. apply T. intros a <-. cbn. intuition discriminate.
      * destruct (wMessageBegin _ _ _ _ _) as [[e3 o1]| |]; cbn [obind] in Hp; try discriminate.
        destruct (gwrite_result _ _ _ _ _ _ _) as [[e4 o2]| |]; cbn [obind] in Hp; try discriminate.
        destruct (wMessageEnd _ _) as [[e5 o3]| |]; cbn [obind] in Hp; try discriminate.
        destruct (flush o3) as [[e6 o4]| |]; cbn [obind] in Hp; try discriminate.
        destruct (first_error _ _); injection Hp; intros; subst; cbn; intuition discriminate.
    + revert Hp. apply T. intros a <-. cbn. intuition discriminate.
  - destruct (skip_default _ _ _ _ _) as [[e2 s2]| |]; cbn [obind] in Hp; try discriminate.
    destruct (rMessageEnd R s2) as [[e3 s3]| |]; cbn [obind] in Hp; try discriminate.
    revert Hp. apply T. intros a <-. cbn. intuition discriminate.
Qed.
Print Assumptions C72_success.

Lemma process_calm : forall SR SW H (R : rproto SR) (W : wproto SW) flush (g : SW -> SW) x M cf fuel errtext
    (handle : H -> bytes -> list any -> (list (Z * any) * option bytes) * H) fs h si so p,
  (forall c, calmed g (wexec W c)) ->
  (forall s s', flush s = Ok (None, s') -> g s' = g s) ->
  process R W flush x M cf fuel errtext handle fs h si so = Ok p -> p_success p = true ->
  process R W nop x M cf fuel errtext handle fs h si (g so) =
    Ok (MkPout true None (p_h p) (p_in p) (g (p_out p))) /\
  exists s, flush s = Ok (None, p_out p).
Proof.
  intros SR SW H R W flush g x M cf fuel errtext handle fs h si so p Wc Hf Hp Hs. unfold process in *.
  destruct (rMessageBegin R si) as [[[[[name t] seq] [e|]] s1]| |]; cbn [obind] in *; try discriminate;
    [injection Hp; intros; subst; discriminate|].
  assert (T : forall A (m : outcome A) (k : A -> pout), (forall a, p_success (k a) = false) ->
    (a <- m ;; Ok (k a)) <> Ok p).
  { intros A [a| |] k Hk E; cbn [obind] in E; try discriminate. injection E; intros; subst.
    rewrite Hk in Hs. discriminate. }
  destruct (lookup_fn fs name) as [f|].
  - unfold process_fn in *. destruct (gread _ _ _ _ _ _ _) as [[[args|e] s2]| |]; cbn [obind] in *; try discriminate;
      destruct (rMessageEnd R s2) as [[e2 s3]| |]; cbn [obind] in *; try discriminate.
    + destruct (handle _ _ _) as [[attrs [text|]] h'].
      * exfalso. revert Hp. apply T. reflexivity.
      * destruct (wMessageBegin W (fn_name f) REPLY seq so) as [[e3 o1]| |] eqn:E1; cbn [obind] in Hp; try discriminate.
        destruct (gwrite_result _ _ _ _ _ _ o1) as [[e4 o2]| |] eqn:E2; cbn [obind] in Hp; try discriminate.
        destruct (wMessageEnd W o2) as [[e5 o3]| |] eqn:E3; cbn [obind] in Hp; try discriminate.
        destruct (flush o3) as [[e6 o4]| |] eqn:E4; cbn [obind] in Hp; try discriminate.
        destruct (first_error (first_error (first_error e3 e4) e5) e6) as [e|] eqn:Fe;
          injection Hp; intros; subst; [discriminate|].
        destruct e3, e4, e5, e6; try discriminate. cbn [p_h p_in p_out]. split; [|eexists; exact E4].
        apply (Wc (WcMessageBegin _ _ _)) in E1. cbn [wexec] in E1. rewrite E1. cbn [obind].
        apply (calmed_result W g Wc) in E2. rewrite E2. cbn [obind].
        apply (Wc WcMessageEnd) in E3. cbn [wexec] in E3. rewrite E3. cbn [obind nop first_error].
        rewrite (Hf _ _ E4). reflexivity.
    + exfalso. revert Hp. apply T. reflexivity.
  - destruct (skip_default _ _ _ _ _) as [[e2 s2]| |]; cbn [obind] in *; try discriminate.
    destruct (rMessageEnd R s2) as [[e3 s3]| |]; cbn [obind] in *; try discriminate.
    exfalso. revert Hp. apply T. reflexivity.
Qed.

Lemma answered_true : forall H x errtext (handle : H -> bytes -> list any -> (list (Z * any) * option bytes) * H)
    fs h name mt body h', answered x errtext handle fs h name mt body h' true -> mt = REPLY.
Proof. intros H x errtext handle fs h name mt body h' A. inversion A; subst; congruence. Qed.

(** Whatever the results of the Write calls and of Flush: when the processor says success, the
    request could be read, the whole reply with what the handler returned is in the transport,
    and Flush has been called and returned no error. *)
Theorem C72_reply_binary : forall H strict strictW flush x M cf fuel errtext
    (handle : H -> bytes -> list any -> (list (Z * any) * option bytes) * H) fs h si w p,
  (forall f, In f fs -> func_ok f) ->
  (forall f h vals attrs h', In f fs -> handle h (fn_name f) vals = ((attrs, None), h') ->
     if fn_oneway f then (2 <= fuel)%nat
     else exists rf, reply x f attrs rf /\ (need (VStruct rf) <= fuel)%nat) ->
  (forall s s', flush s = Ok (None, s') -> w_out s' = w_out s) ->
  process (binaryR strict) (binaryW strictW) flush x M cf fuel errtext handle fs h si w = Ok p ->
  p_success p = true ->
  exists name t seq s1 body,
    bReadMessageBegin strict si = Ok ((name, t, seq), None, s1) /\
    answered x errtext handle fs h name REPLY body (p_h p) true /\
    w_out (p_out p) = w_out w ++ bmsg strictW name REPLY seq ++ sb_val (VStruct body) /\
    exists s, flush s = Ok (None, p_out p).
Proof.
  intros H strict strictW flush x M cf fuel errtext handle fs h si w p Fok Rok Hf Hp Hs.
  assert (Hf' : forall s s', flush s = Ok (None, s') -> calm s' = calm s)
    by (intros s s' E; unfold calm; now rewrite (Hf _ _ E)).
  destruct (process_calm _ _ _ _ _ _ calm _ _ _ _ _ _ _ _ _ _ _ (binary_calm strictW) Hf' Hp Hs) as [Q Fl].
  pose proof (C44_binary_partial H strict strictW x M cf fuel errtext handle fs h si (w_out w) _ Fok Rok Q) as C.
  destruct (bReadMessageBegin strict si) as [[[[[name t] seq] [e|]] s1]| |] eqn:E; cbn [p_success p_h p_out] in C;
    [destruct C; discriminate| |destruct C|destruct C].
  destruct C as (mt & body & A & B). pose proof (answered_true _ _ _ _ _ _ _ _ _ _ A) as ->.
  exists name, t, seq, s1, body. split; [reflexivity|]. split; [exact A|]. split; [|exact Fl].
  injection B; intros. assumption.
Qed.
Print Assumptions C72_reply_binary.
Theorem C72_reply_compact_partial : forall H flush x M cf fuel errtext
    (handle : H -> bytes -> list any -> (list (Z * any) * option bytes) * H) fs h si w c p,
  (forall f, In f fs -> func_ok f) ->
  (forall f h vals attrs h', In f fs -> handle h (fn_name f) vals = ((attrs, None), h') ->
     if fn_oneway f then (2 <= fuel)%nat
     else (forall m, In m (result_members f) -> no_binary (m_ty m)) /\
          exists rf, reply x f attrs rf /\ (need (VStruct rf) <= fuel)%nat) ->
  (forall f h vals attrs text h', In f fs -> handle h (fn_name f) vals = ((attrs, Some text), h') ->
     exc_ok (MkExc INTERNAL_ERROR (s_internal ++ fn_name f ++ s_colon ++ text))) ->
  (forall e, exc_ok (MkExc PROTOCOL_ERROR (errtext e))) ->
  booleanField c = None ->
  (forall s s', flush s = Ok (None, s') -> w_out (fst s') = w_out (fst s) /\ snd s' = snd s) ->
  process compactR compactW flush x M cf fuel errtext handle fs h si (w, c) = Ok p ->
  p_success p = true ->
  exists name t seq s1,
    cReadMessageBegin si = Ok ((name, t, seq), None, s1) /\
    (in_s 32 seq -> exc_ok (MkExc UNKNOWN_METHOD (s_unknown ++ name)) -> exists body,
      answered x errtext handle fs h name REPLY body (p_h p) true /\
      w_out (fst (p_out p)) = w_out w ++ sc_message name REPLY seq ++ sc_val (VStruct body)) /\
    exists s, flush s = Ok (None, p_out p).
Proof.
  intros H flush x M cf fuel errtext handle fs h si w c p Fok Rok Tok Eok Bf Hf Hp Hs.
  assert (Hf' : forall s s', flush s = Ok (None, s') -> ccalm s' = ccalm s)
    by (intros s s' E; unfold ccalm, calm; destruct (Hf _ _ E) as [-> ->]; reflexivity).
  destruct (process_calm _ _ _ _ _ _ ccalm _ _ _ _ _ _ _ _ _ _ _ compact_calm Hf' Hp Hs) as [Q Fl].
  pose proof (C44_compact_partial H x M cf fuel errtext handle fs h si c (w_out w) _ Fok Rok Tok Eok Bf Q) as C.
  destruct (cReadMessageBegin si) as [[[[[name t] seq] [e|]] s1]| |] eqn:E; cbn [p_success p_h p_out] in C;
    [destruct C; discriminate| |destruct C|destruct C].
  exists name, t, seq, s1. split; [reflexivity|]. split; [|exact Fl]. intros Is Un.
  destruct (C Is Un) as (mt & body & A & B). pose proof (answered_true _ _ _ _ _ _ _ _ _ _ A) as ->.
  exists body. split; [exact A|exact B].
Qed.
Print Assumptions C72_reply_compact_partial.

(** Hypotheses of the theorems above met: a struct whose third Write fails, one whose Writes
    succeed for a while; requests to the service of C44 with a failing Write and a failing Flush. *)
Definition flush_ok : wop wt := fun w => Ok (None, w).
Definition flush_fails : wop wt := fun w => Ok (Some (ETransport TIMED_OUT), w).
Definition req72 : bytes := sb_message_strict [97; 100; 100] CALL 9 ++ sb_val ex_argsw.
Definition run72 (flush : wop wt) (sched : list wres) :=
  process (binaryR true) (binaryW true) flush ext0 64 5 40 errtext0 ex_handle ex_fs 7 [(req72, None)] (MkWt [9] sched).
Example C72_ex :
  (exists w1, gwrite (binaryW true) ext0 40 (TyStruct (args_name ex_add) (fn_args ex_add)) (args_val ex_add ex_args)
     (MkWt [9] [WOk; WOk; WFail 1 (ETransport TIMED_OUT); WOk]) = Ok (Some (EProtocol TIMED_OUT), w1) /\
     w_out w1 = [9; 8; 0; 1; 0] /\ w_sched w1 = [WOk]) /\
  (exists w1, gwrite (binaryW true) ext0 40 (TyStruct (args_name ex_add) (fn_args ex_add)) (args_val ex_add ex_args)
     (MkWt [9] [WOk; WOk; WOk]) = Ok (None, w1) /\ w_out w1 = 9 :: sb_val ex_argsw) /\
  (need ex_argsw <= 40)%nat /\
  (forall f h vals attrs h', In f ex_fs -> ex_handle h (fn_name f) vals = ((attrs, None), h') ->
     if fn_oneway f then (2 <= 40)%nat else exists rf, reply ext0 f attrs rf /\ (need (VStruct rf) <= 40)%nat) /\
  (exists p, run72 flush_ok [WOk; WOk] = Ok p /\ p_success p = true /\
     w_out (p_out p) = 9 :: sb_message_strict [97; 100; 100] REPLY 9 ++ sb_val (VStruct [(0, VI64 12)])) /\
  (exists p, run72 flush_fails [WOk; WOk] = Ok p /\ p_success p = false /\ p_err p = Some (RErr (ETransport TIMED_OUT))) /\
  (exists p, run72 flush_ok [WOk; WFail 0 (ETransport NOT_OPEN)] = Ok p /\ p_success p = false /\
     p_err p = Some (RErr (ETransport NOT_OPEN))).
Proof.
  split; [eexists; split; [vm_compute; reflexivity|]; split; reflexivity|].
  split; [eexists; split; [vm_compute; reflexivity|]; reflexivity|].
  split; [cbn; lia|]. split.
  { intros f h vals attrs h' Hf E. destruct (ex_kept f h vals attrs h' Hf E) as [K N].
    destruct Hf as [<-|[<-|[]]]; cbn [fn_oneway ex_add ex_note].
    - unfold ex_handle in E. cbn [fn_name ex_add] in E.
      assert (G : (exists z, in_s 64 z /\ attrs = [(0, AInt64 z); (1, ANil)]) \/ attrs = [(0, AInt64 0); (1, ex_raise [110; 101; 103])]).
      { assert (Z0 : in_s 64 0) by (unfold in_s; cbn; lia).
        destruct vals as [|[] [|u [|]]]; try (left; exists 0; injection E; intros; split; [exact Z0|congruence]).
        destruct (z =? 0); [discriminate|]. destruct (z <? 0); injection E; intros; subst; [right; reflexivity|left].
        eexists. split; [|reflexivity]. apply wraps_range. lia. }
      destruct G as [(z & Iz & ->)| ->].
      + exists [(0, VI64 z)]. split; [|cbn; lia]. eapply rp_val; [|reflexivity|].
        * intros n [[<-|[]] D]. apply D. reflexivity.
        * constructor. exact Iz.
      + exists [(1, VStruct [(1, VStr [110; 101; 103])])]. split; [|cbn; lia].
        eapply (rp_exc _ _ _ (Mem 1 [111] false None ex_oops)).
        * split; [left; reflexivity|discriminate].
        * intros n [[<-|[]] D]. cbn. lia.
        * apply wo_struct. eapply wof_take; [reflexivity|unfold in_s; cbn; lia|constructor; [concrete|vm_compute; reflexivity]|constructor].
    - exists []. split; [|cbn; lia]. apply rp_void; [|reflexivity]. intros n [[] _]. }
  split; [eexists; split; [vm_compute; reflexivity|]; split; reflexivity|].
  split; eexists; (split; [vm_compute; reflexivity|]); split; reflexivity.
Qed.

(** ** What is not reported *)

(** SendX drops the errors of WriteMessageBegin, WriteMessageEnd and Flush: it returns no error
    though no byte of the message header arrived, and though nothing was sent off. *)
Theorem C72_send_refuted : exists f args c (w : @world rt wt) c1 w1 c2 w2,
  func_ok f /\ kept_args ext0 f args /\ w_sched (o_own w) = [WFail 0 (ETransport NOT_OPEN)] /\ w_out (o_own w) = [] /\
  send (binaryW true) flush_ok (fun s => s) ext0 40 f args c w = Ok (None, c1, w1) /\
  w_out (o_own w1) = sb_val ex_argsw /\
  send (binaryW true) flush_fails (fun s => s) ext0 40 f args c (MkWorld (MkWt [] []) (o_given w) (i_own w) (i_given w)) =
    Ok (None, c2, w2).
Proof.
  exists ex_add, ex_args, new_client_factory, (MkWorld (MkWt [] [WFail 0 (ETransport NOT_OPEN)]) (MkWt [] []) [] []).
  eexists _, _, _, _. split; [apply ex_ok; cbn; auto|]. split; [exact ex_args_kept|]. split; [reflexivity|]. split; [reflexivity|].
  split; [vm_compute; reflexivity|]. split; [vm_compute; reflexivity|]. vm_compute. reflexivity.
Qed.
Print Assumptions C72_send_refuted.

(** A processor goes on writing after WriteMessageBegin has failed: the bytes of a result without
    a header. *)
Theorem C72_continues_refuted : exists e p,
  run72 flush_ok [WFail 0 e] = Ok p /\ p_err p = Some (RErr e) /\
  w_out (p_out p) = 9 :: sb_val (VStruct [(0, VI64 12)]).
Proof. exists (ETransport NOT_OPEN). eexists. split; [vm_compute; reflexivity|]. split; reflexivity. Qed.
Print Assumptions C72_continues_refuted.

(** The number of a transport's error is taken for one of a protocol's: the end of the stream is
    reported as BAD_VERSION. *)
Theorem C72_kind_refuted : exists t v w w',
  gwrite (binaryW true) ext0 40 t v (MkWt [] [WFail 0 (ETransport END_OF_FILE)]) = Ok (Some (EProtocol BAD_VERSION), w') /\
  wireof ext0 t v w.
Proof.
  exists (TyStruct (args_name ex_add) (fn_args ex_add)), (args_val ex_add ex_args), ex_argsw.
  eexists. split; [vm_compute; reflexivity|]. exact ex_args_wire.
Qed.
Print Assumptions C72_kind_refuted.
