(** C120 for TCompactProtocol: Process answers every request in which no varint is negative. *)
From Coq Require Import ZArith List Bool Lia String Permutation.
From Coq Require Import ZifyBool ZifyNat.
From Verif Require Import Base Arith Errors Transport TransportProofs Proto Values WfDec Access Strconv JsonText JsonTextProofs
  Skip SkipProofs ReadProg F64 TField GoVal Names Compare TList TSet TMap Depth Gen GenSpec GenProofs GenInst GenRound Buffer Framed FramedProofs
  BinaryProofs BinarySpec Binary BinaryMsg PropBinary
  BufIO BufRead BufReadProofs Json JsonSpec JsonWrite JsonRead JsonReadVal JsonForm JsonTotal JsonSkip PropJson PropJsonTotal PropGen PropJsonGen
  Over Het OverSim OverInst OverRpc Unframe
  AppExc AppExcProofs PropRpc Rpc RpcProofs PropService PropJsonRpc Serve ServeProofs PropServe PropWork PropCalm PropCalmJson PropAnswer
  Compact CompactSkip Tutorial PropTutorial PropUnframe PropHalt UnframeCompact PropHaltClient PropCalmClient.
From Verif Require Import CompactSpec CompactProofs CompactRead CompactStruct CompactExact PropServeCompact PropCalmCompact.
Import ListNotations.
Local Open Scope list_scope.
Local Notation length := List.length.
Local Notation concat := List.concat.
Open Scope Z_scope.

Section Server.
Context {H : Type}.
Variable r0 : rt.
Hypothesis NV : ~ negative_varint r0.
Variable x : ext.
Variable M : Z.
Variable cf fuel : nat.
Variable errtext : err -> bytes.
Variable handle : H -> bytes -> list any -> (list (Z * any) * option bytes) * H.
Variable fs : list func.
Hypothesis Fok : forall f, In f fs -> func_ok f.
Hypothesis Rok : handled x fuel handle fs.
Hypothesis Nb : forall f m, In f fs -> In m (result_members f) -> no_binary (m_ty m).
Hypothesis Tok : forall f h vals attrs text h', In f fs -> handle h (fn_name f) vals = ((attrs, Some text), h') ->
  exc_ok (MkExc INTERNAL_ERROR (s_internal ++ fn_name f ++ s_colon ++ text)).
Hypothesis Eok : forall e, exc_ok (MkExc PROTOCOL_ERROR (errtext e)).
Hypothesis Pl : forall f m, In f fs -> In m (fn_args f) -> flat (m_ty m).

Lemma cexc_ok : forall name seq e so o, cokm name seq -> exc_ok e -> cow so o ->
  exists so' o', write_exception compactW nop name seq e so = Ok so' /\ cow so' o'.
Proof.
  intros name seq e so o Km Ke Ho.
  destruct (write_exception_ok compactW nop cow cow sc_val sc_message [] cokm exc_ok cow_exc cow_msg cow_end cow_nop
    name seq e so o Km Ke Ho) as (so' & E & Ho'). eauto.
Qed.
Lemma cres_ok : forall f h vals attrs h' seq so o, In f fs -> handle h (fn_name f) vals = ((attrs, None), h') ->
  cokm (fn_name f) seq -> cow so o ->
  exists o1 o2 o', wMessageBegin compactW (fn_name f) REPLY seq so = Ok (None, o1) /\
    gwrite_result compactW x fuel (result_name f) (result_members f) (if fn_oneway f then init_attrs (result_members f) else attrs) o1 =
      Ok (None, o2) /\ cow o2 o'.
Proof.
  intros f h vals attrs h' seq so o Hf Eh Km Ho. pose proof (Rok f h vals attrs h' Hf Eh) as Rk.
  destruct (cow_msg (fn_name f) REPLY seq so o ltac:(auto) Km Ho) as (o1 & E1 & H1). exists o1.
  destruct (fn_oneway f) eqn:One.
  - destruct (empty_result_ok compactW nop (fun s => s) x M fuel handle false true cow cow cir cir sc_val
      sc_message [] cokm exc_ok func_ok (fun _ => True)
      cow_val cow_exc cow_msg cow_end cow_nop f (result_name f)
      (init_attrs (result_members f)) o1 _ (Fok f Hf) One Rk H1) as (o2 & G & G'). eexists o2, _. eauto.
  - destruct Rk as (rf & Hr & Nf).
    destruct (write_result_ok compactW nop (fun s => s) x M fuel handle false true cow cow cir cir sc_val
      sc_message [] cokm exc_ok func_ok (fun _ => True)
      cow_val cow_exc cow_msg cow_end cow_nop f attrs rf (result_name f) o1 _
      (Fok f Hf) Hr ltac:(intros m Hm _; apply (Nb f m Hf Hm)) Nf H1) as (o2 & G & G'). eexists o2, _. eauto.
Qed.

Hypothesis Nm : forall f, In f fs -> fn_name f <> [].
Lemma process_compact : forall h c so o,
  (forall name t seq s, cReadMessageBegin (r0, c) = Ok ((name, t, seq), None, s) ->
     in_s 32 seq /\ exc_ok (MkExc UNKNOWN_METHOD (s_unknown ++ name))) ->
  (2 * length (content r0) + 2 <= fuel)%nat -> cow so o ->
  exists p o', process compactR compactW nop x M cf fuel errtext handle fs h (r0, c) so = Ok p /\
    left_of r0 (fst (p_in p)) /\ cow (p_out p) o' /\ (p_success p = true -> (clen (p_in p) < length (content r0))%nat).
Proof.
  intros h c so o Hd L Ho. unfold process.
  destruct (c_msg r0 NV false (r0, c) (cinv_any r0 c)) as (nm & t & q & e & s1 & E & H1 & L1 & St).
  change (rMessageBegin compactR) with cReadMessageBegin. rewrite E. cbn [obind].
  change (clen (r0, c)) with (length (content r0)) in L1, St.
  destruct e as [e|].
  { eexists _, o. split; [reflexivity|]. cbn [p_in p_out p_success]. split; [exact (proj1 H1)|]. split; [exact Ho|discriminate]. }
  destruct (Hd _ _ _ _ E) as [Hq Hu].
  assert (Km : cokm nm q).
  { split; [|exact Hq]. destruct Hu as (_ & _ & Lu). cbn [x_msg] in Lu. rewrite app_length in Lu. lia. }
  assert (Err : forall name ex rr (h' : H) (s : cr), cokm name q -> exc_ok ex -> left_of r0 (fst s) -> exists (p : @pout cr cw H) o',
    (so' <- write_exception compactW nop name q ex so ;; Ok (MkPout false (Some rr) h' s so')) = Ok p /\
    left_of r0 (fst (p_in p)) /\ cow (p_out p) o' /\ (p_success p = true -> (clen (p_in p) < length (content r0))%nat)).
  { intros name ex rr h' s K1 K2 Ls. destruct (cexc_ok name q ex so o K1 K2 Ho) as (so' & o' & -> & Ho'). cbn [obind].
    eexists _, o'. split; [reflexivity|]. cbn [p_in p_out p_success]. split; [exact Ls|]. split; [exact Ho'|discriminate]. }
  destruct (lookup_fn fs nm) as [f|] eqn:Lk.
  - apply lookup_in in Lk. destruct Lk as [Hf <-]. specialize (St (Nm f Hf)). unfold process_fn.
    destruct (struct_compact r0 NV M x cf fuel (args_name f) (fn_args f) s1 (fun m Hm => Pl f m Hf Hm) H1 ltac:(lia)) as (v & s2 & -> & H2 & L2).
    cbn [obind]. change (rMessageEnd compactR s2) with (Ok (@None err, s2)).
    destruct v as [args|e]; cbn [obind]; [|apply Err; [exact Km|apply Eok|exact (proj1 H2)]].
    match goal with |- context [handle h (fn_name f) ?v] => set (vals := v) end.
    destruct (handle h (fn_name f) vals) as [[attrs [text|]] h'] eqn:Eh; [apply Err; [exact Km|exact (Tok _ _ _ _ _ _ Hf Eh)|exact (proj1 H2)]|].
    destruct (cres_ok f h vals attrs h' q so o Hf Eh Km Ho) as (o1 & o2 & o' & E1 & E2 & Ho').
    cbv zeta. rewrite E1. cbn [obind]. rewrite E2. cbn [obind].
    change (wMessageEnd compactW o2) with (Ok (@None err, o2)). cbn [obind]. change (nop o2) with (Ok (@None err, o2)).
    cbn [obind first_error]. eexists _, o'. split; [reflexivity|]. cbn [p_in p_out p_success].
    split; [exact (proj1 H2)|]. split; [exact Ho'|]. intros _. lia.
  - assert (Sk : exists e s2, skip_default compactR M fuel STRUCT s1 = Ok (e, s2) /\ left_of r0 (fst s2)).
    { unfold skip_default. destruct s1 as [r1 c1]. unfold clen in L1. cbn [fst] in L1.
      pose proof (skip_compact_keeps r1 M fuel STRUCT M c1 ltac:(lia)) as Q.
      destruct (skip compactR M fuel STRUCT M (r1, c1)) as [[e2 s2]| |]; [|destruct NV|destruct Q].
      - exists e2, s2. split; [reflexivity|]. eapply left_trans; [exact (proj1 H1)|exact Q].
      - destruct Q as (r2 & c2 & n & s' & Lr & Er & N). exists r2, c2, n, s'.
        split; [eapply left_trans; [exact (proj1 H1)|exact Lr]|]. split; assumption. }
    destruct Sk as (e2 & s2 & -> & Ls). cbn [obind]. change (rMessageEnd compactR s2) with (Ok (@None err, s2)). cbn [obind].
    cbv zeta. apply Err; assumption.
Qed.
End Server.

(** Process over TCompactProtocol, of a service without containers in its arguments and without binary in its results,
    with any state left in the protocol from before: every input with no negative varint in it, so every input in which
    no varint is longer than four bytes, is answered.  If the header can be read, exactly one message is written, as in
    C44; otherwise Process reports the header's error and writes nothing.
    Inputs with a negative varint may make Process panic (C120_compact_case). *)
Theorem C120_compact : forall H x M cf fuel errtext
    (handle : H -> bytes -> list any -> (list (Z * any) * option bytes) * H) fs h (r : rt) ci c o,
  (forall f, In f fs -> func_ok f) -> (forall f m, In f fs -> In m (fn_args f) -> flat (m_ty m)) ->
  (forall f, In f fs -> fn_name f <> []) ->
  (forall f m, In f fs -> In m (result_members f) -> no_binary (m_ty m)) -> handled x fuel handle fs ->
  (forall f h vals attrs text h', In f fs -> handle h (fn_name f) vals = ((attrs, Some text), h') ->
     exc_ok (MkExc INTERNAL_ERROR (s_internal ++ fn_name f ++ s_colon ++ text))) ->
  (forall e, exc_ok (MkExc PROTOCOL_ERROR (errtext e))) ->
  (forall name t seq s, cReadMessageBegin (r, ci) = Ok ((name, t, seq), None, s) ->
     in_s 32 seq /\ exc_ok (MkExc UNKNOWN_METHOD (s_unknown ++ name))) ->
  (2 * length (content r) + 2 <= fuel)%nat -> booleanField c = None ->
  ~ negative_varint r \/ tame (content r) ->
  exists p, process compactR compactW nop x M cf fuel errtext handle fs h (r, ci) (MkWt o [], c) = Ok p /\
  match cReadMessageBegin (r, ci) with
  | Ok ((name, _, seq), None, _) =>
    exists mt body, answered x errtext handle fs h name mt body (p_h p) (p_success p) /\
      w_out (fst (p_out p)) = o ++ sc_message name mt seq ++ sc_val (VStruct body)
  | Ok (_, Some e, _) =>
    p_success p = false /\ p_err p = Some (RErr e) /\ p_h p = h /\ p_out p = (MkWt o [], c)
  | _ => False
  end.
Proof.
  intros H x M cf fuel errtext handle fs h r ci c o Fok Pl Nm Nb Rok Tok Eok Hd Lf Bf T.
  assert (NV : ~ negative_varint r) by (destruct T as [T|T]; [exact T|apply tame_varint, T]).
  destruct (process_compact r NV x M cf fuel errtext handle fs Fok Rok Nb Tok Eok Pl Nm h ci (MkWt o [], c) o Hd Lf
    ltac:(exists c; auto)) as (p & _ & E & _).
  exists p. split; [exact E|].
  assert (Rok' : forall f h vals attrs h', In f fs -> handle h (fn_name f) vals = ((attrs, None), h') ->
     if fn_oneway f then (2 <= fuel)%nat
     else (forall m, In m (result_members f) -> no_binary (m_ty m)) /\
          exists rf, reply x f attrs rf /\ (need (VStruct rf) <= fuel)%nat).
  { intros f h0 vals attrs h' Hf Eh. pose proof (Rok f h0 vals attrs h' Hf Eh) as Q. destruct (fn_oneway f); [exact Q|].
    split; [intros m Hm; apply (Nb f m Hf Hm)|exact Q]. }
  pose proof (C44_compact_partial H x M cf fuel errtext handle fs h (r, ci) c o p Fok Rok' Tok Eok Bf E) as Q.
  destruct (cReadMessageBegin (r, ci)) as [[[[[name t] seq] [e|]] s1]| |]; try exact Q.
  destruct (Hd _ _ _ _ eq_refl) as [K1 K2]. apply Q; assumption.
Qed.
Print Assumptions C120_compact.

(** ** A connection *)

Lemma varint_small : forall r c n s', tame (content r) -> readVarint32 (r, c) = Ok (n, None, s') -> 0 <= n < 2 ^ 28.
Proof.
  intros r c n s' H E. unfold readVarint32, readVarint64 in E.
  destruct (readVarint64_loop _ 0 0 (r, c)) as [[[v e] s1]| |] eqn:E1; cbn [obind] in E; try discriminate E.
  injection E as En Ee _. subst e.
  apply (loop_small 4) in E1; [|lia|lia|cbn; lia|apply tame_ends, H].
  rewrite Arith.wraps_id in En; [lia|lia|]. unfold in_s. change (2 ^ (32 - 1)) with (2 ^ 31).
  assert (2 ^ 28 < 2 ^ 31) by (apply Z.pow_lt_mono_r; lia). lia.
Qed.
Definition plainly (r : rt) : Prop := tame (content r) /\ is_bytes (content r).
Lemma plainly_left : forall r r', left_of r r' -> plainly r -> plainly r'.
Proof.
  intros r r' [d E] [H1 H2]. rewrite E in H1, H2. split; [eapply tame_app, H1|]. apply is_bytes_app in H2. apply H2.
Qed.
Lemma header_ok : forall r c name t seq s, plainly r -> cReadMessageBegin (r, c) = Ok ((name, t, seq), None, s) ->
  in_s 32 seq /\ is_bytes name /\ Z.of_nat (length name) < 2 ^ 28.
Proof.
  intros r c name t seq s Hp E. unfold cReadMessageBegin in E.
  destruct (byte_left r c) as (b1 & e1 & r1 & E1 & L1 & _). rewrite E1 in E. cbn [obind] in E.
  destruct (negb _); [discriminate E|].
  destruct (byte_left r1 c) as (b2 & e2 & r2 & E2 & L2 & _). rewrite E2 in E. cbn [obind] in E. cbv zeta in E.
  destruct e2; [discriminate E|]. destruct (negb _); [discriminate E|].
  destruct (varint32_left r2 c) as (v & e3 & r3 & E3 & L3 & _). rewrite E3 in E. cbn [obind] in E.
  destruct e3 as [e3|]; [destruct (pefo_some e3) as [e' Ee]; rewrite Ee in E; discriminate E|].
  pose proof (plainly_left _ _ (left_trans _ _ _ (left_trans _ _ _ L1 L2) L3) Hp) as P3.
  assert (Hv : in_s 32 v).
  { unfold readVarint32 in E3. destruct (readVarint64 (r2, c)) as [[[w ew] sw]| |]; cbn [obind] in E3; try discriminate E3.
    injection E3 as <- _ _. apply Arith.wraps_range. lia. }
  unfold cReadString, cReadBinary in E.
  destruct (varint32_left r3 c) as (n & e4 & r4 & E4 & L4 & _). rewrite E4 in E. cbn [obind] in E.
  destruct e4 as [e4|]; [destruct (pefo_some e4) as [e' Ee]; rewrite Ee in E; cbn [obind] in E; destruct (pefo_some e') as [e'' Ee']; rewrite Ee' in E; discriminate E|].
  pose proof (varint_small r3 c n _ (proj1 P3) E4) as Hn.
  destruct (n =? 0); cbn [obind] in E.
  - injection E as <- _ <- _. split; [exact Hv|]. split; [constructor|]. cbn. lia.
  - replace (n <? 0) with false in E by lia. destruct (read_all (Z.to_nat n) r4) as [[[k buf] e5] r5] eqn:Ra. cbn [obind] in E.
    pose proof (read_all_any _ _ _ _ _ _ Ra) as (d & D1 & D2 & D3 & _).
    assert (En : name = buf) by congruence. assert (Eq : seq = v) by congruence. rewrite En, Eq, D2. split; [exact Hv|].
    pose proof (plainly_left _ _ L4 P3) as [_ P4]. rewrite D1 in P4. apply is_bytes_app in P4. split.
    + unfold pad. apply is_bytes_app. split; [apply P4|]. apply Forall_forall. intros z Hz. apply repeat_spec in Hz. subst z. unfold is_byte. lia.
    + rewrite pad_length by exact D3. lia.
Qed.
Lemma header_exc : forall name, is_bytes name -> Z.of_nat (length name) < 2 ^ 28 -> exc_ok (MkExc UNKNOWN_METHOD (s_unknown ++ name)).
Proof.
  intros name H L. split; [unfold UNKNOWN_METHOD, in_s; cbn; lia|]. cbn [x_msg]. split.
  - apply is_bytes_app. split; [|exact H]. unfold s_unknown. repeat constructor; unfold is_byte; lia.
  - rewrite app_length. change (length s_unknown) with 17%nat. assert (2 ^ 28 < 2 ^ 30) by (apply Z.pow_lt_mono_r; lia).
    change (2 ^ 31) with (2 * 2 ^ 30). lia.
Qed.

(** A server's connection over TCompactProtocol, plain: a client that sends bytes in which no varint is longer than four
    bytes does not make it panic; the connection ends and what was sent is a sequence of answers, as in C104.
    With longer ones Process may panic (C120_compact_case). *)
Theorem C120_compact_server : forall H intw x M cf fuel errtext
    (handle : H -> bytes -> list any -> (list (Z * any) * option bytes) * H) fs stopped rounds h (r : rt),
  (forall f, In f fs -> func_ok f) -> (forall f m, In f fs -> In m (fn_args f) -> flat (m_ty m)) ->
  (forall f, In f fs -> fn_name f <> []) ->
  (forall f m, In f fs -> In m (result_members f) -> no_binary (m_ty m)) -> handled x fuel handle fs ->
  (forall f h vals attrs text h', In f fs -> handle h (fn_name f) vals = ((attrs, Some text), h') ->
     exc_ok (MkExc INTERNAL_ERROR (s_internal ++ fn_name f ++ s_colon ++ text))) ->
  (forall e, exc_ok (MkExc PROTOCOL_ERROR (errtext e))) ->
  (2 * length (content r) + 2 <= fuel)%nat -> (length (content r) < rounds)%nat ->
  tame (content r) -> is_bytes (content r) ->
  exists h' b out,
    processRequest x M cf fuel errtext handle fs stopped intw (MkTServer TFPlain TFPlain PFCompact PFCompact) rounds h r = Ok (h', b) /\
    only_answers x errtext handle fs h out h' /\ b = concat (map (told PFCompact) out).
Proof.
  intros H intw x M cf fuel errtext handle fs stopped rounds h r Fok Pl Nm Nb Rok Tok Eok Lf Lr Ta By.
  assert (Step : forall h (r : rt) c so o, plainly r -> (2 * length (content r) + 2 <= fuel)%nat -> cow so o ->
    exists p o', process compactR compactW nop x M cf fuel errtext handle fs h (r, c) so = Ok p /\
    left_of r (fst (p_in p)) /\ cow (p_out p) o' /\ (p_success p = true -> (clen (p_in p) < length (content r))%nat)).
  { intros h0 r1 c so o Hp L Ho. apply (process_compact r1 (tame_varint _ (proj1 Hp)) x M cf fuel errtext handle fs Fok Rok Nb Tok Eok Pl Nm h0 c so o); [|exact L|exact Ho].
    intros name t seq s E. destruct (header_ok _ _ _ _ _ _ Hp E) as (A & B & C). split; [exact A|apply header_exc; assumption]. }
  assert (Loop : forall rounds n h (r : rt) c so o, plainly r -> (2 * length (content r) + 2 <= fuel)%nat -> (length (content r) < rounds)%nat -> cow so o ->
    exists h' si' so', serve_loop x M cf fuel errtext handle fs stopped compactR compactW nop rounds n h (r, c) so = Ok (h', si', so')).
  { induction rounds0 as [|rounds0 IH]; intros n h0 r1 c so o Hp L Lo Ho; [lia|].
    destruct (Step h0 r1 c so o Hp L Ho) as (p & o' & E & Ls & Ho' & St). cbn [serve_loop]. rewrite E. cbn [obind].
    destruct (ends (stopped n) p) eqn:En; [eauto|].
    assert (Sc : p_success p = true).
    { revert En. unfold ends. destruct (p_err p); [destruct (stopped n); cbn|]; destruct (p_success p); cbn; congruence. }
    specialize (St Sc). destruct (p_in p) as [r2 c2] eqn:Ep. unfold clen in St. cbn [fst] in *.
    apply (IH (S n) (p_h p) r2 c2 (p_out p) o'); [eapply plainly_left; eassumption|lia|lia|exact Ho']. }
  destruct (Loop rounds 0%nat h r cinit (MkWt [] [], cinit) [] (conj Ta By) Lf Lr ltac:(exists cinit; auto)) as (h' & si' & so' & E).
  assert (P : exists b, processRequest x M cf fuel errtext handle fs stopped intw
    (MkTServer TFPlain TFPlain PFCompact PFCompact) rounds h r = Ok (h', b)).
  { unfold processRequest. cbn [sv_in_t sv_out_t sv_in_p sv_out_p].
    match goal with |- context [serve_loop ?a ?b ?c ?d ?e ?f ?g ?h ?i ?j ?k ?l ?m ?n ?o ?p] =>
      change (serve_loop a b c d e f g h i j k l m n o p) with
        (serve_loop x M cf fuel errtext handle fs stopped compactR compactW nop rounds 0 n (r, cinit) (MkWt [] [], cinit)) end.
    rewrite E. cbn [obind]. eauto. }
  destruct P as (b & P). exists h', b.
  assert (Rok' : forall f h vals attrs h', In f fs -> handle h (fn_name f) vals = ((attrs, None), h') ->
     if fn_oneway f then (2 <= fuel)%nat
     else (forall m, In m (result_members f) -> no_binary (m_ty m)) /\
          exists rf, reply x f attrs rf /\ (need (VStruct rf) <= fuel)%nat).
  { intros f h0 vals attrs h1 Hf Eh. pose proof (Rok f h0 vals attrs h1 Hf Eh) as Q. destruct (fn_oneway f); [exact Q|].
    split; [intros m Hm; apply (Nb f m Hf Hm)|exact Q]. }
  destruct (C104_compact_answers_partial H intw (MkTServer TFPlain TFPlain PFCompact PFCompact) x M cf fuel
    errtext handle fs stopped rounds h r h' b eq_refl Fok Rok' Tok Eok) as (out & A & B); [|exact P|].
  { cbn [sv_in_t sv_out_t sv_in_p sv_out_p]. intros name Me.
    assert (G : forall h (si : cr) so name, meets compactR compactW nop x M cf fuel errtext handle fs h si so name ->
      forall o, plainly (fst si) -> (2 * clen si + 2 <= fuel)%nat -> cow so o -> is_bytes name /\ Z.of_nat (length name) < 2 ^ 31 - 17).
    { intros h0 si so nm Q. induction Q as [h0 [r1 c1] so nm t seq s1 Eh|h0 [r1 c1] so nm p Ep Sp Q IHQ]; intros o Hp L Ho; cbn [fst] in Hp.
      - destruct (header_ok _ _ _ _ _ _ Hp Eh) as (_ & A & B). split; [exact A|].
        assert (2 ^ 28 < 2 ^ 30) by (apply Z.pow_lt_mono_r; lia). change (2 ^ 31) with (2 * 2 ^ 30). lia.
      - destruct (Step h0 r1 c1 so o Hp L Ho) as (p2 & o' & E2 & Ls & Ho' & St). rewrite Ep in E2. injection E2 as <-.
        specialize (St Sp). unfold clen in L at 1. cbn [fst] in L. apply (IHQ o'); [eapply plainly_left; eassumption|lia|exact Ho']. }
    apply (G _ _ _ _ Me []); [split; assumption|exact Lf|exists cinit; auto]. }
  exists out. split; [exact P|]. split; [exact A|]. exact B.
Qed.
Print Assumptions C120_compact_server.

(** The same for framed input, if the bytes in the frames are such (C121_frames, C121_no_more: [busy] input has no Read
    that returns neither data nor an error). *)
Theorem C120_compact_framed : forall H intw x M cf fuel errtext
    (handle : H -> bytes -> list any -> (list (Z * any) * option bytes) * H) fs stopped rounds h (r : rt),
  (forall f, In f fs -> func_ok f) -> (forall f m, In f fs -> In m (fn_args f) -> flat (m_ty m)) ->
  (forall f, In f fs -> fn_name f <> []) ->
  (forall f m, In f fs -> In m (result_members f) -> no_binary (m_ty m)) -> handled x fuel handle fs ->
  (forall f h vals attrs text h', In f fs -> handle h (fn_name f) vals = ((attrs, Some text), h') ->
     exc_ok (MkExc INTERNAL_ERROR (s_internal ++ fn_name f ++ s_colon ++ text))) ->
  (forall e, exc_ok (MkExc PROTOCOL_ERROR (errtext e))) -> busy r ->
  (2 * length (content r) + 2 <= fuel)%nat -> (length (content r) < rounds)%nat ->
  tame (content (unframed intw r)) -> is_bytes (content (unframed intw r)) ->
  exists h' b out,
    processRequest x M cf fuel errtext handle fs stopped intw (MkTServer TFFramed TFPlain PFCompact PFCompact) rounds h r = Ok (h', b) /\
    only_answers x errtext handle fs h out h' /\ b = concat (map (told PFCompact) out).
Proof.
  intros H intw x M cf fuel errtext handle fs stopped rounds h r Fok Pl Nm Nb Rok Tok Eok Bu Lf Lr Ta By.
  rewrite C121_server. destruct (C121_no_more intw r Bu) as [Ln _].
  apply C120_compact_server; try assumption; lia.
Qed.
Print Assumptions C120_compact_framed.

(** The tutorial's calculator: a request for add in pieces, with a field of an unknown list in front of the arguments, is
    tame and answered; one whose name has length -1 makes Process panic. *)
Definition ex_crequest : bytes := [130; 33; 7; 3] ++ lit "add" ++ [89; 37; 2; 4; 5; 2; 4; 21; 6; 0].
Example C120_compact_case :
  let r := [(firstn 6 ex_crequest, None); (skipn 6 ex_crequest, None); ([], Some EEof)] : rt in
  tame (content r) /\ (2 * length (content r) + 2 <= 400)%nat /\ booleanField cinit = None /\
  (forall f, In f calculator -> func_ok f) /\ (forall f m, In f calculator -> In m (fn_args f) -> flat (m_ty m)) /\
  (forall f, In f calculator -> fn_name f <> []) /\
  (forall f m, In f calculator -> In m (result_members f) -> no_binary (m_ty m)) /\
  handled ext0 400 safe_handle calculator /\
  (forall f h vals attrs text h', In f calculator -> safe_handle h (fn_name f) vals = ((attrs, Some text), h') ->
     exc_ok (MkExc INTERNAL_ERROR (s_internal ++ fn_name f ++ s_colon ++ text))) /\
  (forall e : err, exc_ok (MkExc PROTOCOL_ERROR (errtext0 e))) /\
  (exists t s, cReadMessageBegin (r, cinit) = Ok ((lit "add", t, 7), None, s)) /\
  exc_ok (MkExc UNKNOWN_METHOD (s_unknown ++ lit "add")) /\
  (exists p, process compactR compactW nop ext0 64 5 400 errtext0 safe_handle calculator [] (r, cinit) (MkWt [] [], cinit) = Ok p /\
     p_success p = true /\ w_out (fst (p_out p)) = sc_message (lit "add") REPLY 7 ++ sc_val (VStruct [(0, VI32 5)])) /\
  process compactR compactW nop ext0 64 5 400 errtext0 safe_handle calculator []
    ([([130; 33; 7; 255; 255; 255; 255; 15], None)], cinit) (MkWt [] [], cinit) = Panic.
Proof.
  cbv zeta. split; [apply tameb_ok; vm_compute; reflexivity|]. split; [vm_compute; lia|]. split; [reflexivity|].
  split; [exact calculator_ok|]. split; [exact calculator_flat|]. split; [exact calculator_named|].
  split; [exact calculator_no_binary|].
  split; [intros f h vals attrs h' Hf E; eapply safe_replies; [exact ext0_orders|lia|exact Hf|exact E]|].
  split. { intros. eapply safe_texts; eassumption. }
  split; [intro e; unfold exc_ok; (split; [concrete|split; [concrete|vm_compute; reflexivity]])|].
  split; [eexists _, _; vm_compute; reflexivity|].
  split; [unfold exc_ok; (split; [concrete|split; [concrete|vm_compute; reflexivity]])|].
  split; [eexists; split; [vm_compute; reflexivity|]; vm_compute; split; reflexivity|]. vm_compute. reflexivity.
Qed.
(** That request, one for a function the service does not have, and bytes that are no request. *)
Example C120_compact_server_case :
  let r := [(firstn 6 ex_crequest, None); (skipn 6 ex_crequest ++ ex_crequest, None); ([130; 33; 8; 3] ++ lit "mul" ++ [0; 1; 2], None)] : rt in
  tame (content r) /\ is_bytes (content r) /\ (2 * length (content r) + 2 <= 400)%nat /\ (length (content r) < 100)%nat /\
  exists p', processRequest ext0 64 5 400 errtext0 safe_handle calculator (fun _ => false) 64
      (MkTServer TFPlain TFPlain PFCompact PFCompact) 100 [] r =
    Ok (p', told PFCompact (MkAnswer (lit "add") REPLY 7 [(0, VI32 5)]) ++ told PFCompact (MkAnswer (lit "add") REPLY 7 [(0, VI32 5)]) ++
      told PFCompact (MkAnswer (lit "mul") EXCEPTION 8 [(1, VStr (lit "Unknown function mul")); (2, VI32 1)])).
Proof.
  cbv zeta. split; [apply tameb_ok; vm_compute; reflexivity|]. split; [concrete|]. split; [vm_compute; lia|]. split; [vm_compute; lia|].
  eexists. vm_compute. reflexivity.
Qed.
(** The three requests in frames, the first two in one, which comes in two pieces. *)
Example C120_compact_framed_case :
  let b := frame (ex_crequest ++ ex_crequest) ++ frame ([130; 33; 8; 3] ++ lit "mul" ++ [0]) in
  let r := [(firstn 9 b, None); (skipn 9 b, None)] : rt in
  busy r /\ tame (content (unframed 64 r)) /\ is_bytes (content (unframed 64 r)) /\ (2 * length (content r) + 2 <= 400)%nat /\
  exists p', processRequest ext0 64 5 400 errtext0 safe_handle calculator (fun _ => false) 64
      (MkTServer TFFramed TFPlain PFCompact PFCompact) 100 [] r =
    Ok (p', told PFCompact (MkAnswer (lit "add") REPLY 7 [(0, VI32 5)]) ++ told PFCompact (MkAnswer (lit "add") REPLY 7 [(0, VI32 5)]) ++
      told PFCompact (MkAnswer (lit "mul") EXCEPTION 8 [(1, VStr (lit "Unknown function mul")); (2, VI32 1)])).
Proof.
  cbv zeta. split; [repeat (apply Forall_cons; [left; discriminate|]); apply Forall_nil|].
  split; [apply tameb_ok; vm_compute; reflexivity|]. split; [concrete|]. split; [vm_compute; lia|]. eexists. vm_compute. reflexivity.
Qed.
