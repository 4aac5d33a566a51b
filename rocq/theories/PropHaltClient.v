(** C122 and C121 for the generated clients: SendX and RecvX return or panic; RecvX over frames is RecvX over their content. *)
From Coq Require Import ZArith List Bool Lia String Permutation.
From Coq Require Import ZifyBool ZifyNat.
From Verif Require Import Base Arith Errors Transport TransportProofs Proto Values WfDec Access Strconv JsonText JsonTextProofs
  Skip SkipProofs ReadProg F64 TField GoVal Names Compare TList TSet TMap Depth Gen GenSpec GenProofs GenInst GenRound Buffer Framed FramedProofs
  BinaryProofs BinarySpec Binary BinaryMsg PropBinary
  BufIO BufRead BufReadProofs Json JsonSpec JsonWrite JsonRead JsonReadVal JsonForm JsonTotal JsonSkip PropJson PropJsonTotal PropGen PropJsonGen
  Over Het OverSim OverInst OverRpc Unframe
  AppExc AppExcProofs PropRpc Rpc RpcProofs PropService PropJsonRpc Serve ServeProofs PropServe PropCalm PropCalmJson PropAnswer
  Compact CompactSkip WriteErr WriteEnds Tutorial PropTutorial PropUnframe PropHalt UnframeCompact.
Import ListNotations.
Local Open Scope list_scope.
Local Notation length := List.length.
Local Notation concat := List.concat.
Open Scope Z_scope.

(** ** Reading an answer *)
Section Recv.
Context {S : Type}.
Variable R : rproto S.
Variable Inv : S -> Prop.
Variable mu : S -> nat.
Variable x : ext.
Hypothesis order_perm : forall tag l, Permutation l (x_order x tag l).
Hypothesis K : halting R Inv mu.
Variable M : Z.
Notation kE := (ke Inv mu).
Ltac rd c := apply ke_lift, (ke_read R Inv mu K _ c); [cbn; tauto|assumption|lia].
Ltac un c := apply ke_do, (ke_unit R Inv mu K c); [reflexivity|cbn; tauto|assumption|lia].

Lemma ke_app_fields : forall f m t s, Inv s -> (2 * mu s + 1 <= f)%nat -> kE (mu s) (good any_result) (app_fields R M f m t s).
Proof.
  induction f as [|f IH]; intros m t s Hs L; [lia|]. cbn [app_fields].
  pose proof (h_call _ _ _ K _ ReadProg.CFieldBegin s (fun f => f) Hs) as Q. cbn [ReadProg.call] in Q.
  unfold hbind at 1. unfold hlift at 1.
  destruct (rFieldBegin R s) as [[[[[nm tt] i] e] s1]| |] eqn:E; unfold ke in Q; [|exact I|contradiction].
  destruct Q as (H1 & L1 & _). pose proof (h_field _ _ _ K s nm tt i e s1 Hs E) as St. cbn [obind].
  destruct e as [e|]; [split; [exact H1|split; [exact L1|exact I]]|]. cbn [obind].
  destruct (tt =? STOP) eqn:Es; [unfold ke, good, hret, any_result; auto|].
  assert (Nt : tt <> STOP) by (intros ->; discriminate Es). specialize (St Nt).
  assert (Sk : forall (v : bytes * Z) s2, Inv s2 -> (mu s2 <= mu s1)%nat ->
    kE (mu s1) (good any_result) ((_ <-- hdo (skip_default R M f tt) ;; hret v) s2)).
  { intros v s2 H2 L2. eapply ke_h with (Q := any_result).
    - apply ke_do. eapply ke_le; [apply (h_skip _ _ _ K); [exact H2|lia]|lia].
    - intros _ s3 _ H3 L3. apply ke_ret; auto; exact I. }
  apply ke_le with (n := mu s1); [|lia].
  eapply ke_h with (Q := any_result).
  - destruct (i =? 1); [|destruct (i =? 2)].
    + destruct (tt =? STRING); [|apply Sk; [exact H1|lia]]. eapply ke_h with (Q := any_result); [rd ReadProg.CString|].
      intros v s2 _ H2 L2. apply ke_ret; auto; exact I.
    + destruct (tt =? I32); [|apply Sk; [exact H1|lia]]. eapply ke_h with (Q := any_result); [rd ReadProg.CI32|].
      intros v s2 _ H2 L2. apply ke_ret; auto; exact I.
    + apply Sk; [exact H1|lia].
  - intros [m' t'] s2 _ H2 L2. eapply ke_h with (Q := any_result); [un ReadProg.CFieldEnd|]. intros _ s3 _ H3 L3.
    eapply ke_le; [apply IH; [exact H3|lia]|lia].
Qed.
Lemma ke_app : forall f s, Inv s -> (2 * mu s + 1 <= f)%nat -> kE (mu s) any_result (app_read R M f s).
Proof.
  intros f s Hs L. unfold app_read.
  pose proof (h_call _ _ _ K _ ReadProg.CStructBegin s (fun f => f) Hs) as Q. cbn [ReadProg.call] in Q.
  destruct (rStructBegin R s) as [[[nm e] s1]| |]; unfold ke in Q; [|exact I|contradiction]. destruct Q as (H1 & L1 & _). cbn [obind].
  destruct e as [e|]; [unfold ke, any_result; auto|].
  pose proof (ke_app_fields f [] UNKNOWN_APPLICATION_EXCEPTION s1 H1 ltac:(lia)) as Q.
  destruct (app_fields _ _ _ _ _ s1) as [[[ex|e] s2]| |]; unfold ke in Q; [| |exact I|contradiction]; destruct Q as (H2 & L2 & _); cbn [obind].
  - pose proof (ke_unit R Inv mu K ReadProg.CStructEnd (rStructEnd R) (mu s2) s2 eq_refl ltac:(cbn; tauto) H2 ltac:(lia)) as Q.
    destruct (rStructEnd R s2) as [[e s3]| |]; unfold ke in Q; [|exact I|contradiction]. cbn [obind]. unfold ke, any_result. intuition lia.
  - unfold ke, any_result. intuition lia.
Qed.
Lemma recv_ends : forall cf fuel f seq s, Inv s -> (mheight (result_members f) + 3 <= cf)%nat ->
  (2 * mu s + mheight (result_members f) + 2 <= fuel)%nat -> recv_on R x M cf fuel f seq s <> OutOfFuel.
Proof.
  intros cf fuel f seq s Hs Lc Lf. unfold recv_on. cbv zeta.
  pose proof (h_call _ _ _ K _ ReadProg.CMessageBegin s (fun f => f) Hs) as Q. cbn [ReadProg.call] in Q.
  destruct (rMessageBegin R s) as [[[[[nm t] sq] e] s1]| |]; unfold ke in Q; [|discriminate|contradiction]. destruct Q as (H1 & L1 & _). cbn [obind].
  destruct e as [e|]; [discriminate|].
  assert (End : forall s, Inv s -> kE (mu s) any_result (rMessageEnd R s)).
  { intros s0 H0. apply (ke_unit R Inv mu K ReadProg.CMessageEnd); [reflexivity|cbn; tauto|exact H0|lia]. }
  destruct (t =? EXCEPTION); [|destruct (negb (seq =? sq)); [discriminate|]].
  - pose proof (ke_app fuel s1 H1 ltac:(lia)) as Q.
    destruct (app_read R M fuel s1) as [[[ex e] s2]| |]; unfold ke in Q; [|discriminate|contradiction]. destruct Q as (H2 & L2 & _). cbn [obind].
    destruct e as [e|]; [discriminate|]. pose proof (End s2 H2) as Q.
    destruct (rMessageEnd R s2) as [[e s3]| |]; unfold ke in Q; [|discriminate|contradiction]. cbn [obind]. destruct e; discriminate.
  - pose proof (proj1 (ke_gread R Inv mu x order_perm K M cf fuel) (TyStruct (result_name f) (result_members f)) s1 H1) as Q.
    rewrite height_struct in Q. specialize (Q ltac:(lia) ltac:(lia)).
    destruct (gread R x M cf fuel _ s1) as [[r s2]| |]; unfold ke in Q; [|discriminate|contradiction]. destruct Q as (H2 & L2 & _). cbn [obind].
    pose proof (End s2 H2) as Q. destruct (rMessageEnd R s2) as [[e s3]| |]; unfold ke in Q; [|discriminate|contradiction]. cbn [obind].
    destruct r; discriminate.
Qed.
End Recv.

(** ** Claims *)

(** RecvX with framed input, on any input at all, returns what it returns on the frames: the same results, the same error, a
    panic when that panics. *)
Theorem C121_recv : forall intw x M cf fuel f seq r,
  (forall strict w, same_result (fsim intw)
     (recv_on (o_binaryR (read_all_over (framed_read intw)) strict) x M cf fuel f seq (NewTFramedTransport w r))
     (recv_on (binaryR strict) x M cf fuel f seq (unframed intw r))) /\
  (forall w, same_result (fun s r => fsim intw (fst s) (fst r) /\ snd s = snd r)
     (recv_on (o_compactR (read_all_over (framed_read intw)) framed_unread) x M cf fuel f seq (NewTFramedTransport w r, cinit))
     (recv_on compactR x M cf fuel f seq (unframed intw r, cinit))).
Proof.
  intros intw x M cf fuel f seq r. split; [intros strict w|intro w].
  - pose proof (hrecv_on false (fsim intw) _ _ (unframe_binaryR intw strict) x M cf fuel f seq _ _ (fsim_new intw w r)) as Q.
    destruct (recv_on (o_binaryR (read_all_over (framed_read intw)) strict) x M cf fuel f seq (NewTFramedTransport w r)) as [[v s]| |],
      (recv_on (binaryR strict) x M cf fuel f seq (unframed intw r)) as [[v' r']| |]; cbn in Q; try exact Q; try discriminate Q.
  - pose proof (hrecv_on false (fsimc intw) _ _ (unframe_compactR intw) x M cf fuel f seq (NewTFramedTransport w r, cinit) (unframed intw r, cinit)
      (conj (fsim_new intw w r) eq_refl)) as Q.
    destruct (recv_on (o_compactR (read_all_over (framed_read intw)) framed_unread) x M cf fuel f seq (NewTFramedTransport w r, cinit)) as [[v s]| |],
      (recv_on compactR x M cf fuel f seq (unframed intw r, cinit)) as [[v' r']| |]; cbn in Q; try exact Q; try discriminate Q.
Qed.
Print Assumptions C121_recv.

(** RecvX of any function returns or panics, whatever the server sent and in whatever pieces: over either protocol, plain or
    framed, or TJSONProtocol. *)
Theorem C122_recv : forall x M cf fuel f seq (r : rt), orders x -> (mheight (result_members f) + 3 <= cf)%nat ->
  (2 * length (content r) + mheight (result_members f) + 2 <= fuel)%nat ->
  (forall intw it pf, (it = TFFramed -> busy r) ->
     recv_on (rd_proto (GetReader intw it pf)) x M cf fuel f seq (rd_new (GetReader intw it pf) r) <> OutOfFuel) /\
  (forall J, clean r -> recv_on (jsonR J) x M cf fuel f seq (json_r r) <> OutOfFuel).
Proof.
  intros x M cf fuel f seq r O Lc Lf. split.
  - assert (B : forall strict r, (2 * length (content r) + mheight (result_members f) + 2 <= fuel)%nat ->
      recv_on (binaryR strict) x M cf fuel f seq r <> OutOfFuel).
    { intros strict r0 L. apply (recv_ends _ _ _ x O (halting_binary strict)); [exact I|exact Lc|exact L]. }
    assert (C : forall r, (2 * length (content r) + mheight (result_members f) + 2 <= fuel)%nat ->
      recv_on compactR x M cf fuel f seq (r, cinit) <> OutOfFuel).
    { intros r0 L. apply (recv_ends _ _ _ x O halting_compact); [exact I|exact Lc|exact L]. }
    intros intw it pf Bu. destruct it.
    + destruct pf as [ir iw|]; [apply B, Lf|apply C, Lf].
    + destruct (C121_no_more intw r (Bu eq_refl)) as [Ln _]. destruct (C121_recv intw x M cf fuel f seq r) as [Qb Qc].
      destruct pf as [ir iw|]; cbn [GetReader rd_proto rd_new rd_st].
      * specialize (Qb ir (MkWt [] [])). specialize (B ir (unframed intw r) ltac:(lia)). unfold new_framed_in.
        intro E. rewrite E in Qb. destruct (recv_on (binaryR ir) x M cf fuel f seq (unframed intw r)) as [[? ?]| |]; cbn in Qb; contradiction.
      * specialize (Qc (MkWt [] [])). specialize (C (unframed intw r) ltac:(lia)). unfold new_framed_in.
        intro E. rewrite E in Qc. destruct (recv_on compactR x M cf fuel f seq (unframed intw r, cinit)) as [[? ?]| |]; cbn in Qc; contradiction.
  - intros J Cl. destruct (fresh_SI True r (fun _ => Cl)) as (_ & S2 & _ & R2).
    apply (recv_ends _ _ _ x O (halting_json J)); [exact S2|exact Lc|lia].
Qed.
Print Assumptions C122_recv.

(** SendX of any function, given any arguments, returns or panics whatever the transport answers, over each protocol. *)
Theorem C122_send : forall SR x fuel f args c, (2 * mheight (fn_args f) + 2 <= fuel)%nat ->
  (forall tf pf fresh (w : @world SR _), send (wr_proto (GetWriter tf pf)) (wr_flush (GetWriter tf pf)) fresh x fuel f args c w <> OutOfFuel) /\
  (forall J fresh (w : @world SR _), send (jsonW J) nop fresh x fuel f args c w <> OutOfFuel) /\
  (forall J fresh (w : @world SR _), send (simpleW J) nop fresh x fuel f args c w <> OutOfFuel).
Proof.
  intros SR x fuel f args c L.
  assert (G : forall SW (W : wproto SW) flush fresh (w : @world SR SW), ends_all W -> endw flush ->
    send W flush fresh x fuel f args c w <> OutOfFuel).
  { intros SW W flush fresh w We Fe. unfold send. destruct (c_out c); [|discriminate]. destruct (negb (c_factory c)); [discriminate|]. cbv zeta.
    apply obind_some; [apply (We (WcMessageBegin _ _ _))|]. intros [e1 o1] _.
    apply obind_some; [apply endw_gwrite; [exact We|rewrite height_struct; lia]|]. intros [e2 o2] _.
    apply obind_some; [apply (We WcMessageEnd)|]. intros [e3 o3] _. apply obind_some; [apply Fe|]. intros [e4 o4] _. discriminate. }
  split; [|split].
  - intros tf pf fresh w. destruct (ends_writer tf pf). apply G; assumption.
  - intros J fresh w. apply G; [apply ends_json|apply endw_nop].
  - intros J fresh w. apply G; [apply ends_simple|apply endw_nop].
Qed.
Print Assumptions C122_send.

(** The answer to put, framed and in pieces: read whole; cut short; an exception whose text is missing. *)
Definition ex_msg (t : Z) : bytes := [128; 1; 0; t; 0; 0; 0; 3] ++ lit "put" ++ [0; 0; 0; 1].
Definition ex_frame (b : bytes) : rt := [([0; 0; 0; Z.of_nat (length b)], None); (firstn 5 b, None); (skipn 5 b, None); ([], Some EEof)].
Definition ex_recv (pf : pfactory) (it : tfactory) (r : rt) : option cres :=
  match recv_on (rd_proto (GetReader 64 it pf)) ext0 64 4 90 ex_put 1 (rd_new (GetReader 64 it pf) r) with Ok (c, _) => Some c | _ => None end.
Example C122_client_case :
  let good := ex_frame (ex_msg REPLY ++ [0]) in
  let cut := ex_frame (ex_msg REPLY) in
  let exc := ex_frame (ex_msg EXCEPTION ++ [8; 0; 2; 0; 0; 0; 4; 11; 0; 1; 0; 0; 0; 9]) in
  let pf := PFBinary true true in
  (orders ext0 /\ mheight (result_members ex_put) = 1%nat /\ (1 + 3 <= 4)%nat /\ (2 * length (content exc) + 1 + 2 <= 80)%nat) /\
  (busy good /\ busy cut /\ busy exc /\ clean good) /\
  ex_recv pf TFFramed good = Some ([], None) /\
  ex_recv pf TFFramed cut = Some ([], Some (RErr (EProtocol INVALID_DATA))) /\
  ex_recv pf TFPlain (unframed 64 good) = Some ([], None) /\
  exists e, ex_recv pf TFFramed exc = Some ([], Some (RErr e)).
Proof.
  cbv zeta. split; [split; [exact ext0_orders|split; [reflexivity|split; [lia|vm_compute; lia]]]|].
  split.
  { split; [|split; [|split]]; repeat (apply Forall_cons; [first [right; reflexivity|left; discriminate|right; discriminate|left; reflexivity]|]); apply Forall_nil. }
  split; [vm_compute; reflexivity|]. split; [vm_compute; reflexivity|]. split; [vm_compute; reflexivity|]. vm_compute. eexists. reflexivity.
Qed.
