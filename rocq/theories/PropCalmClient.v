(** C123: a client survives every answer when nothing its function returns holds a container (or binary). *)
From Coq Require Import ZArith List Bool Lia String Permutation.
From Coq Require Import ZifyBool ZifyNat.
From Verif Require Import Base Arith Errors Transport TransportProofs Proto Values WfDec Access Strconv JsonText JsonTextProofs
  Skip SkipProofs ReadProg F64 TField GoVal Names Compare TList TSet TMap Depth Gen GenSpec GenProofs GenInst GenRound Buffer Framed FramedProofs
  BinaryProofs BinarySpec Binary BinaryMsg PropBinary
  BufIO BufRead BufReadProofs Json JsonSpec JsonWrite JsonRead JsonReadVal JsonForm JsonTotal JsonSkip PropJson PropJsonTotal PropGen PropJsonGen
  Over Het OverSim OverInst OverRpc Unframe
  AppExc AppExcProofs PropRpc Rpc RpcProofs PropService PropJsonRpc Serve ServeProofs PropServe PropWork PropCalm PropCalmJson PropAnswer
  Compact CompactSkip Tutorial PropTutorial PropUnframe PropHalt UnframeCompact PropHaltClient.
Import ListNotations.
Local Open Scope list_scope.
Local Notation length := List.length.
Local Notation concat := List.concat.
Open Scope Z_scope.

(** ** Reading an answer *)
Section Recv.
Context {S : Type}.
Variable R : rproto S.
Variable Inv : S -> Prop.
Variable mu : S -> nat.
Variable allow : bool.
Hypothesis K : returning R Inv mu allow.
Variable M : Z.
Notation kT := (kt Inv mu).
Ltac rd c := apply kt_lift, (kt_read R Inv mu allow K _ c); [cbn; tauto|cbn; tauto|assumption|lia].
Ltac un c := apply kt_do, (kt_unit R Inv mu allow K c); [reflexivity|cbn; tauto|cbn; tauto|assumption|lia].

Lemma kt_app_fields : forall f m t s, Inv s -> (2 * mu s + 1 <= f)%nat -> kT (mu s) (app_fields R M f m t s).
Proof.
  induction f as [|f IH]; intros m t s Hs L; [lia|]. cbn [app_fields].
  destruct (r_call _ _ _ _ K _ ReadProg.CFieldBegin s (fun f => f) (fun _ f => f) Hs) as (v & s1 & E & H1 & L1).
  cbn [ReadProg.call] in E. destruct v as [[[nm tt] i] e]. pose proof (r_field _ _ _ _ K s nm tt i e s1 Hs E) as St.
  unfold hbind at 1. unfold hlift at 1. rewrite E. cbn [obind].
  destruct e as [e|]; [apply kt_ok; assumption|]. cbn [obind].
  destruct (tt =? STOP) eqn:Es; [apply kt_ret; assumption|].
  assert (Nt : tt <> STOP) by (intros ->; discriminate Es). specialize (St Nt).
  assert (Sk : forall (v : bytes * Z) s2, Inv s2 -> (mu s2 <= mu s1)%nat ->
    kT (mu s1) ((_ <-- hdo (skip_default R M f tt) ;; hret v) s2)).
  { intros v s2 H2 L2. apply kt_h.
    - apply kt_do. eapply kt_le; [apply (r_skip _ _ _ _ K); [exact H2|lia]|lia].
    - intros _ s3 H3 L3. apply kt_ret; assumption. }
  apply kt_le with (n := mu s1); [|lia].
  apply kt_h.
  - destruct (i =? 1); [|destruct (i =? 2)].
    + destruct (tt =? STRING); [|apply Sk; [exact H1|lia]]. apply kt_h; [rd ReadProg.CString|].
      intros v s2 H2 L2. apply kt_ret; assumption.
    + destruct (tt =? I32); [|apply Sk; [exact H1|lia]]. apply kt_h; [rd ReadProg.CI32|].
      intros v s2 H2 L2. apply kt_ret; assumption.
    + apply Sk; [exact H1|lia].
  - intros [m' t'] s2 H2 L2. apply kt_h; [un ReadProg.CFieldEnd|]. intros _ s3 H3 L3.
    eapply kt_le; [apply IH; [exact H3|lia]|lia].
Qed.
Lemma kt_app : forall f s, Inv s -> (2 * mu s + 1 <= f)%nat -> kT (mu s) (app_read R M f s).
Proof.
  intros f s Hs L. unfold app_read.
  destruct (r_call _ _ _ _ K _ ReadProg.CStructBegin s (fun f => f) (fun _ f => f) Hs) as (v & s1 & E & H1 & L1).
  cbn [ReadProg.call] in E. destruct v as [nm e]. rewrite E. cbn [obind].
  destruct e as [e|]; [apply kt_ok; assumption|].
  destruct (kt_app_fields f [] UNKNOWN_APPLICATION_EXCEPTION s1 H1 ltac:(lia)) as ([ex|e] & s2 & -> & H2 & L2); cbn [obind].
  - destruct (kt_unit R Inv mu allow K ReadProg.CStructEnd (rStructEnd R) (mu s2) s2 eq_refl ltac:(cbn; tauto) ltac:(cbn; tauto) H2 ltac:(lia))
      as (e & s3 & -> & H3 & L3). cbn [obind]. apply kt_ok; [exact H3|lia].
  - apply kt_ok; [exact H2|lia].
Qed.
Lemma recv_returns : forall x cf fuel f seq s, Inv s -> (forall m, In m (result_members f) -> safe allow (m_ty m)) ->
  (2 * mu s + 2 <= fuel)%nat -> kT (mu s) (recv_on R x M cf fuel f seq s).
Proof.
  intros x cf fuel f seq s Hs Sf Lf. unfold recv_on. cbv zeta.
  destruct (r_call _ _ _ _ K _ ReadProg.CMessageBegin s (fun f => f) (fun _ f => f) Hs) as (v & s1 & E & H1 & L1).
  cbn [ReadProg.call] in E. destruct v as [[[nm t] sq] e]. rewrite E. cbn [obind].
  destruct e as [e|]; [apply kt_ok; assumption|].
  assert (End : forall s, Inv s -> kT (mu s) (rMessageEnd R s)).
  { intros s0 H0. apply (kt_unit R Inv mu allow K ReadProg.CMessageEnd); [reflexivity|cbn; tauto|cbn; tauto|exact H0|lia]. }
  destruct (t =? EXCEPTION); [|destruct (negb (seq =? sq)); [apply kt_ok; assumption|]].
  - destruct (kt_app fuel s1 H1 ltac:(lia)) as ([ex e] & s2 & -> & H2 & L2). cbn [obind].
    destruct e as [e|]; [apply kt_ok; [exact H2|lia]|]. destruct (End s2 H2) as (e & s3 & -> & H3 & L3). cbn [obind].
    destruct e; (apply kt_ok; [exact H3|lia]).
  - destruct (proj1 (kt_gread R Inv mu allow K M x cf fuel) (TyStruct (result_name f) (result_members f))
      (sf_struct _ _ _ Sf) s1 H1 ltac:(lia)) as (r & s2 & -> & H2 & L2). cbn [obind].
    destruct (End s2 H2) as (e & s3 & -> & H3 & L3). cbn [obind]. destruct r; (apply kt_ok; [exact H3|lia]).
Qed.
End Recv.

(** ** A reply *)

(** Bytes which ReadMessageBegin takes for the header of a reply with the number [seq]. *)
Lemma reply_read : forall seq, in_s 32 seq -> exists pre, forall strict c b,
  bReadMessageBegin strict [(pre ++ c :: b, None)] = Ok (([], REPLY, seq), None, [(c :: b, None)]).
Proof.
  intros seq Hs. destruct (four seq Hs) as (b3 & b2 & b1 & b0 & _ & E).
  exists [128; 1; 0; 2; 0; 0; 0; 0; b3; b2; b1; b0]. intros strict c b.
  assert (A : bReadI32 [([128; 1; 0; 2; 0; 0; 0; 0; b3; b2; b1; b0] ++ c :: b, None)] =
    Ok (-2147418110, None, [([0; 0; 0; 0; b3; b2; b1; b0] ++ c :: b, None)])) by reflexivity.
  unfold bReadMessageBegin. rewrite A. cbn [obind]. change (-2147418110 <? 0) with true. cbv iota zeta.
  change (negb (Z.land (-2147418110) VERSION_MASK =? VERSION_1)) with false. cbv iota.
  assert (B : bReadString [([0; 0; 0; 0; b3; b2; b1; b0] ++ c :: b, None)] =
    Ok ([], None, [([b3; b2; b1; b0] ++ c :: b, None)])) by reflexivity.
  rewrite B. cbn [obind].
  assert (C : bReadI32 [([b3; b2; b1; b0] ++ c :: b, None)] = Ok (wraps 32 (be_uint32 [b3; b2; b1; b0]), None, [(c :: b, None)]))
    by reflexivity.
  rewrite C, E. reflexivity.
Qed.

(** ** C123 *)

(** RecvX of a function whose result and exceptions hold no container and no binary returns over TBinaryProtocol, plain or
    framed, whatever the server sends: any bytes, in any pieces, with any errors.  Over TJSONProtocol binary is no
    exception, either. *)
Theorem C123_returns : forall x M cf fuel f seq (r : rt), (2 * length (content r) + 2 <= fuel)%nat ->
  ((forall m, In m (result_members f) -> plain (m_ty m)) ->
     forall intw it ir iw, (it = TFFramed -> busy r) -> exists c s',
       recv_on (rd_proto (GetReader intw it (PFBinary ir iw))) x M cf fuel f seq (rd_new (GetReader intw it (PFBinary ir iw)) r) = Ok (c, s')) /\
  ((forall m, In m (result_members f) -> flat (m_ty m)) ->
     forall J, clean r -> exists c s', recv_on (jsonR J) x M cf fuel f seq (json_r r) = Ok (c, s')).
Proof.
  intros x M cf fuel f seq r L. split.
  - intros P.
    assert (B : forall strict r, (2 * length (content r) + 2 <= fuel)%nat ->
      exists c s', recv_on (binaryR strict) x M cf fuel f seq r = Ok (c, s')).
    { intros strict r0 L0. destruct (recv_returns _ _ _ _ (returning_binary strict) M x cf fuel f seq r0 I
        (fun m Hm => plain_safe _ (P m Hm)) L0) as (c & s' & E & _). eauto. }
    intros intw it ir iw Bu. destruct it; [apply (B ir r L)|].
    destruct (C121_no_more intw r (Bu eq_refl)) as [Ln _]. destruct (C121_recv intw x M cf fuel f seq r) as [Qb _].
    cbn [GetReader rd_proto rd_new rd_st]. specialize (Qb ir (MkWt [] [])).
    destruct (B ir (unframed intw r) ltac:(lia)) as (c & s' & E). unfold new_framed_in. rewrite E in Qb.
    destruct (recv_on (o_binaryR (read_all_over (framed_read intw)) ir) x M cf fuel f seq (NewTFramedTransport (MkWt [] []) r)) as [[v s]| |];
      cbn in Qb; [eauto|contradiction|contradiction].
  - intros P J Cl. destruct (fresh_SI True r (fun _ => Cl)) as (_ & S2 & _ & R2).
    destruct (recv_returns _ _ _ _ (returning_json J) M x cf fuel f seq (json_r r) S2
      (fun m Hm => flat_safe _ (P m Hm)) ltac:(lia)) as (c & s' & E & _). eauto.
Qed.
Print Assumptions C123_returns.

(** For any other function there is an answer that makes RecvX panic over TBinaryProtocol, whatever the client's settings
    and however much it is given: so clients survive every answer exactly when their functions' results are of this kind. *)
Theorem C123_panics : forall f seq m, members_ok (result_members f) -> In m (result_members f) -> schema_ok (m_ty m) ->
  ~ plain (m_ty m) -> in_s 32 seq ->
  exists b n, forall strict x M cf k, recv_on (binaryR strict) x M cf (n + k) f seq [(b, None)] = Panic.
Proof.
  intros f seq m Mok Hm So Np Hs. destruct (plain_or_breaks _ So) as [P|B]; [destruct (Np P)|].
  destruct (breaks_struct (result_name f) (result_members f) m Mok Hm B) as (c & b & n & Br).
  destruct (reply_read seq Hs) as (pre & Hp). exists (pre ++ c :: b), n. intros.
  unfold recv_on. cbv zeta. change (rMessageBegin (binaryR strict)) with (bReadMessageBegin strict).
  rewrite Hp. cbn [obind]. change (REPLY =? EXCEPTION) with false. cbv iota. rewrite Z.eqb_refl. cbn [negb].
  rewrite Br. reflexivity.
Qed.
Print Assumptions C123_panics.

(** Over TCompactProtocol eight bytes are enough, whatever the function. *)
Theorem C123_compact_refuted : exists b : bytes, length b = 8%nat /\
  forall x M cf fuel f seq c, recv_on compactR x M cf fuel f seq ([(b, None)], c) = Panic.
Proof. exists [130; 33; 0; 255; 255; 255; 255; 15]. split; [reflexivity|]. intros. reflexivity. Qed.
Print Assumptions C123_compact_refuted.

(** The client of the tutorial: nothing the server sends makes any of its functions panic over TBinaryProtocol. *)
Theorem C123_tutorial : forall f, In f calculator -> forall x M cf fuel seq (r : rt) intw it ir iw,
  (2 * length (content r) + 2 <= fuel)%nat -> (it = TFFramed -> busy r) -> exists c s',
  recv_on (rd_proto (GetReader intw it (PFBinary ir iw))) x M cf fuel f seq (rd_new (GetReader intw it (PFBinary ir iw)) r) = Ok (c, s').
Proof.
  intros f Hf x M cf fuel seq r intw it ir iw L Bu. apply (C123_returns x M cf fuel f seq r L); [|exact Bu].
  intros m Hm. repeat (destruct Hf as [<-|Hf]; [cbn in Hm; repeat (destruct Hm as [<-|Hm]; [cbn; constructor|]); try destruct Hm|]);
    try destruct Hf.
  all: intros m Hm; repeat (destruct Hm as [<-|Hm]; [cbn; constructor|]); destruct Hm.
Qed.
Print Assumptions C123_tutorial.

(** A list of elements of type 99 where the success field of a reply is expected: calculate (an i32) takes
    the bytes that follow for its number, a function list() (a list) panics; calculate with a frame cut short. *)
Definition ex_list : func := Fn (lit "list") [] (Some (TyList TyI32)) [] false.
Definition ex_odd : bytes := [128; 1; 0; 2; 0; 0; 0; 4] ++ lit "list" ++ [0; 0; 0; 7; 15; 0; 0; 99; 0; 0; 0; 1; 0; 0; 0; 7; 0].
Example C123_case :
  (In f_calculate calculator /\ (forall m, In m (result_members f_calculate) -> plain (m_ty m)) /\
   (forall m, In m (result_members f_calculate) -> flat (m_ty m)) /\ length (result_members f_calculate) = 2%nat) /\
  (members_ok (result_members ex_list) /\ (exists m, In m (result_members ex_list) /\ schema_ok (m_ty m) /\ ~ plain (m_ty m)) /\ in_s 32 7) /\
  (2 * length (content [(ex_odd, None)]) + 2 <= 80)%nat /\ busy (ex_frame ex_odd) /\ clean [(ex_odd, None)] /\
  recv_on (binaryR true) ext0 64 5 80 f_calculate 7 [(ex_odd, None)] = Ok (([(0, AInt32 1660944384); (1, ANil)], None), [([7; 0], None)]) /\
  recv_on (binaryR true) ext0 64 5 80 ex_list 7 [(ex_odd, None)] = Panic /\
  (exists c s, recv_on (rd_proto (GetReader 64 TFFramed (PFBinary true true))) ext0 64 5 90 f_calculate 7
     (rd_new (GetReader 64 TFFramed (PFBinary true true)) (firstn 2 (ex_frame ex_odd))) = Ok (c, s)).
Proof.
  split.
  { split; [vm_compute; tauto|]. split; [|split; [|reflexivity]]; intros m Hm; cbn in Hm;
      repeat (destruct Hm as [<-|Hm]; [cbn; constructor|]); try destruct Hm;
      intros m Hm; repeat (destruct Hm as [<-|Hm]; [cbn; constructor|]); destruct Hm. }
  split.
  { split; [split; [repeat constructor; cbn; tauto|]|]. 
    - split; [repeat constructor; cbn; tauto|]. intros m [<-|[]]. cbn. repeat split; try lia; try discriminate.
    - split; [|unfold in_s; cbn; lia]. eexists. split; [left; reflexivity|]. split; [cbn; repeat constructor|]. intro P. inversion P. }
  split; [vm_compute; lia|]. split.
  { repeat (apply Forall_cons; [first [right; reflexivity|left; discriminate|right; discriminate|left; reflexivity]|]); apply Forall_nil. }
  split; [repeat (apply Forall_cons; [first [right; reflexivity|left; discriminate|right; discriminate|left; reflexivity]|]); apply Forall_nil|].
  split; [vm_compute; reflexivity|]. split; [vm_compute; reflexivity|]. vm_compute. eexists _, _. reflexivity.
Qed.

(** ** C45: replies with another number *)

(** RecvX refuses any message but an exception whose number is not the one it sent, over every protocol: the error has
    code 4 and speaks of ping, whatever the function is called, no result is set, and nothing after the header is read. *)
Theorem C45_sequence : forall S (R : rproto S) x M cf fuel f seq s name t n s1,
  rMessageBegin R s = Ok ((name, t, n), None, s1) -> t <> 3 -> n <> seq ->
  recv_on R x M cf fuel f seq s =
    Ok ((map (fun m => (m_id m, go_zero (m_ty m))) (result_members f),
         Some (RApp (MkExc 4 (lit "ping failed: out of sequence response")))), s1).
Proof.
  intros S R x M cf fuel f seq s name t n s1 E Nt Nn. unfold recv_on. cbv zeta. rewrite E. cbn [obind].
  replace (t =? EXCEPTION) with false by (symmetry; apply Z.eqb_neq; exact Nt). cbv iota.
  replace (seq =? n) with false by lia. cbn [negb]. reflexivity.
Qed.
Print Assumptions C45_sequence.
Example C45_sequence_case :
  rMessageBegin (binaryR true) [(ex_odd, None)] = Ok ((lit "list", 2, 7), None, [(skipn 16 ex_odd, None)]) /\
  recv_on (binaryR true) ext0 64 5 80 ex_list 8 [(ex_odd, None)] =
    Ok (([(0, ANil)], Some (RApp (MkExc 4 (lit "ping failed: out of sequence response")))), [(skipn 16 ex_odd, None)]).
Proof. split; vm_compute; reflexivity. Qed.

(** ** A client and any peer *)

(** Calls one after the other by one client, t_go_generator.cc:1626-1659: SendX, its error returned; RecvX unless the
    function is oneway.  What the peer sends is what the client's input transport holds from the beginning. *)
Fixpoint chat {SR SW} (R : rproto SR) (W : wproto SW) flush freshR freshW x M cf fuel (cs : list (func * list any))
  (c : client) (w : @world SR SW) : outcome (list cres * client * @world SR SW) :=
  match cs with
  | [] => Ok ([], c, w)
  | (f, args) :: cs' =>
    '(e, c1, w1) <- send W flush freshW x fuel f args c w ;;
    '(r, c2, w2) <- match e with
                    | Some e => Ok ((zero_attrs (result_members f), Some (RErr e)), c1, w1)
                    | None => if fn_oneway f then Ok (([], None), c1, w1) else recv R freshR x M cf fuel f c1 w1
                    end ;;
    '(rs, c3, w3) <- chat R W flush freshR freshW x M cf fuel cs' c2 w2 ;;
    Ok (r :: rs, c3, w3)
  end.
(** The requests of these calls, numbered from the one after [seq] on. *)
Inductive asked (strictW : bool) (x : ext) : Z -> list (func * list any) -> bytes -> Prop :=
| asked_nil seq : asked strictW x seq [] []
| asked_cons seq f args cs v b : wireof x (TyStruct (args_name f) (fn_args f)) (args_val f args) v ->
    asked strictW x (wraps 32 (seq + 1)) cs b ->
    asked strictW x seq ((f, args) :: cs) (bmsg strictW (fn_name f) CALL (wraps 32 (seq + 1)) ++ sb_val v ++ b).

(** The answers: nothing is read for a oneway function; the others read theirs one after the other, each asking for its
    number. *)
Inductive heard (strict : bool) (x : ext) M cf fuel : Z -> rt -> list (func * list any) -> list cres -> rt -> Prop :=
| heard_nil seq r : heard strict x M cf fuel seq r [] [] r
| heard_oneway seq r f args cs rs r' : fn_oneway f = true -> heard strict x M cf fuel (wraps 32 (seq + 1)) r cs rs r' ->
    heard strict x M cf fuel seq r ((f, args) :: cs) (([], None) :: rs) r'
| heard_reply seq r f args cs c r1 rs r' : fn_oneway f = false ->
    recv_on (binaryR strict) x M cf fuel f (wraps 32 (seq + 1)) r = Ok (c, r1) ->
    heard strict x M cf fuel (wraps 32 (seq + 1)) r1 cs rs r' ->
    heard strict x M cf fuel seq r ((f, args) :: cs) (c :: rs) r'.

(** Any number of calls of such functions return whatever the peer sends, each with an answer, and what the client writes
    does not depend on it: the requests in order, numbered one by one. *)
Theorem C123_session : forall strict strictW x M cf fuel cs c w o,
  orders x -> c_factory c = true -> c_in c = Some FromFactory -> c_out c = Some FromFactory ->
  o_own w = MkWt o [] -> (2 * length (content (i_own w)) + 2 <= fuel)%nat ->
  (forall f args, In (f, args) cs -> func_ok f /\ kept_args x f args /\
     (forall v, wireof x (TyStruct (args_name f) (fn_args f)) (args_val f args) v -> (need v <= fuel)%nat) /\
     (forall m, In m (result_members f) -> plain (m_ty m))) ->
  exists rs c' w' b,
    chat (binaryR strict) (binaryW strictW) nop (fun s => s) (fun s => s) x M cf fuel cs c w = Ok (rs, c', w') /\
    length rs = length cs /\ asked strictW x (c_seq c) cs b /\ o_own w' = MkWt (o ++ b) [] /\
    heard strict x M cf fuel (c_seq c) (i_own w) cs rs (i_own w').
Proof.
  intros strict strictW x M cf fuel cs c w o Ho. revert c w o.
  induction cs as [|[f args] cs IH]; intros c w o Cf Ci Co Ow L A.
  { exists [], c, w, []. split; [reflexivity|]. split; [reflexivity|]. split; [constructor|]. rewrite app_nil_r. split; [exact Ow|constructor]. }
  destruct (A f args (or_introl eq_refl)) as (Fok & [La Ka] & Nf & P).
  assert (Aok : args_ok x fuel true true (fun _ => True) f args).
  { split; [exact La|]. split; [intro D; discriminate|]. split; [exact Ka|]. auto. }
  set (dummy := fun (h : unit) (_ : bytes) (_ : list any) => (([] : list (Z * any), @None bytes), h)).
  destruct (send_ok (binaryR false) (binaryW strictW) nop (fun s => s) x cf fuel dummy true true false
    bow bow bir bir sb_val (bmsg strictW) [] cokm (fun _ => True) func_ok (fun _ => True) (bow_val strictW)
    (fun name t seq s o Ht _ => bow_msg strictW name t seq s o Ht I) bow_end bow_nop
    (bir_msg' false strictW (or_intror eq_refl)) (bir_val false) (bir_end false)
    (fun s o E => E) (fun f H => H) okm_of Ho f args c w o Fok Aok Cf Co Ow) as (wv & w1 & E & Wv & O1 & _ & I1 & _).
  rewrite app_nil_r in O1. cbn [chat]. rewrite E. cbn [obind].
  assert (N : exists r c2 w2, (if fn_oneway f then Ok (([], None), MkClient true (c_in c) (Some FromFactory) (wraps 32 (c_seq c + 1)), w1)
      else recv (binaryR strict) (fun s => s) x M cf fuel f (MkClient true (c_in c) (Some FromFactory) (wraps 32 (c_seq c + 1))) w1) =
      Ok (r, c2, w2) /\ c_factory c2 = true /\ c_in c2 = Some FromFactory /\ c_out c2 = Some FromFactory /\
      c_seq c2 = wraps 32 (c_seq c + 1) /\ o_own w2 = o_own w1 /\
      (if fn_oneway f then r = ([], None) /\ i_own w2 = i_own w
       else recv_on (binaryR strict) x M cf fuel f (wraps 32 (c_seq c + 1)) (i_own w) = Ok (r, i_own w2)) /\ (length (content (i_own w2)) <= length (content (i_own w)))%nat).
  { destruct (fn_oneway f).
    - eexists _, _, _. split; [reflexivity|]. cbn. rewrite I1. repeat split; try assumption. lia.
    - unfold recv. cbn [c_in c_seq]. rewrite Ci.
      destruct (recv_returns _ _ _ _ (returning_binary strict) M x cf fuel f (wraps 32 (c_seq c + 1)) (i_own w1) I
        (fun m Hm => plain_safe _ (P m Hm)) ltac:(rewrite I1; exact L)) as (r & s' & Er & _ & Lr).
      rewrite I1 in Er. rewrite I1, Er. cbn [obind]. eexists _, _, _. split; [reflexivity|]. cbn. rewrite I1 in Lr. repeat split; assumption. }
  destruct N as (r & c2 & w2 & En & F2 & Ci2 & Co2 & S2 & Ow2 & Hr & L2). rewrite En. cbn [obind].
  destruct (IH c2 w2 (o ++ bmsg strictW (fn_name f) CALL (wraps 32 (c_seq c + 1)) ++ sb_val wv) F2 Ci2 Co2
    ltac:(rewrite Ow2; exact O1) ltac:(lia) (fun f0 a0 H0 => A f0 a0 (or_intror H0))) as (rs & c3 & w3 & b & E3 & Ln & As & O3 & Hd).
  exists (r :: rs), c3, w3, (bmsg strictW (fn_name f) CALL (wraps 32 (c_seq c + 1)) ++ sb_val wv ++ b).
  rewrite E3. split; [reflexivity|]. split; [cbn; rewrite Ln; reflexivity|]. split; [constructor; [exact Wv|rewrite <- S2; exact As]|].
  split; [rewrite O3, <- !app_assoc; reflexivity|]. rewrite S2 in Hd.
  destruct (fn_oneway f) eqn:Eo; [destruct Hr as [-> Hr]; rewrite Hr in Hd; apply heard_oneway; assumption|].
  eapply heard_reply; [exact Eo|exact Hr|exact Hd].
Qed.
Print Assumptions C123_session.
(** Two calls of add to a peer that sends a reply to the first cut into pieces, then garbage. *)
Example C123_session_case :
  let w := MkWorld (MkWt [] []) (MkWt [] []) ([(firstn 3 reply1, None); (skipn 3 reply1 ++ [1; 2; 3], None); ([4], Some EEof)] : rt) ([] : rt) in
  let cs := [(ex_add, ex_args); (ex_add, ex_args)] in
  (orders ext0 /\ (2 * length (content (i_own w)) + 2 <= 80)%nat) /\
  (forall f args, In (f, args) cs -> func_ok f /\ kept_args ext0 f args /\
     (forall v, wireof ext0 (TyStruct (args_name f) (fn_args f)) (args_val f args) v -> (need v <= 80)%nat) /\
     (forall m, In m (result_members f) -> plain (m_ty m))) /\
  exists c' w' e, chat (binaryR true) (binaryW true) nop (fun s => s) (fun s => s) ext0 64 5 80 cs new_client_factory w =
    Ok ([([(0, AInt64 12); (1, ANil)], None); ([(0, AInt64 0); (1, ANil)], Some (RErr e))], c', w') /\ c_seq c' = 2.
Proof.
  cbv zeta. split; [split; [exact ext0_orders|vm_compute; lia]|]. split.
  - intros f args [E|[E|[]]]; injection E; intros; subst; (split; [apply ex_ok; cbn; auto|]; split; [exact ex_args_kept|]; split;
      [intros v Wv; rewrite (wireof_fun _ _ _ _ _ Wv ex_args_wire); cbn; lia|]);
      intros m Hm; cbn in Hm; repeat (destruct Hm as [<-|Hm]; [cbn; constructor|]); try destruct Hm;
      intros m Hm; repeat (destruct Hm as [<-|Hm]; [cbn; constructor|]); destruct Hm.
  - eexists _, _, _. split; [vm_compute; reflexivity|]. reflexivity.
Qed.
