(** C104 for answers over TCompactProtocol. *)
From Coq Require Import ZArith List Bool Lia.
From Coq Require Import ZifyBool ZifyNat.
From Verif Require Import Base Errors Transport Proto Skip Arith Values Codec SkipProofs BinaryProofs BinarySpec Binary BinaryMsg
  TransportProofs Compact CompactSpec CompactProofs CompactRead CompactStruct CompactExact Buffer Framed FramedProofs Over Het OverSim OverInst OverRpc WfDec.
From Verif Require Import TField GoVal Compare TMap Gen GenSpec GenProofs GenInst GenRound PropGen.
From Verif Require Import AppExc AppExcProofs PropRpc Rpc RpcProofs PropService Serve ServeProofs ServeRounds PropServe.
From Verif Require Import Unframe UnframeCompact PropUnframe.
Import ListNotations.
Open Scope Z_scope.

(** Sequence numbers fit int32, whatever was read. *)
Lemma seq_binary : forall T (ra : nat -> T -> Z * bytes * option err * T) strict s name t seq s',
  o_bReadMessageBegin ra strict s = Ok (name, t, seq, None, s') -> in_s 32 seq.
Proof.
  assert (G : forall T (ra : nat -> T -> Z * bytes * option err * T) s v e s', o_bReadI32 ra s = Ok (v, e, s') -> in_s 32 v).
  { intros T ra s v e s'. unfold o_bReadI32. destruct (o_b_readAll ra 4 s) as [[[b e0] s0]| |]; cbn [obind]; try discriminate.
    intro E. injection E as <- _ _. apply wraps_range; lia. }
  intros T ra strict s name t seq s'. unfold o_bReadMessageBegin.
  destruct (o_bReadI32 ra s) as [[[size e] r1]| |]; cbn [obind]; try discriminate. destruct e; [intro E; injection E as _ _ <- _ _; unfold in_s; lia|].
  destruct (size <? 0); [destruct (negb _); [discriminate|]|destruct strict; [discriminate|]].
  - destruct (o_bReadString ra r1) as [[[nm e1] r2]| |]; cbn [obind]; try discriminate. destruct e1; [intro E; injection E as _ _ <- _ _; unfold in_s; lia|].
    destruct (o_bReadI32 ra r2) as [[[sq e2] r3]| |] eqn:E2; cbn [obind]; try discriminate.
    intro E. injection E as _ _ <- _ _. eapply G, E2.
  - destruct (o_bReadStringBody ra size r1) as [[[nm e1] r2]| |]; cbn [obind]; try discriminate. destruct e1; [intro E; injection E as _ _ <- _ _; unfold in_s; lia|].
    destruct (o_bReadByte ra r2) as [[[b e2] r3]| |]; cbn [obind]; try discriminate. destruct e2; [intro E; injection E as _ _ <- _ _; unfold in_s; lia|].
    destruct (o_bReadI32 ra r3) as [[[sq e3] r4]| |] eqn:E3; cbn [obind]; try discriminate.
    intro E. injection E as _ _ <- _ _. eapply G, E3.
Qed.
Lemma seq_compact : forall T (ra : nat -> T -> Z * bytes * option err * T) un s name t seq s',
  o_cReadMessageBegin ra un s = Ok (name, t, seq, None, s') -> in_s 32 seq.
Proof.
  intros T ra un s name t seq s'. unfold o_cReadMessageBegin.
  destruct (o_cReadByte ra s) as [[[id e] s1]| |]; cbn [obind]; try discriminate. destruct (negb _); [discriminate|].
  destruct (o_cReadByte ra s1) as [[[vt e1] s2]| |]; cbn [obind]; try discriminate. cbv zeta. destruct e1; [discriminate|].
  destruct (negb _); [discriminate|]. unfold o_readVarint32 at 1.
  destruct (o_readVarint64 ra un s2) as [[[v e2] s3]| |]; cbn [obind]; try discriminate.
  destruct e2 as [e2|].
  - intro E. injection E as _ _ <- _ _. apply wraps_range; lia.
  - destruct (o_cReadString ra un s3) as [[[nm e3] s4]| |]; cbn [obind]; try discriminate.
    intro E. injection E as _ _ <- _ _. apply wraps_range; lia.
Qed.
Lemma seq_reader : forall intw it ip s name t seq s',
  rMessageBegin (rd_proto (GetReader intw it ip)) s = Ok (name, t, seq, None, s') -> in_s 32 seq.
Proof.
  intros intw it ip s name t seq s' E. destruct it, ip as [sr sw|]; cbn [GetReader rd_proto] in *.
  - exact (seq_binary _ read_all sr s name t seq s' E).
  - exact (seq_compact _ read_all rt_size s name t seq s' E).
  - exact (seq_binary _ _ sr s name t seq s' E).
  - exact (seq_compact _ _ _ s name t seq s' E).
Qed.

(** The names of the messages a connection begins to read, up to the first that is not answered by a REPLY. *)
Section Meets.
Context {SR SW H : Type}.
Variable R : rproto SR.
Variable W : wproto SW.
Variable flush : wop SW.
Variable x : ext.
Variable M : Z.
Variable cf fuel : nat.
Variable errtext : err -> bytes.
Variable handle : H -> bytes -> list any -> (list (Z * any) * option bytes) * H.
Variable fs : list func.
Inductive meets : H -> SR -> SW -> bytes -> Prop :=
| me_now h si so name t seq s1 : rMessageBegin R si = Ok (name, t, seq, None, s1) -> meets h si so name
| me_later h si so name p : process R W flush x M cf fuel errtext handle fs h si so = Ok p -> p_success p = true ->
    meets (p_h p) (p_in p) (p_out p) name -> meets h si so name.
End Meets.

(** What is sent over TCompactProtocol, whatever is received, over either transport and protocol, if no name received is so
    long that the text of the answer has no length in an int32 (a name can be: TCompactProtocol makes it as long as the client
    says, without the bytes).  Results as in C44.  Missing: connections on which the processor panics. *)
Theorem C104_compact_answers_partial : forall H intw sv x M cf fuel errtext
    (handle : H -> bytes -> list any -> (list (Z * any) * option bytes) * H) fs stopped rounds h r h' b,
  let R := GetReader intw (sv_in_t sv) (sv_in_p sv) in let W := GetWriter (sv_out_t sv) (sv_out_p sv) in
  sv_out_p sv = PFCompact ->
  (forall f, In f fs -> func_ok f) ->
  (forall f h vals attrs h', In f fs -> handle h (fn_name f) vals = ((attrs, None), h') ->
     if fn_oneway f then (2 <= fuel)%nat
     else (forall m, In m (result_members f) -> no_binary (m_ty m)) /\
          exists rf, reply x f attrs rf /\ (need (VStruct rf) <= fuel)%nat) ->
  (forall f h vals attrs text h', In f fs -> handle h (fn_name f) vals = ((attrs, Some text), h') ->
     exc_ok (MkExc INTERNAL_ERROR (s_internal ++ fn_name f ++ s_colon ++ text))) ->
  (forall e, exc_ok (MkExc PROTOCOL_ERROR (errtext e))) ->
  (forall name, meets (rd_proto R) (wr_proto W) (wr_flush W) x M cf fuel errtext handle fs h (rd_new R r) (wr_new W (MkWt [] [])) name ->
     is_bytes name /\ Z.of_nat (length name) < 2 ^ 31 - 17) ->
  processRequest x M cf fuel errtext handle fs stopped intw sv rounds h r = Ok (h', b) ->
  exists out, only_answers x errtext handle fs h out h' /\
    b = concat (map (fun a => carry (sv_out_t sv) (told (sv_out_p sv) a)) out).
Proof.
  intros H intw [it ot ip op] x M cf fuel errtext handle fs stopped rounds h r h' b R W Eo Fok Rok Tok Eok Small E.
  cbn in Eo. subst op. unfold processRequest in E. cbn [sv_in_t sv_out_t sv_in_p sv_out_p] in *. fold R W in E.
  assert (R1 : results_ok x fuel handle false true fs).
  { intros f h0 vals attrs h1 Hf Eh. specialize (Rok f h0 vals attrs h1 Hf Eh).
    destruct (fn_oneway f); [exact Rok|]. split; [|apply Rok]. intros m Hm _. apply Rok, Hm. }
  set (okm := fun name seq => cokm name seq /\ exc_ok (MkExc UNKNOWN_METHOD (s_unknown ++ name))).
  assert (T1 : texts_ok errtext handle okm exc_ok fs).
  { split; [exact Eok|]. split; [intros name seq [_ K]; exact K|exact Tok]. }
  assert (L : forall rounds n h si so o h' si' so', server_out ot PFCompact so o ->
    (forall name, meets (rd_proto R) (wr_proto W) (wr_flush W) x M cf fuel errtext handle fs h si so name ->
       is_bytes name /\ Z.of_nat (length name) < 2 ^ 31 - 17) ->
    serve_loop x M cf fuel errtext handle fs stopped (rd_proto R) (wr_proto W) (wr_flush W) rounds n h si so = Ok (h', si', so') ->
    exists out, only_answers x errtext handle fs h out h' /\
      server_out ot PFCompact so' (o ++ concat (map (fun a => carry ot (told PFCompact a)) out))).
  { clear rounds h h' E Small. induction rounds as [|rounds IH]; intros n h si so o h' si' so' Ho Sm E; [discriminate|].
    destruct (process (rd_proto R) (wr_proto W) (wr_flush W) x M cf fuel errtext handle fs h si so) as [p| |] eqn:P;
      [|cbn [serve_loop] in E; rewrite P in E; discriminate|cbn [serve_loop] in E; rewrite P in E; discriminate].
    rewrite (loop_step _ _ _ _ _ _ _ _ _ _ _ _ _ _ _ _ p P) in E.
    destruct (rMessageBegin (rd_proto R) si) as [[[[[name t] seq] [e|]] s1]| |] eqn:Hd.
    - rewrite (process_header _ _ _ _ _ _ _ _ _ _ _ _ _ _ _ _ _ _ _ Hd) in P. injection P; intros; subst p.
      cbn in E. injection E; intros; subst. exists []. split; [constructor|]. cbn. rewrite app_nil_r. exact Ho.
    - destruct (Sm name (me_now _ _ _ _ _ _ _ _ _ _ _ _ _ _ _ _ _ Hd)) as [Nb Nl].
      pose proof (seq_reader _ _ _ _ _ _ _ _ Hd) as Ks.
      assert (Km : okm name seq).
      { split; [split; [lia|exact Ks]|]. split; [unfold in_s; split; vm_compute; [discriminate|reflexivity]|]. cbn [x_msg]. split; [apply is_bytes_app; split; [repeat constructor; unfold is_byte; lia|exact Nb]|].
        rewrite app_length. change (length s_unknown) with 17%nat. lia. }
      assert (Q : exists body, answered x errtext handle fs h name (if p_success p then REPLY else EXCEPTION) body (p_h p) (p_success p) /\
        server_out ot PFCompact (p_out p) (o ++ carry ot (told PFCompact
          (MkAnswer name (if p_success p then REPLY else EXCEPTION) seq body)))).
      { destruct (writer_round ot PFCompact so o Ho) as (simo & simf & so2 & o2 & WW & FF & So & Ho2 & Ne & Back).
        pose proof (hprocess false eq simo simf (rd_proto R) (rd_proto R) _ _ _ _ (rrel_refl _ _) WW FF x M cf fuel errtext handle
          fs h si si so so2 eq_refl So) as Q.
        fold W in Q. rewrite P in Q.
        destruct (process (rd_proto R) (wr_proto (GetWriter TFPlain PFCompact)) (wr_flush (GetWriter TFPlain PFCompact))
          x M cf fuel errtext handle fs h si so2) as [p2| |] eqn:P2; cbn in Q; try contradiction.
        destruct Q as (Qs & _ & Qh & _ & Qo).
        pose proof (process_once (rd_proto R) compactW nop (fun s => s) x M cf fuel errtext handle false true
          cow cow (fun _ _ => True) (fun _ _ => True) sc_val sc_message [] okm exc_ok func_ok (fun _ => True)
          cow_val cow_exc (fun name t seq s o Ht Km => cow_msg name t seq s o Ht (proj1 Km)) cow_end cow_nop
          fs h si so2 o2 p2 Fok R1 T1 Ho2 P2) as O.
        rewrite Hd in O. destruct (O Km) as (mt & body & A & B). rewrite app_nil_r in B.
        pose proof (answered_kind _ _ _ _ _ _ _ _ _ _ _ A) as ->. rewrite Qs, Qh. exists body. split; [exact A|].
        change (plain_out PFCompact (p_out p2) (o2 ++ told PFCompact
          (MkAnswer name (if p_success p2 then REPLY else EXCEPTION) seq body))) in B.
        destruct Qo as [[_ Qo]|Qo]; [destruct (Ne _ (eq_ind _ (fun s => plain_out PFCompact s _) B _ Qo))|apply (Back _ _ _ Qo B)]. }
      destruct Q as (body & A & Ho'). destruct (p_success p) eqn:Ps.
      + destruct (IH _ _ _ _ _ _ _ _ Ho' (fun nm Hm => Sm nm (me_later _ _ _ _ _ _ _ _ _ _ _ _ _ _ _ P Ps Hm)) E) as (out & Oa & Ho2).
        eexists (_ :: out). split; [eapply oa_more; eassumption|]. cbn [map concat]. rewrite app_assoc. exact Ho2.
      + injection E; intros; subst. eexists [_]. split; [apply oa_last, A|]. cbn [map concat]. rewrite app_nil_r. exact Ho'.
    - unfold process in P. rewrite Hd in P. discriminate.
    - unfold process in P. rewrite Hd in P. discriminate. }
  destruct (serve_loop x M cf fuel errtext handle fs stopped (rd_proto R) (wr_proto W) (wr_flush W) rounds 0 h
    (rd_new R r) (wr_new W (MkWt [] []))) as [[[h1 si'] so']| |] eqn:E1; cbn in E; try discriminate.
  destruct (L _ _ _ _ _ _ _ _ _ (server_out_new ot PFCompact) Small E1) as (out & Oa & Ho).
  exists out. injection E; intros <- <-. split; [exact Oa|]. apply server_out_sent in Ho. exact Ho.
Qed.
Print Assumptions C104_compact_answers_partial.

(** ** Names over TBinaryProtocol are among the bytes received *)
Definition holds_bytes (N : Z) (r : rt) : Prop := busy r /\ is_bytes (content r) /\ Z.of_nat (length (content r)) <= N.
Lemma read_all_holds : forall r n c b e r', read_all n r = (c, b, e, r') -> is_bytes (content r) ->
  is_bytes b /\ is_bytes (content r').
Proof.
  intros r n c b e r' E B. unfold read_all in E. destruct (read_all_loop n 0 None r) as [[[c1 d1] e1] r1] eqn:R. injection E as <- <- <- <-.
  destruct (read_all_loop_any _ _ _ _ _ _ _ _ R) as (C & _). rewrite C in B. apply is_bytes_app in B. destruct B as [B1 B2].
  split; [|exact B2]. unfold pad. apply is_bytes_app. split; [exact B1|]. clear. induction (n - length d1)%nat; cbn [repeat]; constructor; auto. unfold is_byte. lia.
Qed.
Lemma unframed_bytes : forall intw r, is_bytes (content r) -> is_bytes (content (unframed intw r)).
Proof.
  intros intw r. unfold unframed. generalize (rt_work r). intro n. revert r. induction n as [|n IH]; intros r B; cbn [unframe]; [constructor|].
  destruct r as [|ev r]; [constructor|]. destruct (next_frame intw (ev :: r)) as [o r'] eqn:E.
  change (content (frame_event o :: unframe intw n r')) with (fst (frame_event o) ++ content (unframe intw n r')). apply is_bytes_app.
  unfold next_frame in E. destruct (read_all 4 (ev :: r)) as [[[c1 hd] e1] r1] eqn:E1. destruct (read_all_holds _ _ _ _ _ _ E1 B) as [_ B1].
  destruct e1; [injection E as <- <-; split; [constructor|apply IH, B1]|]. destruct (_ <=? 0); [injection E as <- <-; split; [constructor|apply IH, B1]|].
  destruct (read_all _ r1) as [[[c2 bd] e2] r2] eqn:E2. destruct (read_all_holds _ _ _ _ _ _ E2 B1) as [B2 B3]. injection E as <- <-.
  split; [destruct e2; [constructor|exact B2]|apply IH, B3].
Qed.
Lemma name_holds : forall N strict r name t seq r', holds_bytes N r -> 0 <= N -> bReadMessageBegin strict r = Ok (name, t, seq, None, r') ->
  is_bytes name /\ Z.of_nat (length name) <= N.
Proof.
  intros N strict r name t seq r' Hr N0.
  assert (RA : forall n r b r2, holds_bytes N r -> b_readAll n r = Ok (b, None, r2) -> holds_bytes N r2 /\ is_bytes b /\ Z.of_nat (length b) <= N).
  { intros n r0 b r2 (B & Y & L). unfold b_readAll. destruct (read_all n r0) as [[[c d] e] r1] eqn:E. intro Q.
    destruct (read_all_busy _ _ _ _ _ _ E B) as (B1 & L1 & X1). destruct (read_all_holds _ _ _ _ _ _ E Y) as [Y1 Y2].
    destruct e as [e|]; [|injection Q as <- <-; specialize (X1 eq_refl); repeat split; auto; lia].
    destruct e; cbn in Q; discriminate Q. }
  assert (I32 : forall r v r2, holds_bytes N r -> bReadI32 r = Ok (v, None, r2) -> holds_bytes N r2).
  { intros r0 v r2 H0. unfold bReadI32. destruct (b_readAll 4 r0) as [[[b e] r1]| |] eqn:E; cbn [obind]; try discriminate.
    intro Q. injection Q as _ -> <-. exact (proj1 (RA _ _ _ _ H0 E)). }
  assert (Body : forall size r v r2, holds_bytes N r -> bReadStringBody size r = Ok (v, None, r2) -> is_bytes v /\ Z.of_nat (length v) <= N).
  { intros size r0 v r2 H0. unfold bReadStringBody. destruct (size <? 0); [intro Q; injection Q as <- _; split; [constructor|cbn; lia]|].
    intro Q. exact (proj2 (RA _ _ _ _ H0 Q)). }
  unfold bReadMessageBegin. destruct (bReadI32 r) as [[[size [e|]] r1]| |] eqn:E1; cbn [obind]; try discriminate.
  { intro Q. injection Q as <- _ _ _ _. split; [constructor|cbn; lia]. }
  pose proof (I32 _ _ _ Hr E1) as H1.
  destruct (size <? 0); [destruct (negb _); [discriminate|]|destruct strict; [discriminate|]].
  - unfold bReadString. destruct (bReadI32 r1) as [[[sz [e|]] r2]| |] eqn:E2; cbn [obind]; try discriminate.
    { intro Q. injection Q as <- _ _ _ _. split; [constructor|cbn; lia]. }
    pose proof (I32 _ _ _ H1 E2) as H2.
    destruct (bReadStringBody sz r2) as [[[nm [e|]] r3]| |] eqn:E3; cbn [obind]; try discriminate.
    { intro Q. destruct e; cbn in Q; discriminate Q. }
    destruct (bReadI32 r3) as [[[sq e4] r4]| |]; cbn [obind]; try discriminate.
    intro Q. injection Q as <- _ _ _ _. exact (Body _ _ _ _ H2 E3).
  - destruct (bReadStringBody size r1) as [[[nm [e|]] r2]| |] eqn:E2; cbn [obind]; try discriminate.
    destruct (Binary.bReadByte r2) as [[[b [e|]] r3]| |]; cbn [obind]; try discriminate.
    destruct (bReadI32 r3) as [[[sq e4] r4]| |]; cbn [obind]; try discriminate.
    intro Q. injection Q as <- _ _ _ _. exact (Body _ _ _ _ H1 E2).
Qed.
Lemma holds_unframed : forall intw N r, holds_bytes N r -> holds_bytes N (unframed intw r).
Proof.
  intros intw N r (B & Y & L). destruct (C121_no_more intw r B) as [Ln F]. split; [|split; [apply unframed_bytes, Y|lia]].
  eapply Forall_impl; [|exact F]. intros [bs e]. cbn. intros [[_ E]|[E _]]; [right; rewrite E; discriminate|left; exact E].
Qed.
Section Names.
Context {S SW H : Type}.
Variable ra : nat -> S -> Z * bytes * option err * S.
Variable sim : S -> rt -> Prop.
Hypothesis RA : forall n s r, sim s r -> exists c b e s' r', ra n s = (c, b, e, s') /\ read_all n r = (c, b, e, r') /\ sim s' r'.
Variable N : Z.
Hypothesis N0 : 0 <= N.
Lemma meets_small : forall strict (W : wproto SW) flush x M cf fuel errtext
    (handle : H -> bytes -> list any -> (list (Z * any) * option bytes) * H) fs h s so name,
  meets (o_binaryR ra strict) W flush x M cf fuel errtext handle fs h s so name ->
  forall r, sim s r -> holds_bytes N r -> is_bytes name /\ Z.of_nat (length name) <= N.
Proof.
  intros strict W flush x M cf fuel errtext handle fs.
  set (sim2 := fun s r => sim s r /\ holds_bytes N r).
  assert (RR : rrel false sim2 (o_binaryR ra strict) (binaryR strict)).
  { apply ex_binaryR. intros n s r [Ss (B & Y & L)]. destruct (RA n s r Ss) as (c & b & e & s' & r' & E1 & E2 & S').
    exists c, b, e, s', r'. split; [exact E1|]. split; [exact E2|]. split; [exact S'|].
    destruct (read_all_busy _ _ _ _ _ _ E2 B) as (B1 & L1 & _). destruct (read_all_holds _ _ _ _ _ _ E2 Y) as [_ Y2].
    repeat split; auto. lia. }
  intros h s so name Hm. induction Hm as [h s so name t seq s1 E|h s so name p P Ps Hm IH]; intros r Ss Hr.
  - pose proof (qMessageBegin _ _ _ _ RR s r (conj Ss Hr)) as Q. rewrite E in Q.
    change (rMessageBegin (binaryR strict)) with (bReadMessageBegin strict) in Q.
    destruct (bReadMessageBegin strict r) as [[[[[nm t2] sq] e] r']| |] eqn:E2; cbn in Q; try contradiction; try discriminate Q.
    destruct Q as [Q _]. injection Q as <- <- <- <-. exact (name_holds N strict r _ _ _ _ Hr N0 E2).
  - pose proof (hprocess false sim2 eq eq (o_binaryR ra strict) (binaryR strict) W W flush flush RR (wrel_refl _ W)
      ltac:(intros ? ? ->; apply hsame_refl) x M cf fuel errtext handle fs h s r so so (conj Ss Hr) eq_refl) as Q. rewrite P in Q.
    destruct (process (binaryR strict) W flush x M cf fuel errtext handle fs h r so) as [p2| |]; cbn in Q; try contradiction.
    destruct Q as (_ & _ & _ & [Q1 Q2] & _). exact (IH (p_in p2) Q1 Q2).
Qed.
End Names.

(** With TBinaryProtocol on the input, plain or framed, no name is longer than what was received: what C104_compact_answers_partial
    asks for holds for every input of less than 2^31 - 17 bytes, if no Read returns neither data nor an error. *)
Theorem C104_names : forall H intw it sr sw ot op x M cf fuel errtext
    (handle : H -> bytes -> list any -> (list (Z * any) * option bytes) * H) fs h r name,
  let R := GetReader intw it (PFBinary sr sw) in let W := GetWriter ot op in
  busy r -> is_bytes (content r) ->
  meets (rd_proto R) (wr_proto W) (wr_flush W) x M cf fuel errtext handle fs h (rd_new R r) (wr_new W (MkWt [] [])) name ->
  is_bytes name /\ (length name <= length (content r))%nat.
Proof.
  intros H intw it sr sw ot op x M cf fuel errtext handle fs h r name R W B Y Hm.
  assert (Hr : holds_bytes (Z.of_nat (length (content r))) r) by (repeat split; auto; lia).
  enough (Q : is_bytes name /\ Z.of_nat (length name) <= Z.of_nat (length (content r))) by (split; [apply Q|lia]).
  destruct it.
  - apply (meets_small read_all eq ltac:(intros n s ? <-; destruct (read_all n s) as [[[c b] e] s'] eqn:E; exists c, b, e, s', s'; auto)
      _ (Nat2Z.is_nonneg (length (content r))) sr _ _ _ _ _ _ _ _ _ _ _ _ _ Hm r eq_refl Hr).
  - apply (meets_small (read_all_over (framed_read intw)) (fsim intw) (fsim_read_all intw)
      _ (Nat2Z.is_nonneg (length (content r))) sr _ _ _ _ _ _ _ _ _ _ _ _ _ Hm (unframed intw r) (fsim_new intw _ r) (holds_unframed intw _ r Hr)).
Qed.
Print Assumptions C104_names.

(** A good request and one for no function, in frames, over TBinaryProtocol; answered over TCompactProtocol. *)
Example C104_compact_case :
  let r := [(frame (nth 0 (ex_wires (PFBinary true true) true) []), None); (frame (bmsg true [120] CALL 5 ++ [0]), None)] in
  busy r /\ is_bytes (content r) /\ (forall m, In m (result_members ex_add) -> no_binary (m_ty m)) /\
  processRequest ext0 64 5 40 errtext0 ex_handle ex_fs (fun _ => false) 64 (MkTServer TFFramed TFPlain (PFBinary true true) PFCompact) 10 7 r =
  Ok (8, concat (map (told PFCompact)
    [MkAnswer [97; 100; 100] REPLY 9 [(0, VI64 12)];
     MkAnswer [120] EXCEPTION 5 (exc_fields (MkExc UNKNOWN_METHOD (s_unknown ++ [120])))])).
Proof.
  cbv zeta. split; [repeat (apply Forall_cons; [left; discriminate|]); apply Forall_nil|].
  split; [vm_compute; repeat (apply Forall_cons; [split; [discriminate|reflexivity]|]); apply Forall_nil|]. split; [|vm_compute; reflexivity].
  intros m [<-|[<-|[]]]; cbn [m_ty]; [constructor|]. apply nb_struct. intros m [<-|[]]. constructor.
Qed.
