(** C119 and C123 over TCompactProtocol: a reader panics only where a varint is a negative 32-bit number. *)
From Coq Require Import ZArith List Bool Lia String Permutation.
From Coq Require Import ZifyBool ZifyNat.
From Verif Require Import Base Arith Errors Transport TransportProofs Proto Values WfDec Access Strconv JsonText JsonTextProofs
  Skip SkipProofs ReadProg F64 TField GoVal Names Compare TList TSet TMap Depth Gen GenSpec GenProofs GenInst GenRound Buffer Framed FramedProofs
  BinaryProofs BinarySpec Binary BinaryMsg PropBinary
  BufIO BufRead BufReadProofs Json JsonSpec JsonWrite JsonRead JsonReadVal JsonForm JsonTotal JsonSkip PropJson PropJsonTotal PropGen PropJsonGen
  Over Het OverSim OverInst OverRpc Unframe
  AppExc AppExcProofs PropRpc Rpc RpcProofs PropService PropJsonRpc Serve ServeProofs PropServe PropWork PropCalm PropCalmJson PropAnswer
  Compact CompactSkip Tutorial PropTutorial PropUnframe PropHalt UnframeCompact PropHaltClient PropCalmClient.
Import ListNotations.
Local Open Scope list_scope.
Local Notation length := List.length.
Local Notation concat := List.concat.
Open Scope Z_scope.

(** ** Inputs without such a varint *)

(** A byte of a varint that is not its last. *)
Definition more (b : Z) : bool := Z.land b 128 =? 128.
(** No four such bytes follow each other: no varint in it is longer than four bytes. *)
Definition tame (l : bytes) : Prop := forall d a b c e rest, l = d ++ a :: b :: c :: e :: rest -> more a && more b && more c && more e = false.
Lemma tame_app : forall d l, tame (d ++ l) -> tame l.
Proof. intros d l H d' a b c e rest E. apply (H (d ++ d') a b c e rest). rewrite E, app_assoc. reflexivity. Qed.
Fixpoint ends_by (n : nat) (l : bytes) : Prop :=
  match n with O => False | Datatypes.S n => match l with [] => True | b :: l => more b = false \/ ends_by n l end end.
Lemma tame_ends : forall l, tame l -> ends_by 4 l.
Proof.
  intros l H. destruct l as [|a [|b [|c [|e rest]]]]; cbn [ends_by]; try tauto.
  pose proof (H [] a b c e rest eq_refl) as Q. destruct (more a), (more b), (more c), (more e); cbn in Q; try discriminate Q; tauto.
Qed.
Lemma loop_small : forall n fuel sh res r c v s', 0 <= sh -> sh + 7 * Z.of_nat n <= 28 -> 0 <= res < 2 ^ sh -> ends_by n (content r) ->
  readVarint64_loop fuel sh res (r, c) = Ok (v, None, s') -> 0 <= v < 2 ^ 28.
Proof.
  induction n as [|n IH]; intros fuel sh res r c v s' Hs Hn Hr He E; [destruct He|].
  destruct fuel as [|fuel]; [discriminate E|]. cbn [readVarint64_loop] in E. unfold cReadByte in E.
  destruct (read_all 1 r) as [[[k buf] e] r1] eqn:Ra. pose proof (read_all_any _ _ _ _ _ _ Ra) as (d & D1 & D2 & D3 & _).
  destruct e as [e|]. { cbn [obind] in E. destruct (pefo_some e) as [e' Ee]. rewrite Ee in E. discriminate E. }
  cbn [obind] in E.
  assert (Pw : 0 < 2 ^ sh) by (apply Z.pow_pos_nonneg; lia).
  assert (P7 : 2 ^ (sh + 7) = 2 ^ sh * 128) by (rewrite Z.pow_add_r by lia; reflexivity).
  assert (Le : 2 ^ (sh + 7) <= 2 ^ 28) by (apply Z.pow_le_mono_r; lia).
  replace (sh <? 64) with true in E by lia.
  assert (Step : forall b, 0 <= Z.lor res (wraps 64 (Z.shiftl (Z.land b 127) sh)) < 2 ^ (sh + 7)).
  { intro b. change 127 with (Z.ones 7). rewrite Z.land_ones by lia. change (2 ^ 7) with 128. pose proof (Z.mod_pos_bound b 128 ltac:(lia)) as B.
    rewrite Z.shiftl_mul_pow2 by lia. set (q := b mod 128) in *.
    assert (B2 : 0 <= q * 2 ^ sh <= 127 * 2 ^ sh) by nia.
    rewrite Arith.wraps_id; [|lia|unfold in_s; change (2 ^ (64 - 1)) with (2 ^ 63); assert (2 ^ 28 < 2 ^ 63) by (apply Z.pow_lt_mono_r; lia); lia].
    rewrite (lor_add sh res q) by lia. nia. }
  destruct d as [|b [|? ?]]; [| |cbn in D3; lia].
  - subst buf. change (at_ 0 (pad 1 [])) with 0 in E. change (negb (Z.land 0 128 =? 128)) with true in E. cbv iota in E.
    specialize (Step 0). match type of E with Ok (?a, _, _) = _ => assert (Ev : a = v) by (clear - E; congruence) end. rewrite <- Ev. lia.
  - subst buf. change (at_ 0 (pad 1 [b])) with b in E. specialize (Step b).
    rewrite D1 in He. cbn [app ends_by] in He. unfold more in He. destruct (Z.land b 128 =? 128) eqn:Eb; cbn [negb] in E.
    + destruct He as [He|He]; [discriminate He|]. eapply (IH fuel (sh + 7)); [lia|lia|exact Step|exact He|exact E].
    + match type of E with Ok (?a, _, _) = _ => assert (Ev : a = v) by (clear - E; congruence) end. rewrite <- Ev. lia.
Qed.
Lemma tame_varint : forall r, tame (content r) -> ~ negative_varint r.
Proof.
  intros r H (r1 & c & n & s' & [d L] & E & N). rewrite L in H. apply tame_app in H.
  unfold readVarint32, readVarint64 in E.
  destruct (readVarint64_loop _ 0 0 (r1, c)) as [[[v e] s1]| |] eqn:E1; cbn [obind] in E; try discriminate E.
  injection E as En Ee _. subst e.
  apply (loop_small 4) in E1; [|lia|lia|cbn; lia|apply tame_ends, H].
  rewrite Arith.wraps_id in En; [lia|lia|]. unfold in_s. change (2 ^ (32 - 1)) with (2 ^ 31).
  assert (2 ^ 28 < 2 ^ 31) by (apply Z.pow_lt_mono_r; lia). lia.
Qed.

(** ** Such input is read without a panic *)
Section Compact.
Variable r0 : rt.
Hypothesis NV : ~ negative_varint r0.
Notation kC b := (kt (cinv r0 b) clen).

Lemma of_okish : forall A b n (o : outcome (A * cr)), okish (negative_varint r0) o (fun '(_, s') => cinv r0 b s' /\ (clen s' <= n)%nat) -> kC b n o.
Proof. intros A b n o H. destruct o as [[a s']| |]; cbn in H; [|destruct (NV H)|destruct H]. exists a, s'. split; [reflexivity|exact H]. Qed.
Lemma of_keeps : forall A (op : rop cr A), keeps clen (negative_varint r0) (cinv r0) op -> forall b s, cinv r0 b s -> kC b (clen s) (op s).
Proof.
  intros A op H b s Hs. apply of_okish. specialize (H b s Hs). unfold okish in *. destruct (op s) as [[[a e] s']| |]; exact H.
Qed.
Lemma k_binary : keeps clen (negative_varint r0) (cinv r0) cReadBinary.
Proof.
  intros b s H. pose proof (k_string r0 b s H) as Q. unfold cReadString in Q. destruct (cReadBinary s) as [[[v e] s']| |]; exact Q.
Qed.
Lemma c_msg : forall b s, cinv r0 b s -> exists nm t q e s', cReadMessageBegin s = Ok ((nm, t, q), e, s') /\ cinv r0 b s' /\
  (clen s' <= clen s)%nat /\ (nm <> [] -> (clen s' < clen s)%nat).
Proof.
  intros b [r c] H. unfold cReadMessageBegin. destruct (byte_left r c) as (b1 & e & r1 & -> & L & Lt). cbn [obind].
  destruct (fin r0 b r c r1 c H L eq_refl) as [H1 L1].
  destruct (b1 =? COMPACT_PROTOCOL_ID) eqn:Eb; cbn [negb]; [|eexists _, _, _, _, _; split; [reflexivity|]; split; [exact H1|]; split; [exact L1|congruence]].
  assert (Nb : b1 <> 0) by (intros ->; discriminate Eb). specialize (Lt Nb).
  destruct (byte_left r1 c) as (b2 & e2 & r2 & -> & L2 & _). cbn [obind]. cbv zeta.
  destruct (fin r0 b r1 c r2 c H1 L2 eq_refl) as [H2 L3]. apply left_len in L2.
  destruct e2; [eexists _, _, _, _, _; split; [reflexivity|]; split; [exact H2|]; unfold clen; cbn [fst]; split; [lia|intros _; lia]|].
  destruct (negb _); [eexists _, _, _, _, _; split; [reflexivity|]; split; [exact H2|]; unfold clen; cbn [fst]; split; [lia|intros _; lia]|].
  destruct (varint32_left r2 c) as (v & e3 & r3 & -> & L4 & _). cbn [obind].
  destruct (fin r0 b r2 c r3 c H2 L4 eq_refl) as [H3 L5]. apply left_len in L4.
  destruct e3; [eexists _, _, _, _, _; split; [reflexivity|]; split; [exact H3|]; unfold clen; cbn [fst]; split; [lia|intros _; lia]|].
  destruct (of_keeps _ _ (k_string r0) b (r3, c) H3) as ([nm e4] & s4 & -> & H4 & L6). cbn [obind].
  eexists _, _, _, _, _. split; [reflexivity|]. split; [exact H4|]. unfold clen in *; cbn [fst] in *. split; [lia|intros _; lia].
Qed.
Lemma c_begin : forall b s, cinv r0 b s -> exists nm s', cReadStructBegin s = Ok (nm, None, s') /\ cinv r0 true s' /\ (clen s' <= clen s)%nat.
Proof.
  intros b [r c] [H1 H2]. eexists _, _. split; [reflexivity|]. split; [|unfold clen; cbn; lia]. split; [exact H1|]. intros _. cbn. discriminate.
Qed.
Lemma c_end : forall s, cinv r0 true s -> kC true (clen s) (cReadStructEnd s).
Proof.
  intros [r c] [H1 H2]. cbn [snd] in H2. specialize (H2 eq_refl). unfold cReadStructEnd. destruct (lastField c) as [|i l] eqn:E; [contradiction|].
  eexists _, _. split; [reflexivity|]. split; [|unfold clen; cbn; lia]. split; [exact H1|]. intros _. cbn. discriminate.
Qed.
Lemma c_field : forall b s, cinv r0 b s -> exists nm t i e s', cReadFieldBegin s = Ok ((nm, t, i), e, s') /\ cinv r0 b s' /\
  (clen s' <= clen s)%nat /\ (t <> STOP -> (clen s' < clen s)%nat).
Proof.
  intros b s H. pose proof (k_field r0 b s H) as Q. destruct (cReadFieldBegin s) as [[[[[nm t] i] e] s']| |]; unfold okish in Q;
    [|destruct (NV Q)|destruct Q]. eexists _, _, _, _, _. split; [reflexivity|exact Q].
Qed.
Lemma returning_compact : returning compactR (cinv r0 true) clen true.
Proof.
  constructor.
  - intros A c s Hk _ Hs.
    assert (Nop : kC true (clen s) (unit_op nop s)) by (eexists _, s; split; [reflexivity|]; split; [exact Hs|lia]).
    destruct c; cbn [ReadProg.call compactR rMessageBegin rMessageEnd rStructBegin rStructEnd rFieldBegin rFieldEnd
      rMapBegin rMapEnd rListBegin rListEnd rSetBegin rSetEnd rBool rByte rI16 rI32 rI64 rDouble rString rBinary];
      try exact Nop; try (destruct Hk; exact I);
      try (apply of_keeps; [first [apply k_bool|apply k_byte|apply k_i16|apply k_i32|apply k_i64|apply k_double|apply k_string|apply k_binary]|exact Hs]).
    + destruct (c_msg true s Hs) as (nm & t & q & e & s' & -> & H1 & L1 & _). apply kt_ok; assumption.
    + destruct (c_begin true s Hs) as (nm & s' & -> & H1 & L1). apply kt_ok; assumption.
    + destruct (c_end s Hs) as (e & s' & E & H1 & L1). unfold unit_op. rewrite E. apply kt_ok; assumption.
    + destruct (c_field true s Hs) as (nm & t & q & e & s' & -> & H1 & L1 & _). apply kt_ok; assumption.
    + pose proof (k_map r0 true s Hs) as Q. destruct (cReadMapBegin s) as [[[[[k v] n] e] s']| |]; unfold okish in Q; [|destruct (NV Q)|destruct Q].
      apply kt_ok; apply Q.
    + pose proof (k_list r0 true s Hs) as Q. destruct (cReadListBegin s) as [[[[k n] e] s']| |]; unfold okish in Q; [|destruct (NV Q)|destruct Q].
      apply kt_ok; apply Q.
    + pose proof (k_list r0 true s Hs) as Q. destruct (cReadListBegin s) as [[[[k n] e] s']| |]; unfold okish in Q; [|destruct (NV Q)|destruct Q].
      apply kt_ok; apply Q.
  - intros s nm t i e s' Hs E Nt. destruct (c_field true s Hs) as (nm1 & t1 & q1 & e1 & s1 & E1 & _ & _ & L). cbn [compactR rFieldBegin] in E.
    rewrite E1 in E. injection E as <- <- <- <- <-. auto.
  - intros s nm t i s' Hs E Nm. destruct (c_msg true s Hs) as (nm1 & t1 & q1 & e1 & s1 & E1 & _ & _ & L). cbn [compactR rMessageBegin] in E.
    rewrite E1 in E. injection E as <- <- <- _ <-. auto.
  - intros M f t d s Hs L. apply of_okish. eapply okish_mono.
    + apply (skip_keeps compactR M clen (negative_varint r0) (cinv r0)) with (b := true); [..|exact Hs|exact L];
        cbn [compactR rBool rByte rI16 rI32 rI64 rDouble rString rStructEnd
          rFieldEnd rMapEnd rListEnd rSetEnd rStructBegin rFieldBegin rListBegin rSetBegin rMapBegin];
        auto using k_bool, k_byte, k_i16, k_i32, k_i64, k_double, k_string, k_field, k_list, k_map;
        try (intros b s1 H; unfold nop, SkipProofs.okish; auto; fail).
      * intros b s1 [H1 H2]. split; [exact H1|]. intros _. apply H2. reflexivity.
      * intros s1 H1. destruct (c_end s1 H1) as (e & s' & -> & Q). exact Q.
      * intros b [r c1] [H1 H2]. unfold cReadStructBegin, SkipProofs.okish. unfold cinv, clen. cbn [fst snd set_last lastField].
        repeat split; auto; discriminate.
    + intros [e s'] Q. exact Q.
Qed.
Lemma cinv_any : forall c, cinv r0 false (r0, c).
Proof. intro c. split; [apply left_refl|discriminate]. Qed.
Lemma cinv_less : forall s, cinv r0 true s -> cinv r0 false s.
Proof. intros s [H _]. split; [exact H|discriminate]. Qed.
Lemma kC_less : forall A n (o : outcome (A * cr)), kC true n o -> kC false n o.
Proof. intros A n o (a & s & -> & H & L). exists a, s. split; [reflexivity|]. split; [apply cinv_less, H|exact L]. Qed.

Lemma struct_compact : forall M x cf f n ms s, (forall m, In m ms -> flat (m_ty m)) -> cinv r0 false s -> (2 * clen s + 2 <= f)%nat ->
  kC true (clen s) (gread compactR x M cf f (TyStruct n ms) s).
Proof.
  intros M x cf f n ms s P Hs L. destruct f as [|f]; [lia|]. cbn [gread].
  destruct (c_begin false s Hs) as (nm & s1 & E & H1 & L1).
  unfold hbind at 1. unfold hwrap at 1, hlift at 1. cbn [compactR rStructBegin]. rewrite E. cbn [obind].
  fold (@compactR). apply kt_le with (n := clen s1); [|exact L1].
  apply kt_h; [apply (proj2 (kt_gread _ _ _ _ returning_compact M x cf f)); [intros m Hm; apply flat_safe, P, Hm|exact H1|lia]|].
  intros a s2 H2 L2. apply kt_h; [|intros; apply kt_ret; assumption]. apply kt_wrap, kt_do.
  eapply kt_le; [apply c_end, H2|exact L2].
Qed.
Lemma recv_compact : forall x M cf fuel f seq c, (forall m, In m (result_members f) -> flat (m_ty m)) ->
  (2 * length (content r0) + 2 <= fuel)%nat -> kC false (length (content r0)) (recv_on compactR x M cf fuel f seq (r0, c)).
Proof.
  intros x M cf fuel f seq c P L. unfold recv_on. cbv zeta.
  destruct (c_msg false (r0, c) (cinv_any c)) as (nm & t & q & e & s1 & E & H1 & L1 & _).
  change (rMessageBegin compactR) with cReadMessageBegin. rewrite E. cbn [obind].
  change (clen (r0, c)) with (length (content r0)) in L1.
  destruct e as [e|]; [apply kt_ok; assumption|].
  destruct (t =? EXCEPTION); [|destruct (negb (seq =? q)); [apply kt_ok; assumption|]].
  - unfold app_read. destruct (c_begin false s1 H1) as (nm2 & s2 & E2 & H2 & L2).
    change (rStructBegin compactR) with cReadStructBegin. rewrite E2. cbn [obind].
    destruct (kt_app_fields _ _ _ _ returning_compact M fuel [] UNKNOWN_APPLICATION_EXCEPTION s2 H2 ltac:(lia)) as ([ex|e] & s3 & -> & H3 & L3); cbn [obind].
    + destruct (c_end s3 H3) as (e & s4 & E4 & H4 & L4). change (rStructEnd compactR) with cReadStructEnd. rewrite E4. cbn [obind].
      destruct e; [apply kt_ok; [apply cinv_less, H4|lia]|]. change (rMessageEnd compactR s4) with (Ok (@None err, s4)). cbn [obind].
      apply kt_ok; [apply cinv_less, H4|lia].
    + apply kt_ok; [apply cinv_less, H3|lia].
  - destruct (struct_compact M x cf fuel (result_name f) (result_members f) s1 P H1 ltac:(lia)) as (r & s2 & -> & H2 & L2). cbn [obind].
    change (rMessageEnd compactR s2) with (Ok (@None err, s2)). cbn [obind].
    destruct r; (apply kt_ok; [apply cinv_less, H2|lia]).
Qed.
Lemma read_compact : forall M x cf f t c, flat t -> (2 * length (content r0) + 2 <= f)%nat ->
  kC false (length (content r0)) (gread compactR x M cf f t (r0, c)).
Proof.
  intros M x cf f t c P L. pose proof (cinv_any c) as Hs. inversion P; subst; [..|apply kC_less; apply struct_compact; assumption];
    (destruct f as [|f]; [lia|]); cbn [gread compactR rBool rByte rI16 rI32 rI64 rDouble rString rBinary];
    (apply kt_h; [|intros; apply kt_ret; assumption]); apply kt_wrap, kt_lift; apply of_keeps;
    first [exact Hs|apply k_bool|apply k_byte|apply k_i16|apply k_i32|apply k_i64|apply k_double|apply k_string|apply k_binary].
Qed.
End Compact.

(** ** Claims *)

(** The readers generated for types without containers return over TCompactProtocol, with any state left from before, on
    every input with no negative varint in it; so on every input in which no varint is longer than four bytes.
    Missing: inputs with such a varint, some of which make it panic (C69_panic_refuted, C119_compact_refuted). *)
Theorem C119_compact_partial : forall t x M cf f (r : rt) c, flat t -> (2 * length (content r) + 2 <= f)%nat ->
  ~ negative_varint r \/ tame (content r) -> exists v s', gread compactR x M cf f t (r, c) = Ok (v, s').
Proof.
  intros t x M cf f r c P L T. assert (NV : ~ negative_varint r) by (destruct T as [T|T]; [exact T|apply tame_varint, T]).
  destruct (read_compact r NV M x cf f t c P L) as (v & s' & E & _). eauto.
Qed.
Print Assumptions C119_compact_partial.

(** The same for a client's RecvX, plain or framed.  Missing: the same. *)
Theorem C123_compact_partial : forall x M cf fuel f seq (r : rt), (forall m, In m (result_members f) -> flat (m_ty m)) ->
  (2 * length (content r) + 2 <= fuel)%nat ->
  (forall c, ~ negative_varint r \/ tame (content r) -> exists v s', recv_on compactR x M cf fuel f seq (r, c) = Ok (v, s')) /\
  (forall intw, busy r -> ~ negative_varint (unframed intw r) \/ tame (content (unframed intw r)) -> exists v s',
     recv_on (rd_proto (GetReader intw TFFramed PFCompact)) x M cf fuel f seq (rd_new (GetReader intw TFFramed PFCompact) r) = Ok (v, s')).
Proof.
  intros x M cf fuel f seq r P L.
  assert (C : forall (r : rt) c, (2 * length (content r) + 2 <= fuel)%nat -> ~ negative_varint r \/ tame (content r) ->
    exists v s', recv_on compactR x M cf fuel f seq (r, c) = Ok (v, s')).
  { intros r1 c L1 T. assert (NV : ~ negative_varint r1) by (destruct T as [T|T]; [exact T|apply tame_varint, T]).
    destruct (recv_compact r1 NV x M cf fuel f seq c P L1) as (v & s' & E & _). eauto. }
  split; [intros c T; apply C; assumption|]. intros intw Bu T.
  destruct (C121_no_more intw r Bu) as [Ln _]. destruct (C121_recv intw x M cf fuel f seq r) as [_ Qc].
  cbn [GetReader rd_proto rd_new rd_st]. specialize (Qc (MkWt [] [])).
  destruct (C (unframed intw r) cinit ltac:(lia) T) as (v & s' & E). unfold new_framed_in. rewrite E in Qc.
  destruct (recv_on (o_compactR (read_all_over (framed_read intw)) framed_unread) x M cf fuel f seq (NewTFramedTransport (MkWt [] []) r, cinit)) as [[v1 s]| |];
    cbn in Qc; [eauto|contradiction|contradiction].
Qed.
Print Assumptions C123_compact_partial.

(** A reply to calculate with 300 as a varint and a field of an unknown list, cut into pieces; it is tame.  With the length
    of that reply's name changed to -1 the client panics. *)
Fixpoint tameb (l : bytes) : bool :=
  match l with
  | a :: (b :: c :: e :: _) as l' => negb (more a && more b && more c && more e) && tameb l'
  | _ => true
  end.
Lemma tameb_ok : forall l, tameb l = true -> tame l.
Proof.
  intros l H d. revert l H. induction d as [|u d IH]; intros l H a b c e rest E; subst l.
  - cbn [app tameb] in H. apply andb_prop in H as [H _]. apply negb_true_iff in H. exact H.
  - apply (IH (d ++ a :: b :: c :: e :: rest)) with (rest := rest); [|reflexivity]. cbn [app] in H.
    destruct (d ++ a :: b :: c :: e :: rest) as [|v1 [|v2 [|v3 l]]] eqn:El; try reflexivity.
    cbn [tameb] in H. apply andb_prop in H as [_ H]. exact H.
Qed.
Definition ex_creply : bytes := [130; 65; 7; 9] ++ lit "calculate" ++ [5; 0; 216; 4; 89; 37; 2; 4; 0].
Example C123_compact_case :
  let r := [(firstn 6 ex_creply, None); (skipn 6 ex_creply, None); ([], Some EEof)] : rt in
  tame (content r) /\ (forall m, In m (result_members f_calculate) -> flat (m_ty m)) /\ (2 * length (content r) + 2 <= 90)%nat /\
  (exists c s, recv_on compactR ext0 64 5 90 f_calculate 7 (r, cinit) = Ok ((c, None), s) /\ attribute c 0 = AInt32 300) /\
  ~ tame [255; 255; 255; 255; 15] /\
  recv_on compactR ext0 64 5 90 f_calculate 7 ([([130; 65; 7; 255; 255; 255; 255; 15], None)], cinit) = Panic.
Proof.
  cbv zeta. split; [apply tameb_ok; vm_compute; reflexivity|]. split; [exact (proj1 (proj2 (proj2 (proj1 C123_case))))|].
  split; [vm_compute; lia|]. split; [eexists _, _; split; [vm_compute; reflexivity|reflexivity]|]. split; [|reflexivity].
  intro T. specialize (T [] 255 255 255 255 [15] eq_refl). discriminate T.
Qed.
