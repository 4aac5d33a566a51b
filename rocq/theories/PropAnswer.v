(** C120: whatever arrives, Process answers it and the connection comes to an end. *)
From Coq Require Import ZArith List Bool Lia String.
From Coq Require Import ZifyBool ZifyNat.
From Verif Require Import Base Arith Errors Transport TransportProofs Proto Values WfDec Access Strconv JsonText JsonTextProofs
  Skip SkipProofs ReadProg F64 TField GoVal Names Compare TList TSet TMap Gen GenSpec GenProofs GenInst GenRound
  BinaryProofs BinarySpec Binary BinaryMsg PropBinary
  BufIO BufRead BufReadProofs Json JsonSpec JsonWrite JsonRead JsonReadVal JsonForm JsonTotal JsonSkip PropJson PropJsonTotal PropGen PropJsonGen
  AppExc AppExcProofs PropRpc Rpc RpcProofs PropService PropJsonRpc Serve ServeProofs PropServe PropCalm PropCalmJson Tutorial PropTutorial.
Import ListNotations.
Local Open Scope list_scope.
Local Notation length := List.length.
Local Notation concat := List.concat.
Open Scope Z_scope.

(** ** Readers that return *)
Section Total.
Context {S : Type}.
Variable R : rproto S.
Variable Inv : S -> Prop.
Variable mu : S -> nat. (* the bytes still to be read *)
Variable allow : bool. (* whether ReadBinary returns, too *)

Definition kt {A} (n : nat) (o : outcome (A * S)) : Prop := exists a s', o = Ok (a, s') /\ Inv s' /\ (mu s' <= n)%nat.
Definition is_binary {A} (c : rcall A) : Prop := match c with ReadProg.CBinary => True | _ => False end.
Record returning : Prop := MkReturning {
  r_call : forall A (c : rcall A) s, ~ is_skip c -> (allow = false -> ~ is_binary c) -> Inv s -> kt (mu s) (ReadProg.call R c s);
  r_field : forall s nm t i e s', Inv s -> rFieldBegin R s = Ok (nm, t, i, e, s') -> t <> STOP -> (mu s' < mu s)%nat;
  r_msg : forall s nm t i s', Inv s -> rMessageBegin R s = Ok (nm, t, i, None, s') -> nm <> [] -> (mu s' < mu s)%nat;
  r_skip : forall M f t d s, Inv s -> (2 * mu s + 2 <= f)%nat -> kt (mu s) (skip R M f t d s) }.
Hypothesis K : returning.

Lemma kt_bind : forall A B n (o : outcome (A * S)) (k : A * S -> outcome (B * S)),
  kt n o -> (forall a s, Inv s -> (mu s <= n)%nat -> kt n (k (a, s))) -> kt n (obind o k).
Proof. intros A B n o k (a & s & -> & Hs & L) H. cbn. apply H; assumption. Qed.
Lemma kt_le : forall A n m (o : outcome (A * S)), kt n o -> (n <= m)%nat -> kt m o.
Proof. intros A n m o (a & s & -> & Hs & L) H. exists a, s. split; [reflexivity|]. split; [exact Hs|lia]. Qed.
Lemma kt_ok : forall A n (a : A) s, Inv s -> (mu s <= n)%nat -> kt n (Ok (a, s)).
Proof. intros A n a s Hs L. exists a, s. auto. Qed.
Lemma kt_unit : forall (c : rcall unit) (m : wop S) n s, ReadProg.call R c = unit_op m -> ~ is_skip c -> ~ is_binary c ->
  Inv s -> (mu s <= n)%nat -> kt n (m s).
Proof.
  intros c m n s E Hk Hb Hs L. pose proof (r_call K _ c s Hk (fun _ => Hb) Hs) as (a & s' & E' & Hs' & L').
  rewrite E in E'. unfold unit_op in E'. destruct (m s) as [[e s1]| |]; try discriminate E'. cbn in E'.
  injection E' as <- <-. apply kt_ok; [exact Hs'|lia].
Qed.
Lemma kt_read : forall A (c : rcall A) n s, ~ is_skip c -> (allow = false -> ~ is_binary c) ->
  Inv s -> (mu s <= n)%nat -> kt n (ReadProg.call R c s).
Proof. intros A c n s Hk Hb Hs L. eapply kt_le; [apply (r_call K); assumption|exact L]. Qed.

Variable M : Z.
Variable x : ext.
Variable cf : nat.
Lemma kt_h : forall A B n (m : hop S A) (k : A -> hop S B) s,
  kt n (m s) -> (forall a s, Inv s -> (mu s <= n)%nat -> kt n (k a s)) -> kt n (hbind m k s).
Proof.
  intros A B n m k s Hm Hk. unfold hbind. apply kt_bind; [exact Hm|]. intros [a|e] s1 H1 L1; [apply Hk; assumption|apply kt_ok; assumption].
Qed.
Lemma kt_wrap : forall A n (m : hop S A) s, kt n (m s) -> kt n (hwrap m s).
Proof. intros A n m s H. unfold hwrap. apply kt_bind; [exact H|]. intros [a|e] s1 H1 L1; apply kt_ok; assumption. Qed.
Lemma kt_lift : forall A n (m : rop S A) s, kt n (m s) -> kt n (hlift m s).
Proof. intros A n m s H. unfold hlift. apply kt_bind; [exact H|]. intros [a [e|]] s1 H1 L1; apply kt_ok; assumption. Qed.
Lemma kt_do : forall n (m : wop S) s, kt n (m s) -> kt n (hdo m s).
Proof. intros n m s H. unfold hdo. apply kt_bind; [exact H|]. intros [e|] s1 H1 L1; apply kt_ok; assumption. Qed.
Lemma kt_ret : forall A n (a : A) s, Inv s -> (mu s <= n)%nat -> kt n (@hret S A a s).
Proof. intros. apply kt_ok; assumption. Qed.

Inductive safe : ty -> Prop :=
| sf_bool : safe TyBool | sf_byte : safe TyByte | sf_i16 : safe TyI16 | sf_i32 : safe TyI32
| sf_i64 : safe TyI64 | sf_double : safe TyDouble | sf_string : safe TyString | sf_binary : allow = true -> safe TyBinary
| sf_enum tag n cs : safe (TyEnum tag n cs)
| sf_struct n ms : (forall m, In m ms -> safe (m_ty m)) -> safe (TyStruct n ms).

Ltac rd c := apply (kt_read _ c); [cbn; tauto|cbn; congruence|assumption|lia].
Ltac un c := apply (kt_unit c); [reflexivity|cbn; tauto|cbn; tauto|assumption|lia].
Ltac kh := repeat first [ apply kt_ret; [assumption|lia] | apply kt_h; intros | apply kt_wrap | apply kt_lift | apply kt_do
  | rd ReadProg.CBool | rd ReadProg.CByte | rd ReadProg.CI16 | rd ReadProg.CI32 | rd ReadProg.CI64 | rd ReadProg.CDouble
  | rd ReadProg.CString | rd ReadProg.CBinary | rd ReadProg.CStructBegin | rd ReadProg.CFieldBegin
  | un ReadProg.CStructEnd | un ReadProg.CFieldEnd ].

Lemma kt_gread : forall f,
  (forall t, safe t -> forall s, Inv s -> (2 * mu s + 2 <= f)%nat -> kt (mu s) (gread R x M cf f t s)) /\
  (forall ms, (forall m, In m ms -> safe (m_ty m)) -> forall a s, Inv s -> (2 * mu s + 1 <= f)%nat ->
     kt (mu s) (gread_fields R x M cf f ms a s)).
Proof.
  induction f as [|f [IH IHf]]; [split; intros; lia|]. split.
  - intros t P. inversion P; subst; intros s Hs L; cbn [gread]; kh.
    eapply kt_le; [apply IHf; [assumption|assumption|lia]|lia].
  - intros ms P a s Hs L. rewrite gread_fields_S.
    pose proof (r_call K _ ReadProg.CFieldBegin s (fun f => f) (fun _ f => f) Hs) as (v & s1 & E & H1 & L1).
    cbn [ReadProg.call] in E. destruct v as [[[nm t] i] e]. pose proof (r_field K s nm t i e s1 Hs E) as St.
    unfold hbind at 1. unfold hwrap at 1, hlift at 1. rewrite E. cbn [obind]. destruct e as [e|]; [apply kt_ok; assumption|]. cbn [obind].
    match goal with |- kt _ ((if ?c then _ else _) _) => destruct c eqn:Es end; [apply kt_ret; assumption|].
    assert (Nt : t <> STOP) by (intros ->; discriminate Es). specialize (St Nt).
    assert (Sk : forall ty s2, Inv s2 -> (mu s2 <= mu s1)%nat -> kt (mu s) (skip_default R M f ty s2)).
    { intros ty s2 H2 L2. eapply kt_le; [apply (r_skip K); [exact H2|lia]|lia]. }
    assert (Rd : forall m s2, In m ms -> Inv s2 -> (mu s2 <= mu s1)%nat -> kt (mu s1) (gread R x M cf f (m_ty m) s2)).
    { intros m s2 Hm H2 L2. eapply kt_le; [apply IH; [apply P, Hm|exact H2|lia]|lia]. }
    apply kt_le with (n := mu s1); [|lia].
    assert (Sk' : forall ty s2, Inv s2 -> (mu s2 <= mu s1)%nat -> kt (mu s1) (skip_default R M f ty s2)).
    { intros ty s2 H2 L2. eapply kt_le; [apply (r_skip K); [exact H2|lia]|lia]. }
    apply kt_h.
    + destruct (find _ _) as [m|] eqn:Ef.
      * apply find_some in Ef. destruct Ef as [Hm _].
        match goal with |- kt _ ((if ?c then _ else _) _) => destruct c end;
        (apply kt_h; [|intros; apply kt_ret; assumption]); apply kt_wrap; [apply kt_do, Sk'|apply Rd]; auto.
      * apply kt_h; [|intros; apply kt_ret; assumption]. apply kt_wrap, kt_do, Sk'; auto.
    + intros a2 s2 H2 L2. apply kt_h; [kh|]. intros _ s3 H3 L3.
      eapply kt_le; [apply IHf; [exact P|exact H3|lia]|lia].
Qed.
End Total.

(** ** Process and the loop of a server *)
Section Loop.
Context {SR SW H : Type}.
Variable R : rproto SR.
Variable Inv : SR -> Prop.
Variable mu : SR -> nat.
Variable allow : bool.
Hypothesis K : returning R Inv mu allow.
Variable W : wproto SW.
Variable flush : wop SW.
Variable x : ext.
Variable M : Z.
Variable cf fuel : nat.
Variable errtext : err -> bytes.
Variable handle : H -> bytes -> list any -> (list (Z * any) * option bytes) * H.
Variable fs : list func.
Variable okw : SW -> Prop. (* between two messages *)
Hypothesis Wexc : forall name seq e so, okw so -> exists so', write_exception W flush name seq e so = Ok so' /\ okw so'.
Hypothesis Wres : forall f h vals attrs h' seq so, In f fs -> handle h (fn_name f) vals = ((attrs, None), h') -> okw so ->
  exists o1 o2 o3 o4, wMessageBegin W (fn_name f) REPLY seq so = Ok (None, o1) /\
    gwrite_result W x fuel (result_name f) (result_members f) (if fn_oneway f then init_attrs (result_members f) else attrs) o1 =
      Ok (None, o2) /\
    wMessageEnd W o2 = Ok (None, o3) /\ flush o3 = Ok (None, o4) /\ okw o4.
Hypothesis Fargs : forall f m, In f fs -> In m (fn_args f) -> safe allow (m_ty m).
Hypothesis Fname : forall f, In f fs -> fn_name f <> [].

Definition pt (si : SR) (o : outcome (@pout SR SW H)) : Prop :=
  exists p, o = Ok p /\ Inv (p_in p) /\ okw (p_out p) /\ (mu (p_in p) <= mu si)%nat /\
    (p_success p = true -> (mu (p_in p) < mu si)%nat).
Lemma pt_process : forall h si so, Inv si -> okw so -> (2 * mu si + 2 <= fuel)%nat ->
  pt si (process R W flush x M cf fuel errtext handle fs h si so).
Proof.
  intros h si so Hs Ho Lf. unfold process.
  destruct (r_call _ _ _ _ K _ ReadProg.CMessageBegin si (fun f => f) (fun _ f => f) Hs) as (v & s1 & E & H1 & L1).
  cbn [ReadProg.call] in E. destruct v as [[[name t] seq] e]. rewrite E. cbn [obind].
  destruct e as [e|].
  { eexists. split; [reflexivity|]. cbn. split; [exact H1|]. split; [exact Ho|]. split; [exact L1|discriminate]. }
  pose proof (r_msg _ _ _ _ K si name t seq s1 Hs E) as St.
  assert (End : forall s, Inv s -> kt Inv mu (mu s) (rMessageEnd R s)).
  { intros s H0. apply (kt_unit R Inv mu allow K ReadProg.CMessageEnd); [reflexivity|cbn; tauto|cbn; tauto|exact H0|lia]. }
  assert (Err : forall name seq ex rr h' s, Inv s -> (mu s <= mu s1)%nat ->
    pt si (so' <- write_exception W flush name seq ex so ;; Ok (MkPout false (Some rr) h' s so'))).
  { intros name0 seq0 ex rr h' s H0 L0. destruct (Wexc name0 seq0 ex so Ho) as (so' & -> & Ho').
    eexists. split; [reflexivity|]. cbn. split; [exact H0|]. split; [exact Ho'|]. split; [lia|discriminate]. }
  destruct (lookup_fn fs name) as [f|] eqn:L.
  - apply lookup_in in L. destruct L as [Hf <-]. specialize (St (Fname f Hf)). unfold process_fn.
    destruct (proj1 (kt_gread R Inv mu allow K M x cf fuel) (TyStruct (args_name f) (fn_args f))
      (sf_struct _ _ _ (fun m Hm => Fargs f m Hf Hm)) s1 H1 ltac:(lia)) as (v & s2 & -> & H2 & L2). cbn [obind].
    destruct v as [args|e].
    + destruct (End s2 H2) as (e2 & s3 & -> & H3 & L3). cbn [obind].
      match goal with |- context [handle h (fn_name f) ?v] => set (vals := v) end.
      destruct (handle h (fn_name f) vals) as [[attrs [text|]] h'] eqn:Eh; [apply Err; [exact H3|lia]|].
      destruct (Wres f h vals attrs h' seq so Hf Eh Ho) as (o1 & o2 & o3 & o4 & E1 & E2 & E3 & E4 & H4).
      cbv zeta. rewrite E1. cbn [obind]. rewrite E2. cbn [obind]. rewrite E3. cbn [obind]. rewrite E4. cbn [obind first_error].
      eexists. split; [reflexivity|]. cbn. split; [exact H3|]. split; [exact H4|]. split; [lia|intros _; lia].
    + destruct (End s2 H2) as (e2 & s3 & -> & H3 & L3). cbn [obind]. apply Err; [exact H3|lia].
  - destruct (r_skip _ _ _ _ K M fuel STRUCT M s1 H1 ltac:(lia)) as (e2 & s2 & E2 & H2 & L2).
    unfold skip_default. rewrite E2. cbn [obind].
    destruct (End s2 H2) as (e3 & s3 & -> & H3 & L3). cbn [obind]. apply Err; [exact H3|lia].
Qed.

Lemma pt_loop : forall stopped rounds n h si so, Inv si -> okw so -> (2 * mu si + 2 <= fuel)%nat -> (mu si < rounds)%nat ->
  exists h' si' so', serve_loop x M cf fuel errtext handle fs stopped R W flush rounds n h si so = Ok (h', si', so').
Proof.
  intros stopped. induction rounds as [|rounds IH]; intros n h si so Hs Ho Lf Lr; [lia|].
  destruct (pt_process h si so Hs Ho Lf) as (p & E & Hp & Hop & Lp & St). cbn [serve_loop]. rewrite E. cbn [obind].
  destruct (ends (stopped n) p) eqn:En; [eauto|].
  assert (Sc : p_success p = true).
  { revert En. unfold ends. destruct (p_err p); [destruct (stopped n); cbn|]; destruct (p_success p); cbn; congruence. }
  specialize (St Sc). apply IH; [exact Hp|exact Hop|lia|lia].
Qed.
End Loop.

(** ** TBinaryProtocol and TJSONProtocol return *)

Lemma bMsg_mono : forall strict r, exists nm t q e r',
  bReadMessageBegin strict r = Ok ((nm, t, q), e, r') /\ (length (content r') <= length (content r))%nat /\
  (nm <> [] -> (length (content r') < length (content r))%nat).
Proof.
  intros strict r.
  assert (A : exists n e r1, bReadI32 r = Ok (n, e, r1) /\ (length (content r1) <= length (content r))%nat /\
    (n <> 0 -> (length (content r1) < length (content r))%nat)).
  { unfold bReadI32. destruct (b_readAll_mono 4 r) as (buf & e & r1 & d & -> & C & P & L). cbn [obind].
    eexists _, _, _. split; [reflexivity|]. rewrite C, app_length. split; [lia|]. intro N. destruct d; [|cbn; lia].
    subst buf. destruct N. reflexivity. }
  destruct A as (n & e & r1 & E & L1 & S1). unfold bReadMessageBegin. rewrite E. cbn [obind].
  destruct e as [e|]; [eexists _, _, _, _, _; split; [reflexivity|]; split; [exact L1|congruence]|].
  destruct (Z.ltb_spec n 0).
  - cbv zeta. destruct (negb _); [eexists _, _, _, _, _; split; [reflexivity|]; split; [exact L1|congruence]|].
    specialize (S1 ltac:(lia)). destruct (bString_mono r1) as (s & e & r2 & -> & L2). cbn [obind].
    destruct e as [e|]; [eexists _, _, _, _, _; split; [reflexivity|]; split; [lia|intros _; lia]|].
    destruct (bReadI32_mono r2) as (q & e & r3 & -> & L3). cbn [obind].
    eexists _, _, _, _, _; split; [reflexivity|]; split; [lia|intros _; lia].
  - destruct strict; [eexists _, _, _, _, _; split; [reflexivity|]; split; [exact L1|congruence]|].
    destruct (Z.eq_dec n 0) as [->|N].
    + change (bReadStringBody 0 r1) with (let '(_, buf, e, r') := read_all 0 r1 in Ok (buf, protocol_exc_from_os e, r')).
      destruct (read_all 0 r1) as [[[c buf] e] r2] eqn:Ra. pose proof (read_all_any _ _ _ _ _ _ Ra) as (d & D1 & D2 & D3 & _).
      destruct d; [|cbn in D3; lia]. change (pad 0 []) with (@nil Z) in D2. subst buf.
      cbn [obind]. rewrite D1 in L1. cbn [app] in L1.
      destruct (protocol_exc_from_os e) as [e'|]; [eexists _, _, _, _, _; split; [reflexivity|]; split; [exact L1|congruence]|].
      destruct (bReadByte_mono r2) as (b & e3 & r3 & -> & L3 & _). cbn [obind].
      destruct e3 as [e3|]; [eexists _, _, _, _, _; split; [reflexivity|]; split; [lia|congruence]|].
      destruct (bReadI32_mono r3) as (q & e4 & r4 & -> & L4). cbn [obind].
      eexists _, _, _, _, _; split; [reflexivity|]; split; [lia|congruence].
    + specialize (S1 N). destruct (body_mono n r1) as (s & e & r2 & -> & L2). cbn [obind].
      destruct e as [e|]; [eexists _, _, _, _, _; split; [reflexivity|]; split; [lia|intros _; lia]|].
      destruct (bReadByte_mono r2) as (b & e3 & r3 & -> & L3 & _). cbn [obind].
      destruct e3 as [e3|]; [eexists _, _, _, _, _; split; [reflexivity|]; split; [lia|intros _; lia]|].
      destruct (bReadI32_mono r3) as (q & e4 & r4 & -> & L4). cbn [obind].
      eexists _, _, _, _, _; split; [reflexivity|]; split; [lia|intros _; lia].
Qed.
Lemma returning_binary : forall strict, returning (binaryR strict) (fun _ => True) (fun r => length (content r)) false.
Proof.
  intro strict. constructor.
  - intros A c s Hk Hb _.
    assert (G : forall A (m : rop rt A) s, (exists a e r', m s = Ok (a, e, r') /\ (length (content r') <= length (content s))%nat) ->
      kt (fun _ => True) (fun r => length (content r)) (length (content s)) (m s)).
    { intros A0 m s0 (a & e & r' & E & L). exists (a, e), r'. split; [exact E|]. split; [exact I|exact L]. }
    specialize (Hb eq_refl).
    destruct c; cbn [ReadProg.call binaryR rMessageBegin rMessageEnd rStructBegin rStructEnd rFieldBegin rFieldEnd
      rMapBegin rMapEnd rListBegin rListEnd rSetBegin rSetEnd rBool rByte rI16 rI32 rI64 rDouble rString rBinary];
      try (destruct Hk; exact I); try (destruct Hb; exact I);
      try (eexists _, _; split; [reflexivity|]; split; [exact I|lia]); apply G.
    + destruct (bMsg_mono strict s) as (nm & t & q & e & r' & E & L & _). eauto.
    + destruct (bField_mono s) as (? & ? & ? & ? & ? & E & L & _). eauto.
    + destruct (bMap_mono s) as (? & ? & ? & ? & ? & E & L & _). eauto.
    + destruct (bList_mono s) as (? & ? & ? & ? & E & L & _). eauto.
    + rewrite set_list. destruct (bList_mono s) as (? & ? & ? & ? & E & L & _). eauto.
    + apply bReadBool_mono.
    + destruct (bReadByte_mono s) as (? & ? & ? & E & L & _). eauto.
    + apply bReadI16_mono.
    + apply bReadI32_mono.
    + apply (fixed_mono _ 8 (fun b => wraps 64 (be_uint64 b))).
    + apply (fixed_mono _ 8 be_uint64).
    + apply bString_mono.
  - intros s nm t i e s' _ E Nt. destruct (bField_mono s) as (? & ? & ? & ? & ? & E' & _ & L).
    change (rFieldBegin (binaryR strict)) with bReadFieldBegin in E. rewrite E' in E. injection E as -> -> -> -> ->. apply L, Nt.
  - intros s nm t i s' _ E Nn. destruct (bMsg_mono strict s) as (? & ? & ? & ? & ? & E' & _ & L).
    change (rMessageBegin (binaryR strict)) with (bReadMessageBegin strict) in E. rewrite E' in E. injection E as -> -> -> -> ->.
    apply L, Nn.
  - intros M f t d s _ L. destruct (skip_binary_term strict M f t d s L) as (e & r' & E & L').
    exists e, r'. split; [exact E|]. split; [exact I|exact L'].
Qed.

Lemma returning_json : forall J, returning (jsonR J) (SI True) srem true.
Proof.
  intro J. constructor.
  - intros A c s Hk _ Hs. destruct (proj1 (json_calls_ret True J A c Hk (fun _ => I)) s Hs) as (a & e & s' & E & H1 & L).
    exists (a, e), s'. auto.
  - intros s nm t i e s' Hs E Nt. eapply (j_field_strict True); [exact Hs|exact E|exact Nt].
  - intros s nm t i s' Hs E Nn. change (rMessageBegin (jsonR J) s) with (jReadMessageBegin J s) in E. unfold jReadMessageBegin in E.
    destruct (list_begin_ret True s Hs) as (v & e1 & s1 & E1 & S1 & R1). rewrite E1 in E; cbn [obind] in E.
    destruct v; [injection E; congruence|]. destruct e1; [injection E; congruence|].
    pose proof (list_begin_strict True _ _ _ _ Hs E1 (conj eq_refl eq_refl)) as X1.
    destruct (i32_ret True J s1 S1) as (v & e2 & s2 & E2 & S2 & R2). rewrite E2 in E; cbn [obind] in E.
    destruct e2; [injection E; congruence|]. destruct (v =? 1); [|unfold bad_data in E; injection E; congruence].
    unfold read_envelope in E.
    destruct (string_ret True s2 S2) as (n & e3 & s3 & E3 & S3 & R3). rewrite E3 in E; cbn [obind] in E.
    destruct e3; [injection E; congruence|].
    destruct (byte_ret True J s3 S3) as (ty & e4 & s4 & E4 & S4 & R4). rewrite E4 in E; cbn [obind] in E.
    destruct e4; [injection E; congruence|].
    destruct (i32_ret True J s4 S4) as (sq & e5 & s5 & E5 & S5 & R5). rewrite E5 in E; cbn [obind] in E.
    injection E as _ _ _ _ <-. lia.
  - intros M f t d s Hs L. destruct (proj1 (json_skip_ret True I J M f t d s Hs L)) as (e & s' & E & H1 & L1).
    exists e, s'. auto.
Qed.

Lemma plain_safe : forall t, plain t -> safe false t.
Proof. intros t P. induction P; constructor; auto. Qed.
Lemma flat_safe : forall t, flat t -> safe true t.
Proof. intros t P. induction P; constructor; auto. Qed.

(** ** C120 *)

(** The reader generated for a type without containers (over TBinaryProtocol: nor binary) returns a value or an error
    on every input, having read on in it, within a number of calls bounded by the length of the input. *)
Theorem C120_read : forall t,
  (plain t -> forall strict x M cf f (r : rt), (2 * length (content r) + 2 <= f)%nat ->
     exists v r', gread (binaryR strict) x M cf f t r = Ok (v, r') /\ (length (content r') <= length (content r))%nat) /\
  (flat t -> forall J x M cf f (r : rt), clean r -> (2 * length (content r) + 2 <= f)%nat ->
     exists v s', gread (jsonR J) x M cf f t (json_r r) = Ok (v, s')).
Proof.
  intro t. split.
  - intros P strict x M cf f r L.
    destruct (proj1 (kt_gread _ _ _ _ (returning_binary strict) M x cf f) t (plain_safe t P) r I L) as (v & r' & E & _ & L').
    exists v, r'. auto.
  - intros P J x M cf f r C L. destruct (fresh_SI True r (fun _ => C)) as (_ & S2 & _ & R2).
    destruct (proj1 (kt_gread _ _ _ _ (returning_json J) M x cf f) t (flat_safe t P) (json_r r) S2) as (v & s' & E & _); [lia|]. eauto.
Qed.
Print Assumptions C120_read.

Definition handled {H} (x : ext) (fuel : nat) (handle : H -> bytes -> list any -> (list (Z * any) * option bytes) * H) fs : Prop :=
  forall f h vals attrs h', In f fs -> handle h (fn_name f) vals = ((attrs, None), h') ->
     if fn_oneway f then (2 <= fuel)%nat
     else exists rf, reply x f attrs rf /\ (need (VStruct rf) <= fuel)%nat.

Section BinaryWriter.
Context {H : Type}.
Variable strictW : bool.
Variable x : ext.
Variable M : Z.
Variable fuel : nat.
Variable handle : H -> bytes -> list any -> (list (Z * any) * option bytes) * H.
Variable fs : list func.
Hypothesis Fok : forall f, In f fs -> func_ok f.
Hypothesis Rok : handled x fuel handle fs.
Definition okb (s : wt) : Prop := exists o, s = MkWt o [].
Lemma bexc_ok : forall name seq e so, okb so -> exists so', write_exception (binaryW strictW) nop name seq e so = Ok so' /\ okb so'.
Proof.
  intros name seq e so (o & ->). destruct (write_exception_ok (binaryW strictW) nop bow bow sb_val (bmsg strictW) []
      (fun _ _ => True) (fun _ => True) (bow_exc strictW) (bow_msg strictW) bow_end bow_nop
      name seq e (MkWt o []) o I I eq_refl) as (so' & E4 & Ho). exists so'. split; [exact E4|]. eexists. exact Ho.
Qed.
Lemma bres_ok : forall f h vals attrs h' seq so, In f fs -> handle h (fn_name f) vals = ((attrs, None), h') -> okb so ->
  exists o1 o2 o3 o4, wMessageBegin (binaryW strictW) (fn_name f) REPLY seq so = Ok (None, o1) /\
    gwrite_result (binaryW strictW) x fuel (result_name f) (result_members f) (if fn_oneway f then init_attrs (result_members f) else attrs) o1 =
      Ok (None, o2) /\
    wMessageEnd (binaryW strictW) o2 = Ok (None, o3) /\ nop o3 = Ok (None, o4) /\ okb o4.
Proof.
  intros f h vals attrs h' seq so Hf Eh (o & ->). pose proof (Rok f h vals attrs h' Hf Eh) as Rk.
  destruct (bow_msg strictW (fn_name f) REPLY seq (MkWt o []) o ltac:(auto) I eq_refl) as (o1 & E1 & H1).
  assert (Hr : exists o2 b, gwrite_result (binaryW strictW) x fuel (result_name f) (result_members f)
            (if fn_oneway f then init_attrs (result_members f) else attrs) o1 = Ok (None, o2) /\ bow o2 b).
  { destruct (fn_oneway f) eqn:One.
    - destruct (empty_result_ok (binaryW strictW) nop (fun s => s) x M fuel handle true true bow bow (fun _ : rt => fun _ => True) (fun _ _ => True) sb_val
        (bmsg strictW) [] (fun _ _ => True) (fun _ => True) func_ok (fun _ => True)
        (bow_val strictW) (bow_exc strictW) (bow_msg strictW) bow_end bow_nop f (result_name f)
        (init_attrs (result_members f)) o1 _ (Fok f Hf) One Rk H1) as (o2 & G & G'). eauto.
    - destruct Rk as (rf & Hr & Nf).
      destruct (write_result_ok (binaryW strictW) nop (fun s => s) x M fuel handle true true bow bow (fun _ : rt => fun _ => True) (fun _ _ => True) sb_val
        (bmsg strictW) [] (fun _ _ => True) (fun _ => True) func_ok (fun _ => True)
        (bow_val strictW) (bow_exc strictW) (bow_msg strictW) bow_end bow_nop f attrs rf (result_name f) o1 _
        (Fok f Hf) Hr ltac:(intros m Hm D; discriminate) Nf H1) as (o2 & G & G'). eauto. }
  destruct Hr as (o2 & b & E2 & H2). exists o1, o2, o2, o2. split; [exact E1|]. split; [exact E2|].
  split; [reflexivity|]. split; [reflexivity|]. exists b. exact H2.
Qed.
End BinaryWriter.

(** Process over TBinaryProtocol, of a service without containers and binary in its arguments: every input (any bytes,
    in any pieces, with any errors) is answered.  If the header can be read, exactly one message is written, as in C44;
    otherwise Process reports the header's error and writes nothing. *)
Theorem C120_process : forall H strict strictW x M cf fuel errtext
    (handle : H -> bytes -> list any -> (list (Z * any) * option bytes) * H) fs h (r : rt) o,
  (forall f, In f fs -> func_ok f) -> (forall f m, In f fs -> In m (fn_args f) -> plain (m_ty m)) ->
  (forall f, In f fs -> fn_name f <> []) -> handled x fuel handle fs -> (2 * length (content r) + 2 <= fuel)%nat ->
  exists p, process (binaryR strict) (binaryW strictW) nop x M cf fuel errtext handle fs h r (MkWt o []) = Ok p /\
  match bReadMessageBegin strict r with
  | Ok ((name, _, seq), None, _) =>
    exists mt body, answered x errtext handle fs h name mt body (p_h p) (p_success p) /\
      p_out p = MkWt (o ++ bmsg strictW name mt seq ++ sb_val (VStruct body)) []
  | Ok (_, Some e, _) =>
    p_success p = false /\ p_err p = Some (RErr e) /\ p_h p = h /\ p_out p = MkWt o []
  | _ => False
  end.
Proof.
  intros H strict strictW x M cf fuel errtext handle fs h r o Fok Pl Nm Rok Lf.
  destruct (pt_process _ _ _ _ (returning_binary strict) (binaryW strictW) nop x M cf fuel errtext handle fs okb
    (bexc_ok strictW) (bres_ok strictW x M fuel handle fs Fok Rok) (fun f m Hf Hm => plain_safe _ (Pl f m Hf Hm)) Nm
    h r (MkWt o []) I (ex_intro _ o eq_refl) Lf) as (p & E & _).
  exists p. split; [exact E|]. eapply C44_binary_partial; eassumption.
Qed.
Print Assumptions C120_process.

(** A connection to a server of such a service, plain, comes to an end on every input; what it has sent is a sequence of
    answers, as in C104. *)
Theorem C120_server : forall H intw ir iw sr sw x M cf fuel errtext
    (handle : H -> bytes -> list any -> (list (Z * any) * option bytes) * H) fs stopped rounds h (r : rt),
  (forall f, In f fs -> func_ok f) -> (forall f m, In f fs -> In m (fn_args f) -> plain (m_ty m)) ->
  (forall f, In f fs -> fn_name f <> []) -> handled x fuel handle fs ->
  (2 * length (content r) + 2 <= fuel)%nat -> (length (content r) < rounds)%nat ->
  exists h' b out,
    processRequest x M cf fuel errtext handle fs stopped intw (MkTServer TFPlain TFPlain (PFBinary ir iw) (PFBinary sr sw)) rounds h r =
      Ok (h', b) /\
    only_answers x errtext handle fs h out h' /\ b = concat (map (told (PFBinary sr sw)) out).
Proof.
  intros H intw ir iw sr sw x M cf fuel errtext handle fs stopped rounds h r Fok Pl Nm Rok Lf Lr.
  destruct (pt_loop _ _ _ _ (returning_binary ir) (binaryW sw) nop x M cf fuel errtext handle fs okb
    (bexc_ok sw) (bres_ok sw x M fuel handle fs Fok Rok) (fun f m Hf Hm => plain_safe _ (Pl f m Hf Hm)) Nm
    stopped rounds 0%nat h r (MkWt [] []) I (ex_intro _ [] eq_refl) Lf Lr) as (h' & si' & so' & E).
  assert (P : exists b, processRequest x M cf fuel errtext handle fs stopped intw
    (MkTServer TFPlain TFPlain (PFBinary ir iw) (PFBinary sr sw)) rounds h r = Ok (h', b)).
  { unfold processRequest. cbn [sv_in_t sv_out_t sv_in_p sv_out_p].
    match goal with |- context [serve_loop ?a ?b ?c ?d ?e ?f ?g ?h ?i ?j ?k ?l ?m ?n ?o ?p] =>
      change (serve_loop a b c d e f g h i j k l m n o p) with
        (serve_loop x M cf fuel errtext handle fs stopped (binaryR ir) (binaryW sw) nop rounds 0 n r (MkWt [] [])) end.
    rewrite E. cbn [obind]. eauto. }
  destruct P as (b & P). exists h', b.
  destruct (C104_only_answers_partial H intw (MkTServer TFPlain TFPlain (PFBinary ir iw) (PFBinary sr sw)) sr sw x M cf fuel
    errtext handle fs stopped rounds h r h' b eq_refl Fok Rok P) as (out & A & B).
  exists out. split; [exact P|]. split; [exact A|]. exact B.
Qed.
Print Assumptions C120_server.

(** *** Over TJSONProtocol *)
Section JsonWriter.
Context {H : Type}.
Variable J : jenv.
Variable x : ext.
Variable M : Z.
Variable fuel : nat.
Variable handle : H -> bytes -> list any -> (list (Z * any) * option bytes) * H.
Variable fs : list func.
Hypothesis Fok : forall f, In f fs -> func_ok f.
Hypothesis Rok : handled x fuel handle fs.
Hypothesis Nb : forall f m, In f fs -> In m (result_members f) -> no_binary (m_ty m).
Definition okj (s : jw) : Prop := exists o, s = json_w (MkWt o []).
Lemma jexc_ok : forall name seq e so, okj so -> exists so', write_exception (jsonW J) nop name seq e so = Ok so' /\ okj so'.
Proof.
  intros name seq e so (o & ->). destruct (write_exception_ok (jsonW J) nop jow jow' (jenc J) (message_text J) [93]
      (fun _ _ => True) (fun _ => True) (jow_exc_any J)
      (fun name t seq s o Ht _ => jow_msg J name t seq s o Ht I) (jow_end J) jow_nop
      name seq e (json_w (MkWt o [])) o I I eq_refl) as (so' & E4 & Ho). exists so'. split; [exact E4|]. eexists. exact Ho.
Qed.
Lemma jres_ok : forall f h vals attrs h' seq so, In f fs -> handle h (fn_name f) vals = ((attrs, None), h') -> okj so ->
  exists o1 o2 o3 o4, wMessageBegin (jsonW J) (fn_name f) REPLY seq so = Ok (None, o1) /\
    gwrite_result (jsonW J) x fuel (result_name f) (result_members f) (if fn_oneway f then init_attrs (result_members f) else attrs) o1 =
      Ok (None, o2) /\
    wMessageEnd (jsonW J) o2 = Ok (None, o3) /\ nop o3 = Ok (None, o4) /\ okj o4.
Proof.
  intros f h vals attrs h' seq so Hf Eh (o & ->). pose proof (Rok f h vals attrs h' Hf Eh) as Rk.
  destruct (jow_msg J (fn_name f) REPLY seq (json_w (MkWt o [])) o ltac:(auto) I eq_refl) as (o1 & E1 & J1).
  assert (Hr : exists o2 b, gwrite_result (jsonW J) x fuel (result_name f) (result_members f)
            (if fn_oneway f then init_attrs (result_members f) else attrs) o1 = Ok (None, o2) /\ jow' o2 b).
  { destruct (fn_oneway f) eqn:One.
    - destruct (empty_result_ok (jsonW J) nop (fun s => s) x M fuel handle false true jow jow' (fun _ : rt => fun _ => True) (fun _ _ => True) (jenc J)
        (message_text J) [93] (fun _ _ => True) (fun _ => True) func_ok (fun _ => True)
        (jow_val J) (jow_exc_any J) (fun name t seq s o Ht _ => jow_msg J name t seq s o Ht I) (jow_end J) jow_nop f (result_name f)
        (init_attrs (result_members f)) o1 _ (Fok f Hf) One Rk J1) as (o2 & G & G'). eauto.
    - destruct Rk as (rf & Hr & Nf).
      destruct (write_result_ok (jsonW J) nop (fun s => s) x M fuel handle false true jow jow' (fun _ : rt => fun _ => True) (fun _ _ => True) (jenc J)
        (message_text J) [93] (fun _ _ => True) (fun _ => True) func_ok (fun _ => True)
        (jow_val J) (jow_exc_any J) (fun name t seq s o Ht _ => jow_msg J name t seq s o Ht I) (jow_end J) jow_nop f attrs rf (result_name f) o1 _
        (Fok f Hf) Hr ltac:(intros m Hm _; eapply Nb; eassumption) Nf J1) as (o2 & G & G'). eauto. }
  destruct Hr as (o2 & b & E2 & J2). destruct (jow_end J o2 b J2) as (o3 & E3 & J3).
  exists o1, o2, o3, o3. split; [exact E1|]. split; [exact E2|]. split; [exact E3|]. split; [reflexivity|]. eexists. exact J3.
Qed.
End JsonWriter.

(** The same over TJSONProtocol, for arguments without containers and results without binary, unless an error comes
    together with data. *)
Theorem C120_json_process : forall H J x M cf fuel errtext
    (handle : H -> bytes -> list any -> (list (Z * any) * option bytes) * H) fs h (r : rt) o,
  (forall f, In f fs -> func_ok f) -> (forall f m, In f fs -> In m (fn_args f) -> flat (m_ty m)) ->
  (forall f m, In f fs -> In m (result_members f) -> no_binary (m_ty m)) ->
  (forall f, In f fs -> fn_name f <> []) -> handled x fuel handle fs -> (2 * length (content r) + 2 <= fuel)%nat -> clean r ->
  exists p, process (jsonR J) (jsonW J) nop x M cf fuel errtext handle fs h (json_r r) (json_w (MkWt o [])) = Ok p /\
  match jReadMessageBegin J (json_r r) with
  | Ok ((name, _, seq), None, _) =>
    exists mt body, answered x errtext handle fs h name mt body (p_h p) (p_success p) /\
      p_out p = json_w (MkWt (o ++ jmsg J name mt seq (VStruct body)) [])
  | Ok (_, Some e, _) =>
    p_success p = false /\ p_err p = Some (RErr e) /\ p_h p = h /\ p_out p = json_w (MkWt o [])
  | _ => False
  end.
Proof.
  intros H J x M cf fuel errtext handle fs h r o Fok Pl Nb Nm Rok Lf C.
  destruct (fresh_SI True r (fun _ => C)) as (_ & S2 & _ & R2).
  destruct (pt_process _ _ _ _ (returning_json J) (jsonW J) nop x M cf fuel errtext handle fs okj
    (jexc_ok J) (jres_ok J x M fuel handle fs Fok Rok Nb) (fun f m Hf Hm => flat_safe _ (Pl f m Hf Hm)) Nm
    h (json_r r) (json_w (MkWt o [])) S2 (ex_intro _ o eq_refl)) as (p & E & _); [lia|].
  exists p. split; [exact E|].
  assert (R1 : results_ok x fuel handle false true fs).
  { intros f h0 vals attrs h' Hf Eh. specialize (Rok f h0 vals attrs h' Hf Eh).
    destruct (fn_oneway f); [exact Rok|]. split; [|exact Rok]. intros m Hm _. eapply Nb; eassumption. }
  pose proof (process_once (jsonR J) (jsonW J) nop (fun s => s) x M cf fuel errtext handle false true
      jow jow' (fun _ _ => True) (fun _ _ => True) (jenc J) (message_text J) [93] (fun _ _ => True) (fun _ => True) func_ok (fun _ => True)
      (jow_val J) (jow_exc_any J) (fun name t seq s o Ht _ => jow_msg J name t seq s o Ht I) (jow_end J) jow_nop
      fs h (json_r r) (json_w (MkWt o [])) o p Fok R1 ltac:(repeat split) eq_refl E) as O.
  change (rMessageBegin (jsonR J) (json_r r)) with (jReadMessageBegin J (json_r r)) in O.
  destruct (jReadMessageBegin J (json_r r)) as [[[[[name t] seq] [e|]] s1]| |]; try exact O. exact (O I).
Qed.
Print Assumptions C120_json_process.

Theorem C120_json_server : forall H J x M cf fuel errtext
    (handle : H -> bytes -> list any -> (list (Z * any) * option bytes) * H) fs stopped rounds h (r : rt),
  (forall f, In f fs -> func_ok f) -> (forall f m, In f fs -> In m (fn_args f) -> flat (m_ty m)) ->
  (forall f m, In f fs -> In m (result_members f) -> no_binary (m_ty m)) ->
  (forall f, In f fs -> fn_name f <> []) -> handled x fuel handle fs -> clean r ->
  (2 * length (content r) + 2 <= fuel)%nat -> (length (content r) < rounds)%nat ->
  exists h' si' b,
    serve_loop x M cf fuel errtext handle fs stopped (jsonR J) (jsonW J) nop rounds 0 h (json_r r) (json_w (MkWt [] [])) =
      Ok (h', si', b).
Proof.
  intros H J x M cf fuel errtext handle fs stopped rounds h r Fok Pl Nb Nm Rok C Lf Lr.
  destruct (fresh_SI True r (fun _ => C)) as (_ & S2 & _ & R2).
  apply (pt_loop _ _ _ _ (returning_json J) (jsonW J) nop x M cf fuel errtext handle fs okj
    (jexc_ok J) (jres_ok J x M fuel handle fs Fok Rok Nb) (fun f m Hf Hm => flat_safe _ (Pl f m Hf Hm)) Nm
    stopped rounds 0%nat h (json_r r) (json_w (MkWt [] [])) S2 (ex_intro _ [] eq_refl)); lia.
Qed.
Print Assumptions C120_json_server.

(** *** The tutorial *)
Lemma calculator_named : forall f, In f calculator -> fn_name f <> [].
Proof. intros f Hf. repeat (destruct Hf as [<-|Hf]; [discriminate|]). destruct Hf. Qed.
Lemma calculator_no_binary : forall f m, In f calculator -> In m (result_members f) -> no_binary (m_ty m).
Proof.
  intros f m Hf. revert m. repeat (destruct Hf as [<-|Hf]; [intros m Hm; cbn in Hm; repeat (destruct Hm as [<-|Hm]; [cbn; repeat constructor|]); try destruct Hm|]);
    try destruct Hf.
  all: intros m Hm; cbn in Hm; repeat (destruct Hm as [<-|Hm]; [cbn; repeat constructor|]); try destruct Hm.
Qed.
(** Whatever is sent to the tutorial's server, over TBinaryProtocol or over TJSONProtocol, its connection comes to an end. *)
Theorem C120_tutorial : forall x M cf fuel errtext stopped rounds p (r : rt), orders x -> (8 <= fuel)%nat ->
  (2 * length (content r) + 2 <= fuel)%nat -> (length (content r) < rounds)%nat ->
  (forall intw ir iw sr sw, exists p' b out,
     processRequest x M cf fuel errtext safe_handle calculator stopped intw
       (MkTServer TFPlain TFPlain (PFBinary ir iw) (PFBinary sr sw)) rounds p r = Ok (p', b) /\
     only_answers x errtext safe_handle calculator p out p' /\ b = concat (map (told (PFBinary sr sw)) out)) /\
  (forall J, clean r -> exists p' si' b,
     serve_loop x M cf fuel errtext safe_handle calculator stopped (jsonR J) (jsonW J) nop rounds 0 p (json_r r)
       (json_w (MkWt [] [])) = Ok (p', si', b)).
Proof.
  intros x M cf fuel errtext stopped rounds p r Ox Hfu Lf Lr.
  assert (Rk : handled x fuel safe_handle calculator).
  { intros f h vals attrs h' Hf E. eapply safe_replies; eassumption. }
  split.
  - intros. apply C120_server; try assumption; [apply calculator_ok|apply calculator_plain|apply calculator_named].
  - intros J C. apply C120_json_server; try assumption;
      [apply calculator_ok|apply calculator_flat|apply calculator_no_binary|apply calculator_named].
Qed.
Print Assumptions C120_tutorial.

(** The hypotheses for the tutorial's service; garbage instead of the second of two calls. *)
Example C120_case :
  (forall f, In f calculator -> func_ok f) /\ (forall f m, In f calculator -> In m (fn_args f) -> plain (m_ty m)) /\
  (forall f, In f calculator -> fn_name f <> []) /\ handled ext0 400 safe_handle calculator /\
  (let r := [(bmsg true (lit "add") CALL 7 ++ sb_val (VStruct [(1, VI32 2); (2, VI32 3)]) ++
              bmsg true (lit "add") CALL 8 ++ [12; 0; 1; 15; 0; 2; 99; 255; 255; 255; 255; 0; 0; 14], None)] in
   (2 * length (content r) + 2 <= 400)%nat /\
   exists p', processRequest ext0 64 5 400 (fun _ => lit "err") safe_handle calculator (fun _ => false) 32
       (MkTServer TFPlain TFPlain (PFBinary true true) (PFBinary true true)) 100 [] r =
     Ok (p', told (PFBinary true true) (MkAnswer (lit "add") REPLY 7 [(0, VI32 5)]) ++
             told (PFBinary true true) (MkAnswer (lit "add") EXCEPTION 8 [(1, VStr (lit "err")); (2, VI32 7)]))).
Proof.
  split; [exact calculator_ok|]. split; [exact calculator_plain|]. split; [exact calculator_named|].
  split; [intros f h vals attrs h' Hf E; eapply safe_replies; [exact ext0_orders|lia|exact Hf|exact E]|].
  split; [vm_compute; lia|]. eexists. vm_compute. reflexivity.
Qed.
