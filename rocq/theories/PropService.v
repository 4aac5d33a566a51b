(** Properties of generated clients and processors: C44-C47. *)
From Coq Require Import ZArith List Bool Lia Permutation.
From Coq Require Import ZifyBool ZifyNat.
From Verif Require Import Base Errors Transport Proto Skip Arith Values Codec SkipProofs BinaryProofs BinarySpec Binary BinaryMsg
  TransportProofs Compact CompactSpec CompactProofs CompactRead CompactStruct CompactExact WfDec.
From Verif Require Import TField GoVal Compare TMap Gen GenSpec GenProofs GenInst GenRound PropGen.
From Verif Require Import AppExc AppExcProofs PropRpc Rpc RpcProofs.
Import ListNotations.
Open Scope Z_scope.

(** ** The two protocols as channels *)

(** Memory transports: the writer's holds what was written, flushing does nothing; the reader's
    delivers its content in pieces of any sizes. *)
Definition bow (s : wt) (o : bytes) : Prop := s = MkWt o [].
Definition bir (r : rt) (b : bytes) : Prop := benign r /\ content r = b.
Definition bmsg (strict : bool) : bytes -> Z -> Z -> bytes :=
  if strict then sb_message_strict else sb_message_old.
Definition cow (s : cw) (o : bytes) : Prop := exists c, s = (MkWt o [], c) /\ booleanField c = None.
Definition cir (s : cr) (b : bytes) : Prop :=
  benign (fst s) /\ content (fst s) = b /\ boolValueIsNotNull (snd s) = false.
Definition cokv (v : tval) : Prop := no_false_field v = true /\ ids_kept v = true.
Definition cokm (name : bytes) (seq : Z) : Prop := Z.of_nat (length name) < 2 ^ 31 /\ in_s 32 seq.

Lemma bow_val : forall strict v s o, wf v -> bow s o ->
  exists s', wr true (binaryW strict) v s s' /\ bow s' (o ++ sb_val v).
Proof.
  intros strict v s o Hw ->. exists (MkWt (o ++ sb_val v) []). split; [apply bwr_val, Hw|reflexivity].
Qed.
Lemma bow_exc : forall strict e s o, True -> bow s o ->
  exists s', app_write (binaryW strict) e s = Ok (None, s') /\ bow s' (o ++ sb_val (VStruct (exc_fields e))).
Proof.
  intros strict e s o _ ->. exists (MkWt (o ++ sb_val (VStruct (exc_fields e))) []). split; [|reflexivity].
  eapply app_write_wr. cbn [sb_val]. eapply wr_struct with (s2 := MkWt (o ++ concat
    (map (fun f => sb_field (vtype (snd f)) (fst f) ++ sb_val (snd f)) (exc_fields e))) []).
  - intros nm. reflexivity.
  - apply bwr_fields. intros f Hf. unfold exc_fields in Hf. apply in_app_iff in Hf.
    destruct Hf as [Hf|[<-|[]]].
    + destruct (x_msg e) as [|b m]; [destruct Hf|]. destruct Hf as [<-|[]]. cbn [snd]. intro q.
      apply wr_str; [apply (bw (bWriteString (b :: m))), benc_string|intros _; apply (bw (bWriteBinary (b :: m))), benc_binary].
    + cbn [snd]. intro q. apply wr_i32, (bw (bWriteI32 (x_type e))), benc_i32.
  - apply (bw bWriteFieldStop). apply benc_stop.
  - rewrite <- app_assoc. reflexivity.
Qed.
Lemma bow_msg : forall strict name t seq s o, t = CALL \/ t = REPLY \/ t = EXCEPTION -> True -> bow s o ->
  exists s', wMessageBegin (binaryW strict) name t seq s = Ok (None, s') /\ bow s' (o ++ bmsg strict name t seq).
Proof.
  intros strict name t seq s o Ht _ ->. exists (MkWt (o ++ bmsg strict name t seq) []). split; [|reflexivity].
  assert (0 <= t < 256) by (unfold CALL, REPLY, EXCEPTION in Ht; lia).
  change (wMessageBegin (binaryW strict)) with (bWriteMessageBegin strict).
  destruct strict; [apply (bw (bWriteMessageBegin true name t seq)), benc_message_strict|
                    apply (bw (bWriteMessageBegin false name t seq)), benc_message_old]; assumption.
Qed.
Lemma bow_end : forall s o, bow s o -> exists s', nop s = Ok (None, s') /\ bow s' (o ++ []).
Proof. intros s o H. exists s. split; [reflexivity|]. rewrite app_nil_r. exact H. Qed.
Lemma bow_nop : forall s o, bow s o -> exists s', nop s = Ok (None, s') /\ bow s' o.
Proof. intros s o H. exists s. split; [reflexivity|exact H]. Qed.

(** ** C44 *)

(** Every request, well-formed or not, that the processor gets through without a panic: if its
    header can be read, exactly one message is added to the output, under the name and sequence
    id of the request, and of the kind [answered] gives: REPLY with what the handler returned,
    EXCEPTION for a handler's error, an unknown method or malformed arguments.  If the header
    cannot be read nothing is written.  Missing: requests on which the processor panics, see
    below; handlers whose results generated code cannot write. *)
Theorem C44_binary_partial : forall H strict strictW x M cf fuel errtext
    (handle : H -> bytes -> list any -> (list (Z * any) * option bytes) * H) fs h si o p,
  (forall f, In f fs -> func_ok f) ->
  (forall f h vals attrs h', In f fs -> handle h (fn_name f) vals = ((attrs, None), h') ->
     if fn_oneway f then (2 <= fuel)%nat
     else exists rf, reply x f attrs rf /\ (need (VStruct rf) <= fuel)%nat) ->
  process (binaryR strict) (binaryW strictW) nop x M cf fuel errtext handle fs h si (MkWt o []) = Ok p ->
  match bReadMessageBegin strict si with
  | Ok ((name, _, seq), None, _) =>
    exists mt body, answered x errtext handle fs h name mt body (p_h p) (p_success p) /\
      p_out p = MkWt (o ++ bmsg strictW name mt seq ++ sb_val (VStruct body)) []
  | Ok (_, Some e, _) =>
    p_success p = false /\ p_err p = Some (RErr e) /\ p_h p = h /\ p_out p = MkWt o []
  | _ => False
  end.
Proof.
  intros H strict strictW x M cf fuel errtext handle fs h si o p Fok Rok Hp.
  pose proof (process_once (binaryR strict) (binaryW strictW) nop (fun s => s) x M cf fuel errtext handle true true
    bow bow bir bir sb_val (bmsg strictW) [] (fun _ _ => True) (fun _ => True) func_ok (fun _ => True)
    (bow_val strictW) (bow_exc strictW) (bow_msg strictW) bow_end bow_nop fs h si (MkWt o []) o p Fok) as Q.
  change (rMessageBegin (binaryR strict) si) with (bReadMessageBegin strict si) in Q.
  assert (R1 : results_ok x fuel handle true true fs).
  { intros f h0 vals attrs h' Hf Eh. specialize (Rok f h0 vals attrs h' Hf Eh).
    destruct (fn_oneway f); [exact Rok|]. split; [|exact Rok]. intros m Hm D. discriminate. }
  specialize (Q R1 ltac:(repeat split) eq_refl Hp).
  destruct (bReadMessageBegin strict si) as [[[[[name t] seq] [e|]] s1]| |]; try exact Q.
  destruct (Q I) as (mt & body & A & B). rewrite app_nil_r in B. exists mt, body. split; [exact A|exact B].
Qed.
Print Assumptions C44_binary_partial.

Lemma cow_val : forall v s o, wf v -> cow s o ->
  exists s', wr false compactW v s s' /\ cow s' (o ++ sc_val v).
Proof.
  intros v s o Hw ([stk last bf bv nn] & -> & E). cbn in E. subst bf.
  eexists. split; [apply cwr_val, Hw|]. eexists. split; [reflexivity|reflexivity].
Qed.
Lemma cow_exc : forall e s o, exc_ok e -> cow s o ->
  exists s', app_write compactW e s = Ok (None, s') /\ cow s' (o ++ sc_val (VStruct (exc_fields e))).
Proof.
  intros e s o Ke Ho. destruct (cow_val _ s o (exc_wf e Ke) Ho) as (s' & Hw & Ho').
  exists s'. split; [eapply app_write_wr, Hw|exact Ho'].
Qed.
Lemma cow_msg : forall name t seq s o, t = CALL \/ t = REPLY \/ t = EXCEPTION -> cokm name seq -> cow s o ->
  exists s', wMessageBegin compactW name t seq s = Ok (None, s') /\ cow s' (o ++ sc_message name t seq).
Proof.
  intros name t seq s o Ht [Kn Ks] (c & -> & E).
  assert (0 <= t < 8) by (unfold CALL, REPLY, EXCEPTION in Ht; lia).
  eexists. split; [apply (cwx (cWriteMessageBegin name t seq)), cenc_message; assumption|].
  exists c. auto.
Qed.
Lemma cow_end : forall s o, cow s o -> exists s', nop s = Ok (None, s') /\ cow s' (o ++ []).
Proof. intros s o H. exists s. split; [reflexivity|]. rewrite app_nil_r. exact H. Qed.
Lemma cow_nop : forall s o, cow s o -> exists s', nop s = Ok (None, s') /\ cow s' o.
Proof. intros s o H. exists s. split; [reflexivity|exact H]. Qed.

(** The same with the compact protocol, for services whose results have no binary members
    (those it does not write, C48).  Names and texts fit Go's int32 lengths. *)
Theorem C44_compact_partial : forall H x M cf fuel errtext
    (handle : H -> bytes -> list any -> (list (Z * any) * option bytes) * H) fs h si c o p,
  (forall f, In f fs -> func_ok f) ->
  (forall f h vals attrs h', In f fs -> handle h (fn_name f) vals = ((attrs, None), h') ->
     if fn_oneway f then (2 <= fuel)%nat
     else (forall m, In m (result_members f) -> no_binary (m_ty m)) /\
          exists rf, reply x f attrs rf /\ (need (VStruct rf) <= fuel)%nat) ->
  (forall f h vals attrs text h', In f fs -> handle h (fn_name f) vals = ((attrs, Some text), h') ->
     exc_ok (MkExc INTERNAL_ERROR (s_internal ++ fn_name f ++ s_colon ++ text))) ->
  (forall e, exc_ok (MkExc PROTOCOL_ERROR (errtext e))) ->
  booleanField c = None ->
  process compactR compactW nop x M cf fuel errtext handle fs h si (MkWt o [], c) = Ok p ->
  match cReadMessageBegin si with
  | Ok ((name, _, seq), None, _) =>
    in_s 32 seq -> exc_ok (MkExc UNKNOWN_METHOD (s_unknown ++ name)) ->
    exists mt body, answered x errtext handle fs h name mt body (p_h p) (p_success p) /\
      w_out (fst (p_out p)) = o ++ sc_message name mt seq ++ sc_val (VStruct body)
  | Ok (_, Some e, _) =>
    p_success p = false /\ p_err p = Some (RErr e) /\ p_h p = h /\ p_out p = (MkWt o [], c)
  | _ => False
  end.
Proof.
  intros H x M cf fuel errtext handle fs h si c o p Fok Rok Tok Eok Bf Hp.
  set (okm := fun name seq => cokm name seq /\ exc_ok (MkExc UNKNOWN_METHOD (s_unknown ++ name))).
  pose proof (process_once compactR compactW nop (fun s => s) x M cf fuel errtext handle false true
    cow cow cir cir sc_val sc_message [] okm exc_ok func_ok (fun _ => True)
    cow_val cow_exc (fun name t seq s o Ht Km => cow_msg name t seq s o Ht (proj1 Km)) cow_end cow_nop
    fs h si (MkWt o [], c) o p Fok) as Q.
  change (rMessageBegin compactR si) with (cReadMessageBegin si) in Q.
  assert (R1 : results_ok x fuel handle false true fs).
  { intros f h0 vals attrs h' Hf Eh. specialize (Rok f h0 vals attrs h' Hf Eh).
    destruct (fn_oneway f); [exact Rok|]. split; [|apply Rok]. intros m Hm _. apply Rok, Hm. }
  assert (T1 : texts_ok errtext handle okm exc_ok fs).
  { split; [exact Eok|]. split; [intros name seq [_ K]; exact K|exact Tok]. }
  specialize (Q R1 T1 ltac:(exists c; auto) Hp).
  destruct (cReadMessageBegin si) as [[[[[name t] seq] [e|]] s1]| |]; try exact Q.
  intros Ks Ke. destruct Q as (mt & body & A & (c' & B & _)).
  { split; [|exact Ke]. split; [|exact Ks]. destruct Ke as (_ & _ & L). cbn [x_msg] in L.
    rewrite app_length in L. lia. }
  rewrite app_nil_r in B. exists mt, body. split; [exact A|]. rewrite B. reflexivity.
Qed.
Print Assumptions C44_compact_partial.

(** The reading side. *)
Lemma bir_msg : forall strict strictW name t seq s rest, strictW = true \/ strict = false ->
  t = CALL \/ t = REPLY \/ t = EXCEPTION -> cokm name seq ->
  bir s (bmsg strictW name t seq ++ rest) ->
  exists s', rMessageBegin (binaryR strict) s = Ok ((name, t, seq), None, s') /\ bir s' rest.
Proof.
  intros strict strictW name t seq s rest Hst Ht [Kn Ks] [B X].
  assert (T : 0 <= t < 256) by (unfold CALL, REPLY, EXCEPTION in Ht; lia).
  change (rMessageBegin (binaryR strict)) with (bReadMessageBegin strict).
  destruct strictW.
  - destruct (bdec_inv _ _ _ _ (message_strict_dec strict name t seq T Kn Ks) s rest B X) as (s' & E & B' & X').
    exists s'. split; [exact E|split; assumption].
  - destruct Hst as [D|D]; [discriminate|]. subst strict.
    destruct (bdec_inv _ _ _ _ (message_old_dec name t seq T Kn Ks) s rest B X) as (s' & E & B' & X').
    exists s'. split; [exact E|split; assumption].
Qed.
Definition bir_msg' strict strictW Hst name t seq (v : tval) s rest Ht Km (_ : wf v) (_ : True) :=
  bir_msg strict strictW name t seq s (sb_val v ++ rest) Hst Ht Km.
Lemma bir_val : forall strict v s rest, wf v -> True -> bir s (sb_val v ++ rest) ->
  exists s', rd true (binaryR strict) (ue false v) s s' /\ bir s' rest.
Proof.
  intros strict v s rest Hw _ [B X]. destruct (brd_val strict v Hw s rest B X) as (s' & Rd & B' & X').
  exists s'. split; [exact Rd|split; assumption].
Qed.
Lemma bir_end : forall strict s b, True -> bir s b -> exists s', rMessageEnd (binaryR strict) s = Ok (None, s') /\ bir s' b.
Proof. intros strict s b _ Hb. exists s. split; [reflexivity|exact Hb]. Qed.
Lemma cir_msg : forall name t seq s rest,
  t = CALL \/ t = REPLY \/ t = EXCEPTION -> cokm name seq ->
  cir s (sc_message name t seq ++ rest) ->
  exists s', rMessageBegin compactR s = Ok ((name, t, seq), None, s') /\ cir s' rest.
Proof.
  intros name t seq [r c] rest Ht [Kn Ks] (B & X & N). cbn [fst snd] in *.
  assert (T : 0 <= t < 8) by (unfold CALL, REPLY, EXCEPTION in Ht; lia).
  destruct (crd_message c name t seq T Ks Kn r rest B X) as (r' & E & B' & X').
  replace (t mod 4) with t in E by (unfold CALL, REPLY, EXCEPTION in Ht; lia).
  exists (r', c). split; [exact E|]. split; [assumption|split; assumption].
Qed.
Lemma cir_val : forall v s rest, wf v -> cokv v -> cir s (sc_val v ++ rest) ->
  exists s', rd true compactR (ue true v) s s' /\ cir s' rest.
Proof.
  intros v [r c] rest Hw [Nf Ia] (B & X & N). cbn [fst snd] in *.
  destruct (crd_val v c r rest Hw Nf Ia N B X) as (r' & c' & Rd & B' & Af & X').
  exists (r', c'). split; [exact Rd|]. split; [assumption|split; [assumption|exact Af]].
Qed.
Lemma cir_end : forall s b, True -> cir s b -> exists s', rMessageEnd compactR s = Ok (None, s') /\ cir s' b.
Proof. intros s b _ Hb. exists s. split; [reflexivity|exact Hb]. Qed.
Lemma okm_of : forall f seq, func_ok f -> in_s 32 seq -> cokm (fn_name f) seq.
Proof. intros f seq (_ & _ & _ & _ & _ & L) Hs. split; assumption. Qed.
Lemma exc_both : forall e, exc_ok e -> wf (VStruct (exc_fields e)) /\ cokv (VStruct (exc_fields e)).
Proof. intros e Ke. split; [apply exc_wf, Ke|]. destruct e as [t [|b m]]; split; reflexivity. Qed.

(** Requests in order.  The handler is called once, with the arguments sent, and what it returns
    is what the reply carries; an unknown method leaves the handler alone; both leave the input
    just after the request. *)
Definition kept_args (x : ext) (f : func) (args : list any) : Prop :=
  length args = length (fn_args f) /\
  kept x (TyStruct (args_name f) (fn_args f)) (args_val f args).
Theorem C44_valid_request_partial : forall H strict strictC strictW x M cf fuel errtext
    (handle : H -> bytes -> list any -> (list (Z * any) * option bytes) * H) fs f args h si o seq wv rest,
  orders x -> strictC = true \/ strict = false ->
  (forall f, In f fs -> func_ok f) -> NoDup (map fn_name fs) ->
  (forall vals attrs h', Forall2 same args vals -> handle h (fn_name f) vals = ((attrs, None), h') ->
     (forall m, chosen f attrs m -> kept x (m_ty m) (attribute attrs (m_id m)) \/
                                    absent (m_ty m) (attribute attrs (m_id m))) /\
     forall rf, reply x f attrs rf -> (need (VStruct rf) <= fuel)%nat) ->
  In f fs -> kept_args x f args -> in_s 32 seq ->
  wireof x (TyStruct (args_name f) (fn_args f)) (args_val f args) wv -> (need wv <= fuel)%nat ->
  benign si -> content si = bmsg strictC (fn_name f) CALL seq ++ sb_val wv ++ rest ->
  exists vals p,
    process (binaryR strict) (binaryW strictW) nop x M cf fuel errtext handle fs h si (MkWt o []) = Ok p /\
    benign (p_in p) /\ content (p_in p) = rest /\
    Forall2 same args vals /\ p_h p = snd (handle h (fn_name f) vals) /\
    (p_err p = option_map RHandler (snd (fst (handle h (fn_name f) vals))) /\
     (p_success p = true <-> snd (fst (handle h (fn_name f) vals)) = None)) /\
    match fst (handle h (fn_name f) vals) with
    | (attrs, None) => exists rf, reply x f attrs rf /\
        p_out p = MkWt (o ++ bmsg strictW (fn_name f) REPLY seq ++ sb_val (VStruct rf)) []
    | (_, Some text) =>
        p_out p = MkWt (o ++ bmsg strictW (fn_name f) EXCEPTION seq ++ sb_val (VStruct (exc_fields
          (MkExc INTERNAL_ERROR (s_internal ++ fn_name f ++ s_colon ++ text))))) []
    end.
Proof.
  intros H strict strictC strictW x M cf fuel errtext handle fs f args h si o seq wv rest Ho Hst Fok Nd Hok Hf
    [La Ka] Hs Wv Nw B X.
  assert (Aok : args_ok x fuel true true (fun _ => True) f args).
  { split; [exact La|]. split; [intro D; discriminate|]. split; [exact Ka|]. intros w Ww.
    rewrite (wireof_fun _ _ _ _ _ Ww Wv). auto. }
  assert (Hk : forall vals, Forall2 same args vals -> does_okw x fuel handle true true (fun _ => True) f h vals).
  { intros vals Hg. unfold does_okw. destruct (handle h (fn_name f) vals) as [[attrs [text|]] h1] eqn:E; [exact I|].
    destruct (Hok vals attrs h1 Hg E) as [K N]. split; [intros m _ D; discriminate|].
    split; [exact K|]. exact N. }
  destruct (process_valid (binaryR strict) (binaryW strictW) nop (fun s => s) x M cf fuel errtext handle true true false
    bow bow bir bir sb_val (bmsg strictW) [] cokm (fun _ => True) (fun _ => True) func_ok (fun _ => True)
    (bow_val strictW) (bow_exc strictW)
    (fun name t seq s o Ht _ => bow_msg strictW name t seq s o Ht I) bow_end bow_nop
    (fun f H => H) okm_of Ho sb_val (bmsg strictC) [] (bir_msg' strict strictC Hst) (bir_val strict) (bir_end strict)
    fs f args h si (MkWt o []) o seq wv rest Fok Nd Hk Hf Aok Hs Wv
    (conj B X) I eq_refl) as (vals & p & mt & body & P & [Pb Pc] & Fv & Po & Ph & Ps & Pm).
  rewrite app_nil_r in Po.
  exists vals, p. split; [exact P|]. split; [exact Pb|]. split; [exact Pc|]. split; [exact Fv|].
  split; [exact Ph|]. split; [exact Ps|].
  destruct (fst (handle h (fn_name f) vals)) as [attrs [text|]]; destruct Pm as [-> Pm].
  - subst body. exact Po.
  - exists body. split; [exact Pm|exact Po].
Qed.
Print Assumptions C44_valid_request_partial.

Theorem C44_unknown_method : forall H strict strictW x M cf fuel errtext
    (handle : H -> bytes -> list any -> (list (Z * any) * option bytes) * H) fs name h si o seq t fl rest,
  strictW = true \/ strict = false ->
  (forall f, In f fs -> fn_name f <> name) ->
  t = CALL \/ t = REPLY \/ t = EXCEPTION -> Z.of_nat (length name) < 2 ^ 31 -> in_s 32 seq ->
  wf (VStruct fl) -> (need (VStruct fl) <= fuel)%nat ->
  benign si -> content si = bmsg strictW name t seq ++ sb_val (VStruct fl) ++ rest ->
  exists p ex,
    process (binaryR strict) (binaryW strictW) nop x M cf fuel errtext handle fs h si (MkWt o []) = Ok p /\
    benign (p_in p) /\ content (p_in p) = rest /\ p_h p = h /\ p_success p = false /\
    p_err p = Some (RApp ex) /\ ex = MkExc UNKNOWN_METHOD (s_unknown ++ name) /\
    p_out p = MkWt (o ++ bmsg strictW name EXCEPTION seq ++ sb_val (VStruct (exc_fields ex))) [].
Proof.
  intros H strict strictW x M cf fuel errtext handle fs name h si o seq t fl rest Hst Hn Ht Ln Hs Hw Nf B X.
  destruct (bir_msg strict strictW name t seq si _ Hst Ht (conj Ln Hs) (conj B X)) as (s1 & E1 & H1).
  destruct (bir_val strict (VStruct fl) s1 rest Hw I H1) as (s2 & Rd & [B2 X2]).
  unfold process. rewrite E1. cbn [obind].
  replace (lookup_fn fs name) with (@None func).
  2:{ destruct (lookup_fn fs name) as [g|] eqn:L; [|reflexivity]. apply lookup_in in L.
      destruct L as [Hg En]. destruct (Hn g Hg En). }
  unfold skip_default. change STRUCT with (vtype (VStruct fl)).
  rewrite (proj1 (rd_skip_all (binaryR strict) true M) (VStruct fl) _ _ Rd fuel M Nf). cbn [obind].
  change (rMessageEnd (binaryR strict) s2) with (@Ok (option err * rt) (None, s2)). cbn [obind].
  destruct (write_exception_ok (binaryW strictW) nop bow bow sb_val (bmsg strictW) []
    (fun _ _ => True) (fun _ => True) (bow_exc strictW) (bow_msg strictW) bow_end bow_nop
    name seq (MkExc UNKNOWN_METHOD (s_unknown ++ name)) (MkWt o []) o I I eq_refl) as (so' & E4 & Ho').
  rewrite app_nil_r in Ho'.
  rewrite E4. cbn [obind]. eexists _, _. split; [reflexivity|]. cbn [p_in p_h p_success p_err p_out].
  split; [exact B2|]. split; [exact X2|]. split; [reflexivity|]. split; [reflexivity|].
  split; [reflexivity|]. split; [reflexivity|]. exact Ho'.
Qed.
Print Assumptions C44_unknown_method.

(** ** An example service *)

Definition ex_oops : ty := TyStruct [79] [Mem 1 [119] false None TyString].
Definition ex_add : func :=                     (* i64 add(1: i32 a, 2: list<string> t) throws (1: O o) *)
  Fn [97; 100; 100] [Mem 1 [97] false None TyI32; Mem 2 [116] false None (TyList TyString)]
     (Some TyI64) [Mem 1 [111] false None ex_oops] false.
Definition ex_note : func :=                    (* void note(1: string s) *)
  Fn [110; 111; 116; 101] [Mem 1 [115] false None TyString] None [] false.
Definition ex_fire : func :=                    (* oneway void fire(1: string s) *)
  Fn [102; 105; 114; 101] [Mem 1 [115] false None TyString] None [] true.
Definition ex_even : func :=                    (* bool even(1: i32 a) *)
  Fn [101; 118; 101; 110] [Mem 1 [97] false None TyI32] (Some TyBool) [] false.
Definition ex_fs : list func := [ex_add; ex_note].

Definition ex_raise (m : bytes) : any :=
  AStruct 0 [79] (fc_of [Mem 1 [119] false None TyString]) [(1, AStr m)].
(** Counts its calls; add fails for 0, throws for negative numbers, otherwise gives the sum of
    its argument and the count. *)
Definition ex_handle (h : Z) (name : bytes) (vals : list any) : (list (Z * any) * option bytes) * Z :=
  match vals with
  | [AInt32 a; _] =>
    if a =? 0 then (([], Some [122; 101; 114; 111]), h)
    else if a <? 0 then (([(0, AInt64 0); (1, ex_raise [110; 101; 103])], None), h + 1)
    else (([(0, AInt64 (wraps 64 (h + a))); (1, ANil)], None), h + 1)
  | _ => (([(0, AInt64 0); (1, ANil)], None), h + 1)
  end.
Definition errtext0 (e : err) : bytes := [101; 114; 114].


Lemma ex_ok : forall f, In f [ex_add; ex_note; ex_fire; ex_even] -> func_ok f.
Proof.
  assert (O : schema_ok ex_oops).
  { apply so_struct; [members|]. intros m [<-|[]]. constructor. }
  intros f [<-|[<-|[<-|[<-|[]]]]];
    (split; [apply so_struct; [members|]; intros m Hm; cbn in Hm;
             repeat (destruct Hm as [<-|Hm]; [repeat constructor|]); destruct Hm|]);
    (split; [apply so_struct; [members|]; intros m Hm; cbn in Hm;
             repeat (destruct Hm as [<-|Hm]; [try exact O; repeat constructor|]); destruct Hm|]);
    (split; [intros m Hm; cbn in Hm;
             repeat (destruct Hm as [<-|Hm]; [split; [discriminate|eexists _, _; reflexivity]|]); destruct Hm|]);
    (split; [cbn; (discriminate || auto)|]); (split; [concrete|vm_compute; reflexivity]).
Qed.
Lemma ex_raise_wire : forall m, is_bytes m -> Z.of_nat (length m) < 2 ^ 31 ->
  wireof ext0 ex_oops (ex_raise m) (VStruct [(1, VStr m)]).
Proof.
  intros m Hm L. apply wo_struct. eapply wof_take; [reflexivity|unfold in_s; cbn; lia| |constructor].
  apply wo_string; assumption.
Qed.
Lemma ex_attrs : forall h name vals attrs h', ex_handle h name vals = ((attrs, None), h') ->
  exists z e, attrs = [(0, AInt64 z); (1, e)] /\ in_s 64 z /\ (e = ANil \/ e = ex_raise [110; 101; 103]).
Proof.
  intros h name vals attrs h' E. unfold ex_handle in E.
  assert (D : (([(0, AInt64 0); (1, ANil)], @None bytes), h + 1) = ((attrs, None), h') ->
    exists z e, attrs = [(0, AInt64 z); (1, e)] /\ in_s 64 z /\ (e = ANil \/ e = ex_raise [110; 101; 103])).
  { intro Q. injection Q; intros; subst. exists 0, ANil. split; [reflexivity|]. split; [unfold in_s; cbn; lia|auto]. }
  destruct vals as [|[] [|u [|]]]; try (apply D; exact E).
  destruct (z =? 0); [discriminate|]. destruct (z <? 0); injection E; intros; subst.
  - exists 0, (ex_raise [110; 101; 103]). split; [reflexivity|]. split; [unfold in_s; cbn; lia|auto].
  - eexists _, ANil. split; [reflexivity|]. split; [apply wraps_range; lia|auto].
Qed.
Lemma ex_kept : forall f h vals attrs h', In f ex_fs -> ex_handle h (fn_name f) vals = ((attrs, None), h') ->
  (forall m, chosen f attrs m -> kept ext0 (m_ty m) (attribute attrs (m_id m)) \/
                                 absent (m_ty m) (attribute attrs (m_id m))) /\
  forall rf, reply ext0 f attrs rf -> (need (VStruct rf) <= 10)%nat /\ cokv (VStruct rf).
Proof.
  intros f h vals attrs h' Hf E. apply ex_attrs in E. destruct E as (z & e & -> & Hz & He).
  assert (Raise : is_bytes [110; 101; 103] /\ Z.of_nat (length [110; 101; 103]) < 2 ^ 31)
    by (split; [concrete|vm_compute; reflexivity]).
  destruct Hf as [<-|[<-|[]]].
  - split.
    + intros m [[[Hm Nm] _]|(_ & t & Et & ->)].
      * destruct Hm as [<-|[]]. left. cbn [m_ty m_id] in *. destruct He as [-> | ->]; [destruct (Nm eq_refl)|].
        change (kept ext0 ex_oops (ex_raise [110; 101; 103])).
        apply k_struct; [reflexivity| |]; intros m [<-|[]].
        -- intros _. cbn. apply k_string; apply Raise.
        -- discriminate.
      * injection Et; intros; subst t. left. cbn. apply k_i64, Hz.
    + intros rf Rp. inversion Rp as [m w [Hm Nm] _ Ww|t w _ Et Ww|t N Et A|N Et]; subst.
      * destruct Hm as [<-|[]]. cbn [m_ty m_id] in *. destruct He as [-> | ->]; [destruct (Nm eq_refl)|].
        change (attribute _ 1) with (ex_raise [110; 101; 103]) in Ww.
        rewrite (wireof_fun _ _ _ _ _ Ww (ex_raise_wire _ (proj1 Raise) (proj2 Raise))).
        split; [cbn; lia|split; reflexivity].
      * injection Et; intros; subst t. change (attribute _ 0) with (AInt64 z) in Ww.
        inversion Ww; subst. split; [cbn; lia|split; reflexivity].
      * injection Et; intros; subst t. destruct A as [(D & _)|(tag & n & cs & D & _)]; discriminate.
      * split; [cbn; lia|split; reflexivity].
  - split.
    + intros m [[[Hm _] _]|(_ & t & Et & _)]; [destruct Hm|discriminate].
    + intros rf Rp. inversion Rp as [m w [Hm Nm] _ Ww|t w _ Et Ww|t N Et A|N Et]; subst; try discriminate; [destruct Hm|].
      split; [cbn; lia|split; reflexivity].
Qed.
Lemma ex_texts : forall f h vals attrs text h', In f ex_fs ->
  ex_handle h (fn_name f) vals = ((attrs, Some text), h') ->
  exc_ok (MkExc INTERNAL_ERROR (s_internal ++ fn_name f ++ s_colon ++ text)).
Proof.
  intros f h vals attrs text h' Hf E. unfold ex_handle in E.
  assert (text = [122; 101; 114; 111]) as ->.
  { destruct vals as [|[] [|u [|]]]; try discriminate. destruct (z =? 0); [|destruct (z <? 0); discriminate].
    injection E; intros; congruence. }
  destruct Hf as [<-|[<-|[]]]; unfold exc_ok; (split; [concrete|split; [concrete|vm_compute; reflexivity]]).
Qed.
Definition ex_args : list any := [AInt32 5; AList 0 STRING [AStr [120]; AStr []]].
Definition ex_argsw : tval := VStruct [(1, VI32 5); (2, VList STRING [VStr [120]; VStr []])].
Lemma ex_args_kept : kept_args ext0 ex_add ex_args.
Proof.
  split; [reflexivity|]. apply k_struct; [reflexivity| |]; intros m [<-|[<-|[]]]; cbn; try discriminate; intros _.
  - constructor. unfold in_s. cbn. lia.
  - apply k_list; [exact I|vm_compute; reflexivity|].
    intros u [<-|[<-|[]]]; (apply k_string; [concrete|vm_compute; reflexivity]).
Qed.
Lemma ex_args_wire : wireof ext0 (TyStruct (args_name ex_add) (fn_args ex_add)) (args_val ex_add ex_args) ex_argsw.
Proof.
  apply wo_struct. eapply wof_take; [reflexivity|unfold in_s; cbn; lia|constructor; unfold in_s; cbn; lia|].
  eapply wof_take; [reflexivity|unfold in_s; cbn; lia| |constructor].
  apply wo_list; [vm_compute; reflexivity|].
  constructor; [constructor; [concrete|vm_compute; reflexivity]|].
  constructor; [constructor; [concrete|vm_compute; reflexivity]|]. constructor.
Qed.

(** Hypotheses of C44 met: a service with two functions, a handler that answers, throws and
    fails; a good request, split, with bytes after it; one for an unknown method; one cut short. *)
Example C44_case :
  orders ext0 /\ (forall f, In f ex_fs -> func_ok f) /\ NoDup (map fn_name ex_fs) /\
  (forall f h vals attrs h', In f ex_fs -> ex_handle h (fn_name f) vals = ((attrs, None), h') ->
     (forall m, chosen f attrs m -> kept ext0 (m_ty m) (attribute attrs (m_id m)) \/
                                    absent (m_ty m) (attribute attrs (m_id m))) /\
     forall rf, reply ext0 f attrs rf -> (need (VStruct rf) <= 40)%nat) /\
  (forall f h vals attrs text h', In f ex_fs -> ex_handle h (fn_name f) vals = ((attrs, Some text), h') ->
     exc_ok (MkExc INTERNAL_ERROR (s_internal ++ fn_name f ++ s_colon ++ text))) /\
  (forall e, exc_ok (MkExc PROTOCOL_ERROR (errtext0 e))) /\
  kept_args ext0 ex_add ex_args /\
  wireof ext0 (TyStruct (args_name ex_add) (fn_args ex_add)) (args_val ex_add ex_args) ex_argsw /\
  let req := sb_message_strict [97; 100; 100] CALL 9 ++ sb_val ex_argsw ++ [1; 2] in
  (exists p, process (binaryR true) (binaryW true) nop ext0 64 5 40 errtext0 ex_handle ex_fs 7
     [(firstn 6 req, None); (skipn 6 req, None)] (MkWt [] []) = Ok p /\
     p_h p = 8 /\ content (p_in p) = [1; 2] /\
     p_out p = MkWt (sb_message_strict [97; 100; 100] REPLY 9 ++ sb_val (VStruct [(0, VI64 12)])) []) /\
  (exists p, process (binaryR true) (binaryW true) nop ext0 64 5 40 errtext0 ex_handle ex_fs 7
     [(firstn 30 req, None)] (MkWt [] []) = Ok p /\ p_h p = 7 /\
     p_out p = MkWt (sb_message_strict [97; 100; 100] EXCEPTION 9 ++
                     sb_val (VStruct [(1, VStr [101; 114; 114]); (2, VI32 7)])) []).
Proof.
  split; [exact ext0_orders|]. split; [intros f Hf; apply ex_ok; destruct Hf as [<-|[<-|[]]]; cbn; auto|].
  split; [nodup|]. split.
  { intros f h vals attrs h' Hf E. destruct (ex_kept f h vals attrs h' Hf E) as [K N]. split; [exact K|].
    intros rf Rp. destruct (N rf Rp). lia. }
  split; [exact ex_texts|]. split; [intro e; unfold exc_ok; (split; [concrete|split; [concrete|vm_compute; reflexivity]])|].
  split; [exact ex_args_kept|]. split; [exact ex_args_wire|]. cbv zeta. split.
  - eexists. split; [vm_compute; reflexivity|]. vm_compute. repeat split.
  - eexists. split; [vm_compute; reflexivity|]. vm_compute. repeat split.
Qed.

(** A request with malformed arguments that is not answered: a list announced with an unknown
    element type makes the processor panic. *)
Theorem C44_malformed_refuted : exists fs (handle : Z -> bytes -> list any -> _) req,
  (forall f, In f fs -> func_ok f) /\ benign req /\
  (exists s, bReadMessageBegin true req = Ok (([97; 100; 100], CALL, 9), None, s)) /\
  process (binaryR true) (binaryW true) nop ext0 64 5 40 errtext0 handle fs 0 req (MkWt [] []) = Panic.
Proof.
  exists ex_fs, ex_handle,
    [(sb_message_strict [97; 100; 100] CALL 9 ++ [15; 0; 2; 99; 0; 0; 0; 1; 0; 0; 0; 0; 0], None)].
  split; [intros f Hf; apply ex_ok; destruct Hf as [<-|[<-|[]]]; cbn; auto|]. split; [concrete|].
  split; [eexists; vm_compute; reflexivity|]. vm_compute. reflexivity.
Qed.
Print Assumptions C44_malformed_refuted.

(** ** C45 *)

Lemma app_read_some : forall S (R : rproto S) M fuel s ex s',
  app_read R M fuel s = Ok (ex, None, s') -> ex <> None.
Proof.
  intros S R M fuel s ex s' E. unfold app_read in E.
  destruct (rStructBegin R s) as [[[nm [e|]] s1]| |]; cbn [obind] in E; try discriminate.
  destruct (app_fields R M fuel _ _ s1) as [[[v|e] s2]| |]; cbn [obind] in E; try discriminate.
  destruct (rStructEnd R s2) as [[e3 s3]| |]; cbn [obind] in E; try discriminate.
  injection E; intros; subst. discriminate.
Qed.

(** Whatever protocol, reply, client and state of the connection: a result without an error
    means the message read had the sequence id the client holds and was not an EXCEPTION; an
    EXCEPTION is an error; another sequence id is the error BAD_SEQUENCE_ID; so is an
    unreadable header.  An error comes with no values. *)
Theorem C45_only_matching : forall S (R : rproto S) x M cf fuel f seq s r s',
  recv_on R x M cf fuel f seq s = Ok (r, s') ->
  exists name t seq' e s1, rMessageBegin R s = Ok ((name, t, seq'), e, s1) /\
    (snd r = None -> e = None /\ t <> EXCEPTION /\ seq' = seq) /\
    (forall e0, e = Some e0 -> snd r = Some (RErr e0)) /\
    (e = None -> t = EXCEPTION -> snd r <> None) /\
    (e = None -> t <> EXCEPTION -> seq' <> seq ->
       exists m, snd r = Some (RApp (MkExc BAD_SEQUENCE_ID m))) /\
    (snd r <> None -> fst r = zero_attrs (result_members f) \/ fst r = init_attrs (result_members f)).
Proof.
  intros S R x M cf fuel f seq s r s' E. unfold recv_on in E.
  destruct (rMessageBegin R s) as [[[[[name t] seq'] e] s1]| |]; cbn [obind] in E; try discriminate.
  exists name, t, seq', e, s1. split; [reflexivity|].
  destruct e as [e|].
  { injection E; intros; subst. cbn [fst snd]. split; [discriminate|].
    split; [congruence|]. split; [discriminate|]. split; [discriminate|]. auto. }
  destruct (Z.eqb_spec t EXCEPTION) as [->|Nt].
  - destruct (app_read R M fuel s1) as [[[ex [e|]] s2]| |] eqn:Er; cbn [obind] in E; try discriminate.
    + injection E; intros; subst. cbn [fst snd]. split; [discriminate|]. split; [discriminate|].
      split; [discriminate|]. split; [congruence|auto].
    + apply app_read_some in Er. destruct ex as [ex|]; [|congruence].
      destruct (rMessageEnd R s2) as [[[e|] s3]| |]; cbn [obind] in E; try discriminate;
        injection E; intros; subst; cbn [fst snd]; (split; [discriminate|]); (split; [discriminate|]);
        (split; [discriminate|]); (split; [congruence|auto]).
  - destruct (Z.eqb_spec seq seq') as [->|Ns]; cbn [negb] in E.
    + destruct (gread R x M cf fuel _ s1) as [[[v|e] s2]| |]; cbn [obind] in E; try discriminate;
        (destruct (rMessageEnd R s2) as [[e3 s3]| |]; cbn [obind] in E; try discriminate);
        injection E; intros; subst; cbn [fst snd].
      * split; [auto|]. split; [discriminate|]. split; [congruence|]. split; [congruence|]. congruence.
      * split; [discriminate|]. split; [discriminate|]. split; [congruence|]. split; [congruence|]. auto.
    + injection E; intros; subst. cbn [fst snd]. split; [discriminate|]. split; [discriminate|].
      split; [congruence|]. split; [intros; eexists; reflexivity|]. auto.
Qed.
Print Assumptions C45_only_matching.

(** Over the binary protocol: a request carries the sequence id the client then holds, one more
    than before (wrapping as int32 does); with that id a REPLY gives what the server's handler
    returned; an EXCEPTION gives the error it carries. *)
Theorem C45_binary_partial : forall strict strictW x M cf fuel f args c w o,
  orders x -> strictW = true \/ strict = false -> func_ok f -> kept_args x f args ->
  c_factory c = true -> c_out c = Some FromFactory -> o_own w = MkWt o [] ->
  (forall wv, wireof x (TyStruct (args_name f) (fn_args f)) (args_val f args) wv -> (need wv <= fuel)%nat) ->
  (4 <= fuel)%nat ->
  exists c1 (w1 : @world rt wt) wv, send (binaryW strictW) nop (fun s => s) x fuel f args c w = Ok (None, c1, w1) /\
    c_seq c1 = wraps 32 (c_seq c + 1) /\
    wireof x (TyStruct (args_name f) (fn_args f)) (args_val f args) wv /\
    o_own w1 = MkWt (o ++ bmsg strictW (fn_name f) CALL (c_seq c1) ++ sb_val wv) [] /\
    forall r rest, benign r ->
      (forall attrs rf,
         (forall m, chosen f attrs m -> kept x (m_ty m) (attribute attrs (m_id m)) \/
                                        absent (m_ty m) (attribute attrs (m_id m))) ->
         reply x f attrs rf -> (need (VStruct rf) <= fuel)%nat ->
         content r = bmsg strictW (fn_name f) REPLY (c_seq c1) ++ sb_val (VStruct rf) ++ rest ->
         exists attrs' r', recv_on (binaryR strict) x M cf fuel f (c_seq c1) r = Ok ((attrs', None), r') /\
           benign r' /\ content r' = rest /\ returned f attrs attrs') /\
      (forall name seq e, cokm name seq -> exc_ok e ->
         content r = bmsg strictW name EXCEPTION seq ++ sb_val (VStruct (exc_fields e)) ++ rest ->
         exists r', recv_on (binaryR strict) x M cf fuel f (c_seq c1) r =
             Ok ((zero_attrs (result_members f), Some (RApp e)), r') /\ benign r' /\ content r' = rest).
Proof.
  intros strict strictW x M cf fuel f args c w o Ho Hst Fok [La Ka] Cf Co Ow Nf F4.
  assert (Aok : args_ok x fuel true true (fun _ => True) f args).
  { split; [exact La|]. split; [intro D; discriminate|]. split; [exact Ka|]. auto. }
  set (dummy := fun (h : unit) (_ : bytes) (_ : list any) => (([] : list (Z * any), @None bytes), h)).
  destruct (send_ok (binaryR strict) (binaryW strictW) nop (fun s => s) x cf fuel dummy true true false
    bow bow bir bir sb_val (bmsg strictW) [] cokm (fun _ => True) func_ok (fun _ => True) (bow_val strictW)
    (fun name t seq s o Ht _ => bow_msg strictW name t seq s o Ht I) bow_end bow_nop
    (bir_msg' strict strictW Hst) (bir_val strict) (bir_end strict)
    (fun s o E => E) (fun f H => H) okm_of Ho f args c w o Fok Aok Cf Co Ow) as (wv & w1 & E & Wv & O1 & _).
  rewrite app_nil_r in O1.
  eexists _, w1, wv. split; [exact E|]. split; [reflexivity|]. split; [exact Wv|]. split; [exact O1|].
  cbn [c_seq]. set (seq := wraps 32 (c_seq c + 1)). assert (Hs : in_s 32 seq) by (apply wraps_range; lia).
  intros r rest B. split.
  - intros attrs rf K Rp N X.
    destruct (recv_reply (binaryR strict) (binaryW strictW) nop x M cf fuel dummy true true false
      bow bow bir bir sb_val (bmsg strictW) [] cokm (fun _ => True) func_ok (fun _ => True)
      (fun name t seq s o Ht _ => bow_msg strictW name t seq s o Ht I) bow_end bow_nop
      (bir_msg' strict strictW Hst) (bir_val strict) (bir_end strict)
      (fun f H => H) okm_of Ho f seq r rest attrs rf Fok) as (attrs' & r' & E' & [B' X'] & Ret); try assumption.
    + split; [intros m _ D; discriminate|]. split; [exact K|]. intros rf' Rp'.
      replace rf' with rf; [auto|].
      pose proof (reply_pick x f attrs rf Fok Rp) as P. pose proof (reply_pick x f attrs rf' Fok Rp') as P'.
      destruct (result_pick _ _ _) as [m|]; [|congruence]. destruct P as [_ P], P' as [_ P'].
      eapply (proj2 (proj2 (proj2 (wireof_fun_all x)))); eassumption.
    + split; assumption.
    + exact I.
    + exists attrs', r'. auto.
  - intros name seq' e Km Ke X.
    destruct (recv_exception (binaryR strict) (binaryW strictW) nop (fun s => s) (fun s => s) x M cf fuel dummy true false
      bow bow bir bir sb_val (bmsg strictW) [] cokm exc_ok (fun _ => True) func_ok (fun _ => True)
      (fun e s o _ => bow_exc strictW e s o I)
      (fun name t seq s o Ht _ => bow_msg strictW name t seq s o Ht I) bow_end bow_nop
      (bir_msg' strict strictW Hst) (bir_val strict) (bir_end strict)
      (fun s o E => E) (fun f H => H) okm_of Ho (fun e K => conj (exc_wf e K) I) f name seq' r rest e seq Km Ke F4
      (conj B X) I) as (r' & E' & [B' X']).
    exists r'. auto.
Qed.
Print Assumptions C45_binary_partial.

(** Replies of add, and its client. *)
Definition reply1 : bytes := sb_message_strict [97; 100; 100] REPLY 1 ++ sb_val (VStruct [(0, VI64 12)]).
Definition reply2 : bytes :=
  sb_message_strict [97; 100; 100] EXCEPTION 1 ++ sb_val (VStruct (exc_fields (MkExc 6 [120]))).
Example C45_case :
  orders ext0 /\ func_ok ex_add /\ kept_args ext0 ex_add ex_args /\
  (exists s, recv_on (binaryR true) ext0 64 5 40 ex_add 1 [(firstn 3 reply1, None); (skipn 3 reply1, None)] =
     Ok (([(0, AInt64 12); (1, ANil)], None), s)) /\
  (exists s, recv_on (binaryR true) ext0 64 5 40 ex_add 2 [(reply1, None)] =
     Ok (([(0, AInt64 0); (1, ANil)], Some (RApp (MkExc BAD_SEQUENCE_ID s_sequence))), s)) /\
  (exists s, recv_on (binaryR true) ext0 64 5 40 ex_add 1 [(reply2, None)] =
     Ok (([(0, AInt64 0); (1, ANil)], Some (RApp (MkExc 6 [120]))), s)).
Proof.
  split; [exact ext0_orders|]. split; [apply ex_ok; cbn; auto|]. split; [exact ex_args_kept|].
  repeat split; eexists; vm_compute; reflexivity.
Qed.

(** The type of the message is only compared with EXCEPTION and its name with nothing: a CALL or
    ONEWAY message to another function is taken for the reply. *)
Theorem C45_type_refuted : exists f r name attrs s, func_ok f /\ benign r /\ name <> fn_name f /\
  (exists s1, bReadMessageBegin true r = Ok ((name, ONEWAY, 1), None, s1)) /\
  recv_on (binaryR true) ext0 64 5 40 f 1 r = Ok ((attrs, None), s) /\ attribute attrs 0 = AInt64 12.
Proof.
  exists ex_add, [(sb_message_strict [110] ONEWAY 1 ++ sb_val (VStruct [(0, VI64 12)]), None)], [110].
  eexists _, _. split; [apply ex_ok; cbn; auto|]. split; [concrete|]. split; [discriminate|].
  split; [eexists; vm_compute; reflexivity|]. split; [vm_compute; reflexivity|reflexivity].
Qed.
Print Assumptions C45_type_refuted.
(** A reply that carries neither a value nor an exception is a nil value without an error. *)
Theorem C45_empty_refuted : exists f r attrs s, func_ok f /\ benign r /\ fn_ret f = Some TyI64 /\
  content r = sb_message_strict (fn_name f) REPLY 1 ++ sb_val (VStruct []) /\
  recv_on (binaryR true) ext0 64 5 40 f 1 r = Ok ((attrs, None), s) /\ attribute attrs 0 = AInt64 0.
Proof.
  exists ex_add, [(sb_message_strict [97; 100; 100] REPLY 1 ++ sb_val (VStruct []), None)].
  eexists _, _. split; [apply ex_ok; cbn; auto|]. split; [concrete|]. split; [reflexivity|]. split; [reflexivity|].
  split; [vm_compute; reflexivity|reflexivity].
Qed.
Print Assumptions C45_empty_refuted.

(** ** C46 *)

(** A client made with the protocols to use, whatever they are, function and arguments: every
    send panics, before anything is written. *)
Lemma given_client_panics : forall SR SW (W : wproto SW) flush freshW x fuel f args iprot oprot
    (w : @world SR SW),
  send W flush freshW x fuel f args (new_client_protocol iprot oprot) w = Panic.
Proof. intros. destruct oprot; reflexivity. Qed.
Theorem C46_given_refuted : exists (f : func) (args : list any) (w : @world rt wt),
  func_ok f /\ kept_args ext0 f args /\
  send (binaryW true) nop (fun s => s) ext0 40 f args new_client_factory w <> Panic /\
  send (binaryW true) nop (fun s => s) ext0 40 f args (new_client_protocol true true) w = Panic.
Proof.
  exists ex_add, ex_args, (MkWorld (MkWt [] []) (MkWt [] []) [] []).
  split; [apply ex_ok; cbn; auto|]. split; [exact ex_args_kept|]. split; [vm_compute; discriminate|reflexivity].
Qed.
Print Assumptions C46_given_refuted.

(** A client made with a factory writes its requests, all of them and nothing else, to protocols
    of that factory on its transport.  Missing: clients made with explicit protocols, above. *)
Fixpoint sends {SR SW} (W : wproto SW) (flush : wop SW) (freshW : SW -> SW) (x : ext) (fuel : nat)
    (l : list (func * list any)) (c : client) (w : @world SR SW) : outcome (client * @world SR SW) :=
  match l with
  | [] => Ok (c, w)
  | (f, args) :: l' => '(_, c1, w1) <- send W flush freshW x fuel f args c w ;;
                       sends W flush freshW x fuel l' c1 w1
  end.
(** The requests, numbered from [seq] on. *)
Inductive requests (x : ext) (strictW : bool) : Z -> list (func * list any) -> bytes -> Prop :=
| rq_nil seq : requests x strictW seq [] []
| rq_cons seq f args l wv b : wireof x (TyStruct (args_name f) (fn_args f)) (args_val f args) wv ->
    requests x strictW (wraps 32 (seq + 1)) l b ->
    requests x strictW seq ((f, args) :: l) (bmsg strictW (fn_name f) CALL seq ++ sb_val wv ++ b).
Theorem C46_factory_partial : forall strictW x fuel l c (w : @world rt wt) o,
  orders x ->
  (forall f args, In (f, args) l -> func_ok f /\ kept_args x f args /\
     forall wv, wireof x (TyStruct (args_name f) (fn_args f)) (args_val f args) wv -> (need wv <= fuel)%nat) ->
  c_factory c = true -> c_out c = Some FromFactory -> o_own w = MkWt o [] ->
  exists c' w' b, sends (binaryW strictW) nop (fun s => s) x fuel l c w = Ok (c', w') /\
    requests x strictW (wraps 32 (c_seq c + 1)) l b /\ o_own w' = MkWt (o ++ b) [] /\
    o_given w' = o_given w /\ i_own w' = i_own w /\ i_given w' = i_given w.
Proof.
  intros strictW x fuel l. induction l as [|[f args] l IH]; intros c w o Ho Lok Cf Co Ow.
  - exists c, w, []. split; [reflexivity|]. split; [constructor|]. split; [rewrite app_nil_r; exact Ow|auto].
  - destruct (Lok f args (or_introl eq_refl)) as (Fok & [La Ka] & Nf).
    assert (Aok : args_ok x fuel true true (fun _ => True) f args).
    { split; [exact La|]. split; [intro D; discriminate|]. split; [exact Ka|]. auto. }
    set (dummy := fun (h : unit) (_ : bytes) (_ : list any) => (([] : list (Z * any), @None bytes), h)).
    destruct (send_ok (binaryR false) (binaryW strictW) nop (fun s => s) x 0%nat fuel dummy true true false
      bow bow bir bir sb_val (bmsg strictW) [] cokm (fun _ => True) func_ok (fun _ => True) (bow_val strictW)
      (fun name t seq s o Ht _ => bow_msg strictW name t seq s o Ht I) bow_end bow_nop
      (bir_msg' false strictW (or_intror eq_refl))
      (bir_val false) (bir_end false)
      (fun s o E => E) (fun f H => H) okm_of Ho f args c w o Fok Aok Cf Co Ow) as (wv & w1 & E & Wv & O1 & G1 & I1 & J1).
    rewrite app_nil_r in O1.
    destruct (IH (MkClient true (c_in c) (Some FromFactory) (wraps 32 (c_seq c + 1))) w1 _ Ho (fun g a Hg => Lok g a (or_intror Hg)) eq_refl eq_refl O1)
      as (c' & w' & b & E' & Rq & O' & G' & I' & J').
    exists c', w', (bmsg strictW (fn_name f) CALL (wraps 32 (c_seq c + 1)) ++ sb_val wv ++ b).
    split; [cbn [sends]; rewrite E; exact E'|]. split; [constructor; [exact Wv|exact Rq]|].
    split; [rewrite O'; f_equal; rewrite <- !app_assoc; reflexivity|]. repeat split; congruence.
Qed.
Print Assumptions C46_factory_partial.
Example C46_case :
  orders ext0 /\ func_ok ex_add /\ kept_args ext0 ex_add ex_args /\
  exists c' w', sends (binaryW true) nop (fun s => s) ext0 40 [(ex_add, ex_args); (ex_add, ex_args)]
      new_client_factory (MkWorld (MkWt [] []) (MkWt [] []) ([] : rt) ([] : rt)) = Ok (c', w') /\
    c_seq c' = 2 /\
    o_own w' = MkWt (sb_message_strict [97; 100; 100] CALL 1 ++ sb_val ex_argsw ++
                     sb_message_strict [97; 100; 100] CALL 2 ++ sb_val ex_argsw) [].
Proof.
  split; [exact ext0_orders|]. split; [apply ex_ok; cbn; auto|]. split; [exact ex_args_kept|].
  eexists _, _. split; [vm_compute; reflexivity|]. split; reflexivity.
Qed.

(** ** C47 *)

(** A client made with a factory and a processor, each on memory transports of its own; after
    each message the bytes written on one side are put into the other side's transport, cut into
    non-empty pieces in any way ([cut] may do it differently each time). *)
Definition bdrain (s : wt) : bytes * wt := (w_out s, MkWt [] []).
Definition bfeed (r : rt) (cs : list bytes) : rt := r ++ map (fun c => (c, None)) cs.
Definition bstart {H} (h : H) : @pair rt wt H :=
  MkPair new_client_factory (MkWorld (MkWt [] []) (MkWt [] []) [] []) h [] (MkWt [] []).
Definition cuts (cut : nat -> bytes -> list bytes) : Prop :=
  forall n b, concat (cut n b) = b /\ Forall (fun c => c <> []) (cut n b).
Lemma bdrain_ok : forall s o, bow s o -> fst (bdrain s) = o /\ bow (snd (bdrain s)) [].
Proof. intros s o ->. split; reflexivity. Qed.
Lemma feed_content : forall r cs, content (r ++ map (fun c => (c, None)) cs) = content r ++ concat cs.
Proof.
  intros r cs. unfold content. rewrite map_app, concat_app, map_map. cbn. rewrite map_id. reflexivity.
Qed.
Lemma feed_benign : forall r cs, benign r -> Forall (fun c => c <> []) cs ->
  benign (r ++ map (fun c => (c, None)) cs).
Proof.
  intros r cs B F. unfold benign. apply Forall_app. split; [exact B|]. rewrite Forall_map.
  eapply Forall_impl; [|exact F]. intros c Hc. split; [exact Hc|reflexivity].
Qed.
Lemma bfeed_ok : forall s cs, bir s [] -> Forall (fun c => c <> []) cs -> bir (bfeed s cs) (concat cs).
Proof.
  intros s cs [B X] F. split; [apply feed_benign; assumption|]. unfold bfeed. rewrite feed_content, X. reflexivity.
Qed.

(** Any service, handler, number and order of calls: each call returns what the handler returned
    for the arguments of that call ([serves]), the handler runs once per call, in order, and at
    the end nothing is left in the transports.  For arguments and results that [kept] describes
    (C48); missing: others, and oneway functions, see below.  What the handler must do is asked for
    the arguments of the calls only, and in states that [Inv] allows. *)
Theorem C47_binary_states_partial : forall H strict strictW x M cf fuel errtext
    (handle : H -> bytes -> list any -> (list (Z * any) * option bytes) * H) (Inv : H -> Prop) fs cut l h,
  orders x -> strictW = true \/ strict = false -> cuts cut -> (4 <= fuel)%nat ->
  (forall f, In f fs -> func_ok f) -> NoDup (map fn_name fs) ->
  Inv h ->
  (forall f args h vals, In (f, args) l -> Inv h -> Forall2 same args vals -> Inv (snd (handle h (fn_name f) vals))) ->
  (forall f args h vals attrs h', In (f, args) l -> Inv h -> Forall2 same args vals -> handle h (fn_name f) vals = ((attrs, None), h') ->
     (forall m, chosen f attrs m -> kept x (m_ty m) (attribute attrs (m_id m)) \/
                                    absent (m_ty m) (attribute attrs (m_id m))) /\
     forall rf, reply x f attrs rf -> (need (VStruct rf) <= fuel)%nat) ->
  (forall f args h vals attrs text h', In (f, args) l -> Inv h -> Forall2 same args vals -> handle h (fn_name f) vals = ((attrs, Some text), h') ->
     exc_ok (MkExc INTERNAL_ERROR (s_internal ++ fn_name f ++ s_colon ++ text))) ->
  (forall f args, In (f, args) l -> In f fs /\ fn_oneway f = false /\ kept_args x f args /\
     forall wv, wireof x (TyStruct (args_name f) (fn_args f)) (args_val f args) wv -> (need wv <= fuel)%nat) ->
  exists rs st, calls (binaryR strict) (binaryW strictW) nop (fun s => s) (fun s => s) x M cf fuel errtext handle
      fs bdrain bfeed cut 0 l (bstart h) = Ok (rs, st) /\
    serves handle l h rs (pr_h st) /\ Inv (pr_h st) /\
    o_own (pr_w st) = MkWt [] [] /\ pr_out st = MkWt [] [] /\
    content (i_own (pr_w st)) = [] /\ content (pr_in st) = [].
Proof.
  intros H strict strictW x M cf fuel errtext handle Inv fs cut l h Ho Hst Hc F4 Fok Nd Hi His Hok Tok Lok.
  destruct (calls_served (binaryR strict) (binaryW strictW) nop (fun s => s) (fun s => s) x M cf fuel errtext handle
    true true false bow bow bir bir sb_val (bmsg strictW) [] cokm exc_ok (fun _ => True) func_ok (fun _ => True)
    (bow_val strictW) (fun e s o _ => bow_exc strictW e s o I)
    (fun name t seq s o Ht _ => bow_msg strictW name t seq s o Ht I) bow_end bow_nop
    (bir_msg' strict strictW Hst) (bir_val strict) (bir_end strict)
    (fun s o E => E) (fun f H => H) okm_of Ho (fun e K => conj (exc_wf e K) I) bdrain bfeed cut bdrain_ok (Forall (fun c => c <> [])) bfeed_ok (fun n b _ => Hc n b) I F4
    Inv fs l 0%nat (bstart h) Fok Nd) as (rs & st & E & Sv & Iv & A1 & A2 & [_ A3] & [_ A4]); try reflexivity; try assumption.
  - intros f args h0 vals Hl Hi0 Fv. split; [|exact (His f args h0 vals Hl Hi0 Fv)]. unfold does_ok. destruct (handle h0 (fn_name f) vals) as [[attrs [text|]] h1] eqn:E.
    + eapply Tok; eassumption.
    + destruct (Hok f args h0 vals attrs h1 Hl Hi0 Fv E) as [K N]. split; [intros m _ D; discriminate|].
      split; [exact K|]. intros rf Rp. split; [exact I|apply N, Rp].
  - intros f args Hl. destruct (Lok f args Hl) as (Hf & One & [La Ka] & N).
    split; [exact Hf|]. split; [exact One|]. split; [exact La|]. split; [intro D; discriminate|].
    split; [exact Ka|]. intros w Ww. split; [exact I|apply N, Ww].
  - split; [constructor|reflexivity].
  - split; [constructor|reflexivity].
  - exists rs, st. split; [exact E|]. split; [exact Sv|]. split; [exact Iv|]. auto.
Qed.
Print Assumptions C47_binary_states_partial.

(** The same where the handler keeps to kept results whatever it is asked. *)
Theorem C47_binary_partial : forall H strict strictW x M cf fuel errtext
    (handle : H -> bytes -> list any -> (list (Z * any) * option bytes) * H) fs cut l h,
  orders x -> strictW = true \/ strict = false -> cuts cut -> (4 <= fuel)%nat ->
  (forall f, In f fs -> func_ok f) -> NoDup (map fn_name fs) ->
  (forall f h vals attrs h', In f fs -> handle h (fn_name f) vals = ((attrs, None), h') ->
     (forall m, chosen f attrs m -> kept x (m_ty m) (attribute attrs (m_id m)) \/
                                    absent (m_ty m) (attribute attrs (m_id m))) /\
     forall rf, reply x f attrs rf -> (need (VStruct rf) <= fuel)%nat) ->
  (forall f h vals attrs text h', In f fs -> handle h (fn_name f) vals = ((attrs, Some text), h') ->
     exc_ok (MkExc INTERNAL_ERROR (s_internal ++ fn_name f ++ s_colon ++ text))) ->
  (forall f args, In (f, args) l -> In f fs /\ fn_oneway f = false /\ kept_args x f args /\
     forall wv, wireof x (TyStruct (args_name f) (fn_args f)) (args_val f args) wv -> (need wv <= fuel)%nat) ->
  exists rs st, calls (binaryR strict) (binaryW strictW) nop (fun s => s) (fun s => s) x M cf fuel errtext handle
      fs bdrain bfeed cut 0 l (bstart h) = Ok (rs, st) /\
    serves handle l h rs (pr_h st) /\
    o_own (pr_w st) = MkWt [] [] /\ pr_out st = MkWt [] [] /\
    content (i_own (pr_w st)) = [] /\ content (pr_in st) = [].
Proof.
  intros H strict strictW x M cf fuel errtext handle fs cut l h Ho Hst Hc F4 Fok Nd Hok Tok Lok.
  destruct (C47_binary_states_partial H strict strictW x M cf fuel errtext handle (fun _ => True) fs cut l h)
    as (rs & st & E & Sv & _ & A); try assumption; auto.
  - intros f args h0 vals attrs h' Hl _ _. apply Hok. exact (proj1 (Lok f args Hl)).
  - intros f args h0 vals attrs text h' Hl _ _. apply Tok. exact (proj1 (Lok f args Hl)).
  - exists rs, st. auto.
Qed.
Print Assumptions C47_binary_partial.

(** The same over the compact protocol, for values it carries: no binary, no false boolean
    members, ids that are kept (C18, C19, C48). *)
Definition cdrain (s : cw) : bytes * cw := (w_out (fst s), (MkWt [] [], snd s)).
Definition cfeed (s : cr) (cs : list bytes) : cr := (fst s ++ map (fun c => (c, None)) cs, snd s).
Definition cstart {H} (h : H) : @pair cr cw H :=
  MkPair new_client_factory (MkWorld (MkWt [] [], cinit) (MkWt [] [], cinit) ([], cinit) ([], cinit)) h
         ([], cinit) (MkWt [] [], cinit).
Definition cfreshW (s : cw) : cw := (fst s, cinit).
Definition cfreshR (s : cr) : cr := (fst s, cinit).
Theorem C47_compact_states_partial : forall H x M cf fuel errtext
    (handle : H -> bytes -> list any -> (list (Z * any) * option bytes) * H) (Inv : H -> Prop) fs cut l h,
  orders x -> cuts cut -> (4 <= fuel)%nat ->
  (forall f, In f fs -> func_ok f) -> NoDup (map fn_name fs) ->
  (forall f m, In f fs -> In m (fn_args f ++ result_members f) -> no_binary (m_ty m)) ->
  Inv h ->
  (forall f args h vals, In (f, args) l -> Inv h -> Forall2 same args vals -> Inv (snd (handle h (fn_name f) vals))) ->
  (forall f args h vals attrs h', In (f, args) l -> Inv h -> Forall2 same args vals -> handle h (fn_name f) vals = ((attrs, None), h') ->
     (forall m, chosen f attrs m -> kept x (m_ty m) (attribute attrs (m_id m)) \/
                                    absent (m_ty m) (attribute attrs (m_id m))) /\
     forall rf, reply x f attrs rf -> cokv (VStruct rf) /\ (need (VStruct rf) <= fuel)%nat) ->
  (forall f args h vals attrs text h', In (f, args) l -> Inv h -> Forall2 same args vals -> handle h (fn_name f) vals = ((attrs, Some text), h') ->
     exc_ok (MkExc INTERNAL_ERROR (s_internal ++ fn_name f ++ s_colon ++ text))) ->
  (forall f args, In (f, args) l -> In f fs /\ fn_oneway f = false /\ kept_args x f args /\
     forall wv, wireof x (TyStruct (args_name f) (fn_args f)) (args_val f args) wv ->
       cokv wv /\ (need wv <= fuel)%nat) ->
  exists rs st, calls compactR compactW nop cfreshR cfreshW x M cf fuel errtext handle
      fs cdrain cfeed cut 0 l (cstart h) = Ok (rs, st) /\
    serves handle l h rs (pr_h st) /\ Inv (pr_h st) /\
    w_out (fst (o_own (pr_w st))) = [] /\ w_out (fst (pr_out st)) = [] /\
    content (fst (i_own (pr_w st))) = [] /\ content (fst (pr_in st)) = [].
Proof.
  intros H x M cf fuel errtext handle Inv fs cut l h Ho Hc F4 Fok Nd Nb Hi His Hok Tok Lok.
  destruct (calls_served compactR compactW nop cfreshR cfreshW x M cf fuel errtext handle
    false true true cow cow cir cir sc_val sc_message [] cokm exc_ok cokv func_ok (fun _ => True)
    cow_val cow_exc cow_msg cow_end cow_nop (fun name t seq v s rest Ht Km _ _ => cir_msg name t seq s (sc_val v ++ rest) Ht Km)
    cir_val cir_end) with
    (drain := cdrain) (feed := cfeed) (cut := cut) (safe := Forall (fun c : bytes => c <> [])) (Inv := Inv) (fs := fs) (l := l) (n := 0%nat) (st := cstart h)
    as (rs & st & E & Sv & Iv & (c1 & A1 & _) & (c2 & A2 & _) & (_ & A3 & _) & (_ & A4 & _)); try assumption;
    try reflexivity.
  - intros s o (c & -> & _). exists cinit. split; reflexivity.
  - auto.
  - exact okm_of.
  - exact exc_both.
  - intros s o (c & -> & Hb). split; [reflexivity|]. exists c. split; [reflexivity|exact Hb].
  - intros [r c] cs (B & X & N) F. cbn [fst snd] in *. split; [apply feed_benign; assumption|].
    split; [|exact N]. cbn [cfeed fst]. rewrite feed_content, X. reflexivity.
  - intros n b _. apply Hc.
  - intros f args h0 vals Hl Hi0 Fv. split; [|exact (His f args h0 vals Hl Hi0 Fv)].
    pose proof (proj1 (Lok f args Hl)) as Hf. unfold does_ok. destruct (handle h0 (fn_name f) vals) as [[attrs [text|]] h1] eqn:E.
    + eapply Tok; eassumption.
    + destruct (Hok f args h0 vals attrs h1 Hl Hi0 Fv E) as [K N].
      split; [intros m Hm _; eapply Nb; [exact Hf|apply in_app_iff; right; exact Hm]|].
      split; [exact K|exact N].
  - intros f args Hl. destruct (Lok f args Hl) as (Hf & One & [La Ka] & N).
    split; [exact Hf|]. split; [exact One|]. split; [exact La|].
    split; [intros _; apply nb_struct; intros m Hm; eapply Nb; [exact Hf|apply in_app_iff; left; exact Hm]|].
    split; [exact Ka|exact N].
  - exists cinit. split; reflexivity.
  - exists cinit. split; reflexivity.
  - split; [constructor|split; reflexivity].
  - split; [constructor|split; reflexivity].
  - exists rs, st. split; [exact E|]. split; [exact Sv|]. split; [exact Iv|]. rewrite A1, A2. auto.
Qed.
Print Assumptions C47_compact_states_partial.
Theorem C47_compact_partial : forall H x M cf fuel errtext
    (handle : H -> bytes -> list any -> (list (Z * any) * option bytes) * H) fs cut l h,
  orders x -> cuts cut -> (4 <= fuel)%nat ->
  (forall f, In f fs -> func_ok f) -> NoDup (map fn_name fs) ->
  (forall f m, In f fs -> In m (fn_args f ++ result_members f) -> no_binary (m_ty m)) ->
  (forall f h vals attrs h', In f fs -> handle h (fn_name f) vals = ((attrs, None), h') ->
     (forall m, chosen f attrs m -> kept x (m_ty m) (attribute attrs (m_id m)) \/
                                    absent (m_ty m) (attribute attrs (m_id m))) /\
     forall rf, reply x f attrs rf -> cokv (VStruct rf) /\ (need (VStruct rf) <= fuel)%nat) ->
  (forall f h vals attrs text h', In f fs -> handle h (fn_name f) vals = ((attrs, Some text), h') ->
     exc_ok (MkExc INTERNAL_ERROR (s_internal ++ fn_name f ++ s_colon ++ text))) ->
  (forall f args, In (f, args) l -> In f fs /\ fn_oneway f = false /\ kept_args x f args /\
     forall wv, wireof x (TyStruct (args_name f) (fn_args f)) (args_val f args) wv ->
       cokv wv /\ (need wv <= fuel)%nat) ->
  exists rs st, calls compactR compactW nop cfreshR cfreshW x M cf fuel errtext handle
      fs cdrain cfeed cut 0 l (cstart h) = Ok (rs, st) /\
    serves handle l h rs (pr_h st) /\
    w_out (fst (o_own (pr_w st))) = [] /\ w_out (fst (pr_out st)) = [] /\
    content (fst (i_own (pr_w st))) = [] /\ content (fst (pr_in st)) = [].
Proof.
  intros H x M cf fuel errtext handle fs cut l h Ho Hc F4 Fok Nd Nb Hok Tok Lok.
  destruct (C47_compact_states_partial H x M cf fuel errtext handle (fun _ => True) fs cut l h)
    as (rs & st & E & Sv & _ & A); try assumption; auto.
  - intros f args h0 vals attrs h' Hl _ _. apply Hok. exact (proj1 (Lok f args Hl)).
  - intros f args h0 vals attrs text h' Hl _ _. apply Tok. exact (proj1 (Lok f args Hl)).
  - exists rs, st. auto.
Qed.
Print Assumptions C47_compact_partial.

(** Pieces of two bytes. *)
Fixpoint pairs_of (b : bytes) : list bytes :=
  match b with
  | [] => []
  | [a] => [[a]]
  | a :: c :: b' => [a; c] :: pairs_of b'
  end.
Lemma pairs_cuts : cuts (fun _ => pairs_of).
Proof.
  intros n b. assert (G : forall k b, (length b <= k)%nat ->
    concat (pairs_of b) = b /\ Forall (fun c => c <> []) (pairs_of b)).
  { clear. induction k as [|k IH]; intros [|a [|c b]] L; cbn in L; try lia; cbn [pairs_of concat app];
      try (split; [reflexivity|repeat constructor; discriminate]).
    destruct (IH b ltac:(lia)) as [E F]. rewrite E. split; [reflexivity|]. constructor; [discriminate|exact F]. }
  apply (G (length b)). lia.
Qed.
Definition arg0 (a : Z) : list any := [AInt32 a; AList 0 STRING []].
Example C47_case :
  orders ext0 /\ cuts (fun _ => pairs_of) /\ (forall f, In f ex_fs -> func_ok f) /\ NoDup (map fn_name ex_fs) /\
  (forall f h vals attrs h', In f ex_fs -> ex_handle h (fn_name f) vals = ((attrs, None), h') ->
     (forall m, chosen f attrs m -> kept ext0 (m_ty m) (attribute attrs (m_id m)) \/
                                    absent (m_ty m) (attribute attrs (m_id m))) /\
     forall rf, reply ext0 f attrs rf -> cokv (VStruct rf) /\ (need (VStruct rf) <= 40)%nat) /\
  (forall f h vals attrs text h', In f ex_fs -> ex_handle h (fn_name f) vals = ((attrs, Some text), h') ->
     exc_ok (MkExc INTERNAL_ERROR (s_internal ++ fn_name f ++ s_colon ++ text))) /\
  (forall f m, In f ex_fs -> In m (fn_args f ++ result_members f) -> no_binary (m_ty m)) /\
  kept_args ext0 ex_add ex_args /\
  (forall wv, wireof ext0 (TyStruct (args_name ex_add) (fn_args ex_add)) (args_val ex_add ex_args) wv ->
     cokv wv /\ (need wv <= 40)%nat) /\
  let l := [(ex_add, arg0 5); (ex_add, arg0 0); (ex_add, arg0 (-1)); (ex_note, [AStr [120]]); (ex_add, ex_args)] in
  let rs := [([(0, AInt64 15); (1, ANil)], None);
             ([(0, AInt64 0); (1, ANil)],
               Some (RApp (MkExc 6 (s_internal ++ [97; 100; 100; 58; 32; 122; 101; 114; 111]))));
             ([(0, AInt64 0); (1, ex_raise [110; 101; 103])], None);
             ([], None);
             ([(0, AInt64 18); (1, ANil)], None)] in
  (exists st, calls (binaryR true) (binaryW true) nop (fun s => s) (fun s => s) ext0 64 5 40 errtext0 ex_handle
     ex_fs bdrain bfeed (fun _ => pairs_of) 0 l (bstart 10) = Ok (rs, st) /\ pr_h st = 14) /\
  (exists st, calls compactR compactW nop cfreshR cfreshW ext0 64 5 40 errtext0 ex_handle
     ex_fs cdrain cfeed (fun _ => pairs_of) 0 l (cstart 10) = Ok (rs, st) /\ pr_h st = 14).
Proof.
  split; [exact ext0_orders|]. split; [exact pairs_cuts|].
  split; [intros f Hf; apply ex_ok; destruct Hf as [<-|[<-|[]]]; cbn; auto|].
  split; [nodup|]. split.
  { intros f h vals attrs h' Hf E. destruct (ex_kept f h vals attrs h' Hf E) as [K N]. split; [exact K|].
    intros rf Rp. destruct (N rf Rp). split; [assumption|lia]. }
  split; [exact ex_texts|]. split.
  { intros f m Hf Hm. destruct Hf as [<-|[<-|[]]]; cbn in Hm;
      repeat (destruct Hm as [<-|Hm]; [cbn; repeat constructor; intros ? [<-|[]]; constructor|]); destruct Hm. }
  split; [exact ex_args_kept|]. split.
  { intros wv Ww. rewrite (wireof_fun _ _ _ _ _ Ww ex_args_wire). split; [split; reflexivity|cbn; lia]. }
  cbv zeta. split; eexists; (split; [vm_compute; reflexivity|reflexivity]).
Qed.

(** Oneway calls break the ones after them: the processor answers them too, the client does not
    read that answer and takes it for the next call's. *)
Theorem C47_oneway_refuted : exists l rs st,
  (forall f args, In (f, args) l -> func_ok f /\ kept_args ext0 f args) /\
  calls (binaryR true) (binaryW true) nop (fun s => s) (fun s => s) ext0 64 5 40 errtext0 ex_handle
    [ex_add; ex_fire] bdrain bfeed (fun _ => pairs_of) 0 l (bstart 10) = Ok (rs, st) /\
  rs = [([], None); ([(0, AInt64 0); (1, ANil)], Some (RApp (MkExc BAD_SEQUENCE_ID s_sequence)))] /\
  ~ exists h, serves ex_handle l 10 rs h.
Proof.
  exists [(ex_fire, [AStr [120]]); (ex_add, ex_args)]. eexists _, _.
  split.
  { intros f args [E|[E|[]]]; injection E; intros; subst; (split; [apply ex_ok; cbn; auto|]).
    - split; [reflexivity|]. apply k_struct; [reflexivity| |]; intros m [<-|[]]; cbn; try discriminate.
      intros _. apply k_string; [concrete|vm_compute; reflexivity].
    - exact ex_args_kept. }
  split; [vm_compute; reflexivity|]. split; [reflexivity|].
  intros (h & Sv). inversion Sv as [|? ? ? ? ? ? ? ? _ S2]; subst.
  inversion S2 as [|? ? ? ? ? ? ? ? S3 _]; subst. inversion S3.
Qed.
Print Assumptions C47_oneway_refuted.

(** Over the compact protocol a call whose result is false fails. *)
Theorem C47_compact_false_refuted : exists f args (handle : unit -> bytes -> list any -> _) e st,
  func_ok f /\ kept_args ext0 f args /\ (forall vals, handle tt (fn_name f) vals = (([(0, ABool false)], None), tt)) /\
  calls compactR compactW nop cfreshR cfreshW ext0 64 5 40 errtext0 handle
    [f] cdrain cfeed (fun _ => pairs_of) 0 [(f, args)] (cstart tt) = Ok ([([(0, ABool false)], Some (RErr e))], st).
Proof.
  exists ex_even, [AInt32 3], (fun h _ _ => (([(0, ABool false)], None), h)).
  eexists _, _. split; [apply ex_ok; cbn; auto|]. split.
  { split; [reflexivity|]. apply k_struct; [reflexivity| |]; intros m [<-|[]]; cbn; try discriminate.
    intros _. apply k_i32. unfold in_s. cbn. lia. }
  split; [reflexivity|]. vm_compute. reflexivity.
Qed.
Print Assumptions C47_compact_false_refuted.
