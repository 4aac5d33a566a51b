(** Properties of serving a connection: C103, C104. *)
From Coq Require Import ZArith List Bool Lia.
From Coq Require Import ZifyBool ZifyNat.
From Verif Require Import Base Errors Transport Proto Skip Arith Values Codec SkipProofs BinaryProofs BinarySpec Binary BinaryMsg
  TransportProofs Compact CompactSpec CompactProofs CompactRead CompactStruct CompactExact Buffer Framed FramedProofs Over Het OverSim OverInst OverRpc WfDec.
From Verif Require Import TField GoVal Compare TMap Gen GenSpec GenProofs GenInst GenRound PropGen.
From Verif Require Import AppExc AppExcProofs PropRpc Rpc RpcProofs PropService Serve ServeProofs ServeRounds.
Import ListNotations.
Open Scope Z_scope.

(** ** C103: a connection's requests are answered in order, up to the first that fails *)

(** Whatever factories the server was made with (plain or framed transports, binary or compact
    protocols, input and output independently), whatever requests the client sends, however its
    bytes are cut into frames and Reads, and whenever Stop is called: what the server sends is
    the answers of [session], each in its frame if the output is framed, and the handler's state
    is the one [session] gives. *)
Theorem C103_session : forall H intw sv x M cf fuel errtext
    (handle : H -> bytes -> list any -> (list (Z * any) * option bytes) * H) fs strict stopped reqs bs ps r rounds h,
  32 <= intw -> header_ok (sv_in_p sv) strict -> service_ok x fuel handle fs (sv_out_p sv) ->
  Forall (request_ok x fuel fs (sv_in_p sv) (sv_out_p sv)) reqs -> Forall2 (sent x (sv_in_p sv) strict) reqs bs ->
  concat ps = concat bs -> Forall (carries (sv_in_t sv)) ps ->
  benign r -> content r = concat (map (carry (sv_in_t sv)) ps) -> (length reqs < rounds)%nat ->
  exists h' out left,
    processRequest x M cf fuel errtext handle fs stopped intw sv rounds h r =
      Ok (h', concat (map (fun a => carry (sv_out_t sv) (told (sv_out_p sv) a)) out)) /\
    session x handle h reqs out h' left.
Proof. exact connection. Qed.
Print Assumptions C103_session.

Definition asked_name (r : request) : bytes := match r with Known f _ _ => fn_name f | Unknown name _ _ _ => name end.
Definition asked_seq (r : request) : Z := match r with Known _ _ seq => seq | Unknown _ _ seq _ => seq end.
Definition answer_for (r : request) (a : answer) : Prop := a_name a = asked_name r /\ a_seq a = asked_seq r.

(** One answer per request, in order, under its name and sequence id; only the last may be an
    EXCEPTION, and it is one exactly if the connection ended before the requests did or with
    them. *)
Theorem C103_in_order : forall H x (handle : H -> bytes -> list any -> (list (Z * any) * option bytes) * H) h reqs out h' left,
  session x handle h reqs out h' left ->
  exists done, reqs = done ++ left /\ Forall2 answer_for done out /\
    ((left = [] /\ Forall (fun a => a_kind a = REPLY) out) \/
     exists before last, out = before ++ [last] /\ Forall (fun a => a_kind a = REPLY) before /\ a_kind last = EXCEPTION).
Proof.
  intros H x handle h reqs out h' left Se. induction Se as [h|h r a h1 rs out h2 left A Se IH|h r a h1 rs A].
  - exists []. split; [reflexivity|]. split; [constructor|]. left. split; [reflexivity|constructor].
  - destruct IH as (done & -> & F & K). exists (r :: done). split; [reflexivity|].
    assert (Af : answer_for r a /\ a_kind a = REPLY) by (inversion A; subst; (split; [split|]; reflexivity)).
    destruct Af as [Af Ak]. split; [constructor; assumption|].
    destruct K as [[El K]|(before & last & -> & K & L)].
    + left. split; [exact El|constructor; assumption].
    + right. exists (a :: before), last. split; [reflexivity|]. split; [constructor; assumption|exact L].
  - exists [r]. split; [reflexivity|].
    assert (Af : answer_for r a /\ a_kind a = EXCEPTION) by (inversion A; subst; (split; [split|]; reflexivity)).
    destruct Af as [Af Ak]. split; [constructor; [assumption|constructor]|].
    right. exists [], a. split; [reflexivity|]. split; [constructor|exact Ak].
Qed.
Print Assumptions C103_in_order.

(** If all requests are calls of the service's functions and the handler fails none, all are
    answered, each with a REPLY. *)
Theorem C103_all_replied : forall H x (handle : H -> bytes -> list any -> (list (Z * any) * option bytes) * H) h reqs out h' left,
  session x handle h reqs out h' left ->
  (forall r, In r reqs -> exists f args seq, r = Known f args seq /\
     forall h0 vals, Forall2 same args vals -> snd (fst (handle h0 (fn_name f) vals)) = None) ->
  left = [] /\ length out = length reqs /\ Forall2 answer_for reqs out /\ Forall (fun a => a_kind a = REPLY) out.
Proof.
  intros H x handle h reqs out h' left Se K. assert (Nf : forall r, In r reqs -> forall h0 a h1, ~ answers x handle h0 r a h1 false).
  { intros r Hr h0 a h1 A. destruct (K r Hr) as (f & args & seq & -> & G).
    inversion A as [|? ? ? vals attrs text ? Sm Eh|]; subst. specialize (G h0 vals Sm). rewrite Eh in G. discriminate. }
  clear K. induction Se as [h|h r a h1 rs out h2 left A Se IH|h r a h1 rs A].
  - repeat split; constructor.
  - destruct IH as (-> & L & F & R); [intros r' Hr'; apply Nf; right; exact Hr'|].
    split; [reflexivity|]. split; [cbn; lia|]. inversion A; subst; (split; constructor; auto; split; reflexivity).
  - destruct (Nf r (or_introl eq_refl) h a h1 A).
Qed.
Print Assumptions C103_all_replied.

(** A request for an unknown method, or one whose handler fails, is the last to be read: what
    follows it is not answered, whatever it is. *)
Theorem C103_ends_connection : forall H x (handle : H -> bytes -> list any -> (list (Z * any) * option bytes) * H)
    h before r after out h' left,
  session x handle h (before ++ r :: after) out h' left ->
  (forall h0 a h1, answers x handle h0 r a h1 true -> False) ->
  (length out <= S (length before))%nat /\ exists mid, left = mid ++ after.
Proof.
  intros H x handle h before r after. revert h. induction before as [|b before IH]; intros h out h' left Se No.
  - cbn [app] in Se. inversion Se; subst.
    + match goal with A : answers _ _ _ _ _ _ true |- _ => destruct (No _ _ _ A) end.
    + split; [cbn; lia|exists []; reflexivity].
  - cbn [app] in Se. inversion Se as [|? ? ? ? ? out1 ? ? A Se1|? ? ? ? ? A]; subst.
    + destruct (IH _ _ _ _ Se1 No) as [L Q]. split; [cbn; lia|exact Q].
    + split; [cbn; lia|]. exists (before ++ [r]). rewrite <- app_assoc. reflexivity.
Qed.
Print Assumptions C103_ends_connection.

(** Stop changes nothing for a connection that is being served, whatever it receives. *)
Theorem C103_stop : forall H intw sv x M cf fuel errtext
    (handle : H -> bytes -> list any -> (list (Z * any) * option bytes) * H) fs stopped stopped' rounds h r,
  processRequest x M cf fuel errtext handle fs stopped intw sv rounds h r =
  processRequest x M cf fuel errtext handle fs stopped' intw sv rounds h r.
Proof.
  intros. unfold processRequest. f_equal. apply loop_stop.
Qed.
Print Assumptions C103_stop.

(** A server given one transport factory and one protocol factory answers as it is asked. *)
Theorem C103_same_factories : forall H intw t p x M cf fuel errtext
    (handle : H -> bytes -> list any -> (list (Z * any) * option bytes) * H) fs strict stopped reqs bs ps r rounds h,
  32 <= intw -> header_ok p strict -> service_ok x fuel handle fs p ->
  Forall (request_ok x fuel fs p p) reqs -> Forall2 (sent x p strict) reqs bs ->
  concat ps = concat bs -> Forall (carries t) ps ->
  benign r -> content r = concat (map (carry t) ps) -> (length reqs < rounds)%nat ->
  exists h' out left,
    processRequest x M cf fuel errtext handle fs stopped intw (NewTSimpleServer4 t p) rounds h r =
      Ok (h', concat (map (fun a => carry t (told p a)) out)) /\
    session x handle h reqs out h' left.
Proof.
  intros H intw t p x M cf fuel errtext handle fs strict stopped reqs bs ps r rounds h.
  exact (connection H intw (NewTSimpleServer4 t p) x M cf fuel errtext handle fs strict stopped reqs bs ps r rounds h).
Qed.
Print Assumptions C103_same_factories.

(** A server given no factories reads both kinds of header, and writes versioned ones. *)
Theorem C103_default : forall H intw x M cf fuel errtext
    (handle : H -> bytes -> list any -> (list (Z * any) * option bytes) * H) fs strict stopped reqs bs r rounds h,
  32 <= intw -> service_ok x fuel handle fs (PFBinary false true) ->
  Forall (request_ok x fuel fs (PFBinary false true) (PFBinary false true)) reqs ->
  Forall2 (sent x (PFBinary false true) strict) reqs bs -> benign r -> content r = concat bs -> (length reqs < rounds)%nat ->
  exists h' out left,
    processRequest x M cf fuel errtext handle fs stopped intw NewTSimpleServer2 rounds h r =
      Ok (h', concat (map (fun a => sb_message_strict (a_name a) (a_kind a) (a_seq a) ++ sb_val (VStruct (a_body a))) out)) /\
    session x handle h reqs out h' left.
Proof.
  intros H intw x M cf fuel errtext handle fs strict stopped reqs bs r rounds h Hi Sv Rq Sn B C L.
  apply (connection H intw NewTSimpleServer2 x M cf fuel errtext handle fs strict stopped reqs bs [concat bs] r rounds h);
    auto.
  - right. reflexivity.
  - apply app_nil_r.
  - constructor; [exact I|constructor].
  - cbn [map carry NewTSimpleServer2 sv_in_t NewTSimpleServerFactory2 NewTSimpleServerFactory6 concat]. rewrite app_nil_r. exact C.
Qed.
Print Assumptions C103_default.

(** *** Hypotheses met: the example service of C44. *)
Lemma ex_service : forall op, service_ok ext0 40 ex_handle ex_fs op.
Proof.
  intro op. split; [exact ext0_orders|]. split; [intros f Hf; apply ex_ok; destruct Hf as [<-|[<-|[]]]; cbn; auto|].
  split; [nodup|]. split.
  { intros f h vals attrs h' Hf E. destruct (ex_kept f h vals attrs h' Hf E) as [K N]. split; [exact K|].
    intros rf Rp. destruct (N rf Rp). lia. }
  intros _. split; [|exact ex_texts].
  intros f m Hf Hm. destruct Hf as [<-|[<-|[]]]; cbn in Hm;
    repeat (destruct Hm as [<-|Hm]; [cbn; repeat constructor; intros ? [<-|[]]; constructor|]); destruct Hm.
Qed.
Definition ex_reqs : list request :=
  [Known ex_add ex_args 9; Unknown [122] CALL 10 [(1, VI32 5)]; Known ex_add ex_args 11].
Lemma ex_requests : forall ip op, Forall (request_ok ext0 40 ex_fs ip op) ex_reqs.
Proof.
  intros ip op. assert (K : forall seq, in_s 32 seq -> request_ok ext0 40 ex_fs ip op (Known ex_add ex_args seq)).
  { intros seq Hs. split; [cbn; auto|]. split; [exact ex_args_kept|]. split; [exact Hs|].
    intros w Ww. rewrite (wireof_fun _ _ _ _ _ Ww ex_args_wire). split; [cbn; lia|]. intros _. split; reflexivity. }
  constructor; [apply K; unfold in_s; cbn; lia|]. constructor; [|constructor; [apply K; unfold in_s; cbn; lia|constructor]].
  split; [intros f [<-|[<-|[]]]; discriminate|]. split; [auto|]. split; [cbn; lia|]. split; [unfold in_s; cbn; lia|].
  split; [concrete|]. split; [cbn; lia|]. split; [intros _; split; reflexivity|].
  intros _. split; [concrete|]. split; [concrete|vm_compute; reflexivity].
Qed.
Definition ex_wires (pf : pfactory) (strict : bool) : list bytes :=
  [wire_msg pf strict [97; 100; 100] CALL 9 ++ wire_val pf ex_argsw;
   wire_msg pf strict [122] CALL 10 ++ wire_val pf (VStruct [(1, VI32 5)]);
   wire_msg pf strict [97; 100; 100] CALL 11 ++ wire_val pf ex_argsw].
Lemma ex_sent : forall pf strict, Forall2 (sent ext0 pf strict) ex_reqs (ex_wires pf strict).
Proof.
  intros pf strict. constructor; [apply (sn_known _ _ _ ex_add ex_args 9 _ ex_args_wire)|].
  constructor; [apply sn_unknown|]. constructor; [apply (sn_known _ _ _ ex_add ex_args 11 _ ex_args_wire)|constructor].
Qed.
(** The default server, given requests with the old header in pieces of two bytes; a server
    reading compact frames, two requests in the first, and answering in binary: the first request
    is answered, the second refused, the third left. *)
Definition ex_two (b : bytes) : rt := map (fun c => (c, None)) (pairs_of b).
Example C103_case :
  service_ok ext0 40 ex_handle ex_fs NewTBinaryProtocolFactoryDefault /\
  (forall ip op, Forall (request_ok ext0 40 ex_fs ip op) ex_reqs) /\
  (forall pf strict, Forall2 (sent ext0 pf strict) ex_reqs (ex_wires pf strict)) /\
  let told1 a b := [MkAnswer [97; 100; 100] REPLY 9 [(0, VI64 a)];
                    MkAnswer [122] EXCEPTION b (exc_fields (MkExc UNKNOWN_METHOD (s_unknown ++ [122])))] in
  (let r := ex_two (concat (ex_wires NewTBinaryProtocolFactoryDefault false)) in
   benign r /\
   processRequest ext0 64 5 40 errtext0 ex_handle ex_fs (fun n => (1 <=? n)%nat) 64 NewTSimpleServer2 4 7 r =
     Ok (8, concat (map (told NewTBinaryProtocolFactoryDefault) (told1 12 10)))) /\
  (let sv := NewTSimpleServer6 TFFramed TFFramed PFCompact (PFBinary true false) in
   let ws := ex_wires PFCompact true in
   let ps := [nth 0 ws [] ++ nth 1 ws []; nth 2 ws []] in
   let r := ex_two (concat (map frame ps)) in
   benign r /\ concat ps = concat ws /\ Forall payload_ok ps /\
   processRequest ext0 64 5 40 errtext0 ex_handle ex_fs (fun _ => false) 64 sv 4 7 r =
     Ok (8, concat (map (fun a => frame (told (PFBinary true false) a)) (told1 12 10)))) /\
  session ext0 ex_handle 7 ex_reqs (told1 12 10) 8 [Known ex_add ex_args 11].
Proof.
  split; [apply ex_service|]. split; [exact ex_requests|]. split; [exact ex_sent|]. cbv zeta.
  split; [|split].
  - split; [apply benignb_ok; vm_compute; reflexivity|]. vm_compute. reflexivity.
  - split; [apply benignb_ok; vm_compute; reflexivity|]. split; [vm_compute; reflexivity|].
    split; [|vm_compute; reflexivity].
    constructor; [split; [discriminate|vm_compute; reflexivity]|].
    constructor; [split; [discriminate|vm_compute; reflexivity]|constructor].
  - eapply se_more.
    + eapply (as_reply ext0 ex_handle 7 ex_add ex_args 9 ex_args [(0, AInt64 12); (1, ANil)] 8).
      * constructor; [constructor; reflexivity|]. constructor; [|constructor].
        apply same_list. repeat constructor.
      * reflexivity.
      * eapply rp_val; [intros m [Hm Nm]; destruct Hm as [<-|[]]; apply Nm; reflexivity|reflexivity|].
        constructor. unfold in_s. cbn. lia.
    + apply se_last. constructor.
Qed.

(** ** C104: a connection ends, and only answers are sent on it, whatever is received *)

(** Whatever a client sends, with Reads that fail or give nothing among the others: a server on
    plain input runs Process at most once for each byte and Read to come and once more; a larger
    bound changes nothing. *)
Theorem C104_rounds : forall H intw sv x M cf fuel errtext
    (handle : H -> bytes -> list any -> (list (Z * any) * option bytes) * H) fs stopped k h (r : rt),
  sv_in_t sv = TFPlain ->
  processRequest x M cf fuel errtext handle fs stopped intw sv (S (length (content r) + length r) + k) h r =
  processRequest x M cf fuel errtext handle fs stopped intw sv (S (length (content r) + length r)) h r.
Proof.
  intros H intw [it ot ip op] x M cf fuel errtext handle fs stopped k h r Et. cbn in Et. subst it.
  unfold processRequest. cbn [sv_in_t sv_out_t sv_in_p sv_out_p]. f_equal.
  destruct ip as [sr sw|]; cbn [GetReader rd_proto rd_new].
  - apply (loop_rounds _ _ _ x M cf fuel errtext handle fs size (binary_keeps sr) (takes_message sr)).
    unfold size. rewrite content_size. lia.
  - apply (loop_rounds _ _ _ x M cf fuel errtext handle fs csize compact_keeps takes_cmessage).
    unfold csize, size. cbn [fst]. rewrite content_size. lia.
Qed.
Print Assumptions C104_rounds.

(** Answers to the messages read, all REPLY but the last. *)
Inductive only_answers {H} (x : ext) (errtext : err -> bytes)
    (handle : H -> bytes -> list any -> (list (Z * any) * option bytes) * H) (fs : list func)
  : H -> list answer -> H -> Prop :=
| oa_none h : only_answers x errtext handle fs h [] h
| oa_more h name seq body h1 out h2 : answered x errtext handle fs h name REPLY body h1 true ->
    only_answers x errtext handle fs h1 out h2 ->
    only_answers x errtext handle fs h (MkAnswer name REPLY seq body :: out) h2
| oa_last h name seq body h1 : answered x errtext handle fs h name EXCEPTION body h1 false ->
    only_answers x errtext handle fs h [MkAnswer name EXCEPTION seq body] h1.

Lemma answered_kind : forall H x errtext (handle : H -> bytes -> list any -> (list (Z * any) * option bytes) * H) fs h name mt body h1 b,
  answered x errtext handle fs h name mt body h1 b -> mt = if b then REPLY else EXCEPTION.
Proof. intros. destruct H0; reflexivity. Qed.
Lemma process_header : forall SR SW H (R : rproto SR) (W : wproto SW) flush x M cf fuel errtext
    (handle : H -> bytes -> list any -> (list (Z * any) * option bytes) * H) fs h si so m e s',
  rMessageBegin R si = Ok (m, Some e, s') ->
  process R W flush x M cf fuel errtext handle fs h si so = Ok (MkPout false (Some (RErr e)) h s' so).
Proof. intros. unfold process. rewrite H0. destruct m as [[n t] sq]. reflexivity. Qed.

(** Any input: any bytes, cut anywhere, with any errors, over either transport and protocol.
    Missing: answers over the compact protocol; connections on which the processor panics. *)
Theorem C104_only_answers_partial : forall H intw sv sr sw x M cf fuel errtext
    (handle : H -> bytes -> list any -> (list (Z * any) * option bytes) * H) fs stopped rounds h r h' b,
  sv_out_p sv = PFBinary sr sw ->
  (forall f, In f fs -> func_ok f) ->
  (forall f h vals attrs h', In f fs -> handle h (fn_name f) vals = ((attrs, None), h') ->
     if fn_oneway f then (2 <= fuel)%nat
     else exists rf, reply x f attrs rf /\ (need (VStruct rf) <= fuel)%nat) ->
  processRequest x M cf fuel errtext handle fs stopped intw sv rounds h r = Ok (h', b) ->
  exists out, only_answers x errtext handle fs h out h' /\
    b = concat (map (fun a => carry (sv_out_t sv) (told (sv_out_p sv) a)) out).
Proof.
  intros H intw [it ot ip op] sr sw x M cf fuel errtext handle fs stopped rounds h r h' b Eo Fok Rok E.
  cbn in Eo. subst op. unfold processRequest in E. cbn [sv_in_t sv_out_t sv_in_p sv_out_p] in *.
  set (R := GetReader intw it ip) in *. set (W := GetWriter ot (PFBinary sr sw)) in *.
  assert (R1 : results_ok x fuel handle true true fs).
  { intros f h0 vals attrs h1 Hf Eh. specialize (Rok f h0 vals attrs h1 Hf Eh).
    destruct (fn_oneway f); [exact Rok|]. split; [|exact Rok]. intros m Hm D. discriminate. }
  assert (L : forall rounds n h si so o h' si' so', server_out ot (PFBinary sr sw) so o ->
    serve_loop x M cf fuel errtext handle fs stopped (rd_proto R) (wr_proto W) (wr_flush W) rounds n h si so = Ok (h', si', so') ->
    exists out, only_answers x errtext handle fs h out h' /\
      server_out ot (PFBinary sr sw) so' (o ++ concat (map (fun a => carry ot (told (PFBinary sr sw) a)) out))).
  { clear rounds h h' E. induction rounds as [|rounds IH]; intros n h si so o h' si' so' Ho E; [discriminate|].
    destruct (process (rd_proto R) (wr_proto W) (wr_flush W) x M cf fuel errtext handle fs h si so) as [p| |] eqn:P;
      [|cbn [serve_loop] in E; rewrite P in E; discriminate|cbn [serve_loop] in E; rewrite P in E; discriminate].
    rewrite (loop_step _ _ _ _ _ _ _ _ _ _ _ _ _ _ _ _ p P) in E.
    destruct (rMessageBegin (rd_proto R) si) as [[[[[name t] seq] [e|]] s1]| |] eqn:Hd.
    - rewrite (process_header _ _ _ _ _ _ _ _ _ _ _ _ _ _ _ _ _ _ _ Hd) in P. injection P; intros; subst p.
      cbn in E. injection E; intros; subst. exists []. split; [constructor|]. cbn. rewrite app_nil_r. exact Ho.
    - assert (Q : exists body, answered x errtext handle fs h name (if p_success p then REPLY else EXCEPTION) body (p_h p) (p_success p) /\
        server_out ot (PFBinary sr sw) (p_out p) (o ++ carry ot (told (PFBinary sr sw)
          (MkAnswer name (if p_success p then REPLY else EXCEPTION) seq body)))).
      { destruct (writer_round ot (PFBinary sr sw) so o Ho) as (simo & simf & so2 & o2 & WW & FF & So & Ho2 & Ne & Back).
        pose proof (hprocess false eq simo simf (rd_proto R) (rd_proto R) _ _ _ _ (rrel_refl _ _) WW FF x M cf fuel errtext handle
          fs h si si so so2 eq_refl So) as Q.
        fold W in Q. rewrite P in Q.
        destruct (process (rd_proto R) (wr_proto (GetWriter TFPlain (PFBinary sr sw))) (wr_flush (GetWriter TFPlain (PFBinary sr sw)))
          x M cf fuel errtext handle fs h si so2) as [p2| |] eqn:P2; cbn in Q; try contradiction.
        destruct Q as (Qs & _ & Qh & _ & Qo).
        pose proof (process_once (rd_proto R) (binaryW sw) nop (fun s => s) x M cf fuel errtext handle true true
          bow bow (fun _ _ => True) (fun _ _ => True) sb_val (bmsg sw) [] (fun _ _ => True) (fun _ => True) func_ok (fun _ => True)
          (bow_val sw) (bow_exc sw) (bow_msg sw) bow_end bow_nop fs h si so2 o2 p2 Fok R1 ltac:(repeat split) Ho2 P2) as O.
        rewrite Hd in O. destruct (O I) as (mt & body & A & B). rewrite app_nil_r in B.
        pose proof (answered_kind _ _ _ _ _ _ _ _ _ _ _ A) as ->. rewrite Qs, Qh. exists body. split; [exact A|].
        change (plain_out (PFBinary sr sw) (p_out p2) (o2 ++ told (PFBinary sr sw)
          (MkAnswer name (if p_success p2 then REPLY else EXCEPTION) seq body))) in B.
        destruct Qo as [[_ Qo]|Qo]; [destruct (Ne _ (eq_ind _ (fun s => plain_out (PFBinary sr sw) s _) B _ Qo))|apply (Back _ _ _ Qo B)]. }
      destruct Q as (body & A & Ho'). destruct (p_success p).
      + destruct (IH _ _ _ _ _ _ _ _ Ho' E) as (out & Oa & Ho2).
        eexists (_ :: out). split; [eapply oa_more; eassumption|]. cbn [map concat]. rewrite app_assoc. exact Ho2.
      + injection E; intros; subst. eexists [_]. split; [apply oa_last, A|]. cbn [map concat]. rewrite app_nil_r. exact Ho'.
    - unfold process in P. rewrite Hd in P. discriminate.
    - unfold process in P. rewrite Hd in P. discriminate. }
  destruct (serve_loop x M cf fuel errtext handle fs stopped (rd_proto R) (wr_proto W) (wr_flush W) rounds 0 h
    (rd_new R r) (wr_new W (MkWt [] []))) as [[[h1 si'] so']| |] eqn:E1; cbn in E; try discriminate.
  destruct (L _ _ _ _ _ _ _ _ _ (server_out_new ot (PFBinary sr sw)) E1) as (out & Oa & Ho).
  exists out. injection E; intros <- <-. split; [exact Oa|]. apply server_out_sent in Ho. exact Ho.
Qed.
Print Assumptions C104_only_answers_partial.

(** A good request, a Read that gives nothing (taken for four zero bytes), garbage. *)
Example C104_case :
  let r := [(nth 0 (ex_wires NewTBinaryProtocolFactoryDefault true) [], None); ([], None); ([0; 0; 0; 1; 120; 1], None)] in
  processRequest ext0 64 5 40 errtext0 ex_handle ex_fs (fun _ => false) 64 NewTSimpleServer2
    (S (length (content r) + length r)) 7 r =
  Ok (8, concat (map (told NewTBinaryProtocolFactoryDefault)
    [MkAnswer [97; 100; 100] REPLY 9 [(0, VI64 12)];
     MkAnswer [] EXCEPTION 376 (exc_fields (MkExc UNKNOWN_METHOD s_unknown))])).
Proof. vm_compute. reflexivity. Qed.
