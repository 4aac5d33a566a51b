(** A connection with valid requests, and one with any input: processRequest of Serve.v. *)
From Coq Require Import ZArith List Bool Lia.
From Coq Require Import ZifyBool ZifyNat.
From Verif Require Import Base Errors Transport Proto Skip Arith Values Codec SkipProofs BinaryProofs BinarySpec Binary BinaryMsg
  TransportProofs Compact CompactSpec CompactProofs CompactRead CompactStruct CompactExact Buffer Framed FramedProofs Over Het OverSim OverInst OverRpc.
From Verif Require Import TField GoVal Compare TMap Gen GenSpec GenProofs GenInst GenRound PropGen.
From Verif Require Import AppExc AppExcProofs PropRpc Rpc RpcProofs PropService Serve.
Import ListNotations.
Open Scope Z_scope.

(** ** What a connection should give *)

(** A request: a call of a function with arguments, or a message with a name that is none. *)
Inductive request : Type :=
| Known (f : func) (args : list any) (seq : Z)
| Unknown (name : bytes) (t seq : Z) (fl : list (Z * tval)).
(** A message sent back: name, kind, sequence id, body. *)
Record answer : Type := MkAnswer { a_name : bytes; a_kind : Z; a_seq : Z; a_body : list (Z * tval) }.

Section Session.
Context {H : Type}.
Variable x : ext.
Variable handle : H -> bytes -> list any -> (list (Z * any) * option bytes) * H.
(** The answer to a request and whether the connection goes on: only after a reply. *)
Inductive answers (h : H) : request -> answer -> H -> bool -> Prop :=
| as_reply f args seq vals attrs h1 body : Forall2 same args vals ->
    handle h (fn_name f) vals = ((attrs, None), h1) -> reply x f attrs body ->
    answers h (Known f args seq) (MkAnswer (fn_name f) REPLY seq body) h1 true
| as_failed f args seq vals attrs text h1 : Forall2 same args vals ->
    handle h (fn_name f) vals = ((attrs, Some text), h1) ->
    answers h (Known f args seq) (MkAnswer (fn_name f) EXCEPTION seq
      (exc_fields (MkExc INTERNAL_ERROR (s_internal ++ fn_name f ++ s_colon ++ text)))) h1 false
| as_unknown name t seq fl :
    answers h (Unknown name t seq fl) (MkAnswer name EXCEPTION seq
      (exc_fields (MkExc UNKNOWN_METHOD (s_unknown ++ name)))) h false.
(** The requests, the messages sent, the handler's state after, the requests left unread. *)
Inductive session : H -> list request -> list answer -> H -> list request -> Prop :=
| se_none h : session h [] [] h []
| se_more h r a h1 rs out h2 left : answers h r a h1 true -> session h1 rs out h2 left ->
    session h (r :: rs) (a :: out) h2 left
| se_last h r a h1 rs : answers h r a h1 false -> session h (r :: rs) [a] h1 rs.
End Session.

(** ** The loop *)

(** Process reports success exactly when it returns no error. *)
Lemma process_err : forall SR SW H (R : rproto SR) (W : wproto SW) flush x M cf fuel errtext
    (handle : H -> bytes -> list any -> (list (Z * any) * option bytes) * H) fs h si so p,
  process R W flush x M cf fuel errtext handle fs h si so = Ok p -> (p_err p = None <-> p_success p = true).
Proof.
  intros SR SW H R W flush x M cf fuel errtext handle fs h si so p E. unfold process, process_fn in E.
  repeat match type of E with
  | obind ?m _ = Ok _ => destruct m as [?| |]; cbn [obind] in E; [|discriminate|discriminate]
  | (let '(_, _) := ?q in _) = Ok _ => destruct q
  | match ?q with _ => _ end = Ok _ => destruct q
  | Ok _ = Ok _ => injection E as <-; cbn; split; congruence
  end.
Qed.

Section Loop.
Context {SR SW H : Type}.
Variable R : rproto SR.
Variable W : wproto SW.
Variable flush : wop SW.
Variable x : ext.
Variable M : Z.
Variable cf fuel : nat.
Variable errtext : err -> bytes.
Variable handle : H -> bytes -> list any -> (list (Z * any) * option bytes) * H.
Variable fs : list func.

Lemma loop_step : forall stopped rounds n h si so p,
  process R W flush x M cf fuel errtext handle fs h si so = Ok p ->
  serve_loop x M cf fuel errtext handle fs stopped R W flush (S rounds) n h si so =
    if p_success p then serve_loop x M cf fuel errtext handle fs stopped R W flush rounds (S n) (p_h p) (p_in p) (p_out p)
    else Ok (p_h p, p_in p, p_out p).
Proof.
  intros stopped rounds n h si so p E. cbn [serve_loop]. rewrite E. cbn [obind]. unfold ends.
  pose proof (process_err _ _ _ _ _ _ _ _ _ _ _ _ _ _ _ _ _ E) as Q.
  destruct (p_err p) as [e|], (p_success p); try reflexivity.
  - destruct Q as [_ Q]. discriminate (Q eq_refl).
  - destruct (stopped n); reflexivity.
Qed.
(** Stop does not end a connection. *)
Lemma loop_stop : forall st1 st2 rounds n1 n2 h si so,
  serve_loop x M cf fuel errtext handle fs st1 R W flush rounds n1 h si so =
  serve_loop x M cf fuel errtext handle fs st2 R W flush rounds n2 h si so.
Proof.
  intros st1 st2. induction rounds as [|rounds IH]; intros; [reflexivity|].
  destruct (process R W flush x M cf fuel errtext handle fs h si so) as [p| |] eqn:E;
    [|cbn [serve_loop]; rewrite E; reflexivity|cbn [serve_loop]; rewrite E; reflexivity].
  rewrite !(loop_step _ _ _ _ _ _ p E). destruct (p_success p); [apply IH|reflexivity].
Qed.

(** The reader holds requests; the writer has sent bytes. *)
Variable okr : request -> Prop.
Variable ins : SR -> list request -> Prop.
Variable outs : SW -> bytes -> Prop.
Variable eans : answer -> bytes.

Definition step_ok : Prop := forall r rs h si so o, okr r -> ins si (r :: rs) -> outs so o ->
  exists p a, process R W flush x M cf fuel errtext handle fs h si so = Ok p /\
    answers x handle h r a (p_h p) (p_success p) /\ ins (p_in p) rs /\ outs (p_out p) (o ++ eans a).
Definition end_ok : Prop := forall si, ins si [] ->
  exists m e s', rMessageBegin R si = Ok (m, Some e, s') /\ ins s' [].

Theorem loop_session : step_ok -> end_ok -> forall stopped reqs rounds n h si so o,
  Forall okr reqs -> ins si reqs -> outs so o -> (length reqs < rounds)%nat ->
  exists h' si' so' out left,
    serve_loop x M cf fuel errtext handle fs stopped R W flush rounds n h si so = Ok (h', si', so') /\
    session x handle h reqs out h' left /\ outs so' (o ++ concat (map eans out)) /\ ins si' left.
Proof.
  intros St En stopped. induction reqs as [|r reqs IH]; intros rounds n h si so o K Hi Ho L;
    (destruct rounds as [|rounds]; [cbn in L; lia|]).
  - destruct (En si Hi) as (m & e & s' & E & Hi').
    assert (P : process R W flush x M cf fuel errtext handle fs h si so = Ok (MkPout false (Some (RErr e)) h s' so)).
    { unfold process. rewrite E. destruct m as [[nm t] sq]. reflexivity. }
    rewrite (loop_step _ _ _ _ _ _ _ P). cbn. exists h, s', so, [], []. split; [reflexivity|].
    split; [constructor|]. cbn. rewrite app_nil_r. auto.
  - inversion K as [|? ? K1 K2]; subst. destruct (St r reqs h si so o K1 Hi Ho) as (p & a & P & A & Hi' & Ho').
    rewrite (loop_step _ _ _ _ _ _ _ P). destruct (p_success p).
    + destruct (IH rounds (S n) (p_h p) (p_in p) (p_out p) _ K2 Hi' Ho') as (h' & si' & so' & out & left & E & Se & Ho2 & Hi2);
        [cbn in L; lia|].
      exists h', si', so', (a :: out), left. split; [exact E|]. split; [econstructor; eassumption|].
      cbn [map concat]. rewrite app_assoc. auto.
    + exists (p_h p), (p_in p), (p_out p), [a], reqs. split; [reflexivity|]. split; [apply se_last, A|].
      cbn [map concat]. rewrite app_nil_r. auto.
Qed.
End Loop.

(** ** The same over transports that answer alike *)
Section Lift.
Context {SR1 SR2 SW1 SW2 H : Type}.
Variable R1 : rproto SR1. Variable R2 : rproto SR2.
Variable W1 : wproto SW1. Variable W2 : wproto SW2.
Variable flush1 : wop SW1. Variable flush2 : wop SW2.
Variable simi : SR1 -> SR2 -> Prop.
Hypothesis RR : rrel false simi R1 R2.
Variable x : ext.
Variable M : Z.
Variable cf fuel : nat.
Variable errtext : err -> bytes.
Variable handle : H -> bytes -> list any -> (list (Z * any) * option bytes) * H.
Variable fs : list func.
Variable okr : request -> Prop.
Variable ins2 : SR2 -> list request -> Prop.
Variable outs1 : SW1 -> bytes -> Prop.
Variable outs2 : SW2 -> bytes -> Prop.
Variable eans1 eans2 : answer -> bytes.
Definition ins1 (s1 : SR1) (rs : list request) : Prop := exists s2, simi s1 s2 /\ ins2 s2 rs.

(** Each round has its own relation between the writers. *)
Hypothesis out_round : forall s1 o, outs1 s1 o -> exists simo simf s2 o2,
  wrel false simo W1 W2 /\ (forall a b, simo a b -> hsame false simf (flush1 a) (flush2 b)) /\
  simo s1 s2 /\ outs2 s2 o2 /\
  (forall a, ~ outs2 s2 (o2 ++ eans2 a)) /\
  (forall s1' s2' a, simf s1' s2' -> outs2 s2' (o2 ++ eans2 a) -> outs1 s1' (o ++ eans1 a)).

Theorem lift_step :
  step_ok R2 W2 flush2 x M cf fuel errtext handle fs okr ins2 outs2 eans2 ->
  step_ok R1 W1 flush1 x M cf fuel errtext handle fs okr ins1 outs1 eans1.
Proof.
  intros St r rs h si1 so1 o K (si2 & Si & Hi) Ho.
  destruct (out_round so1 o Ho) as (simo & simf & so2 & o2 & WW & FF & So & Ho2 & Ne & Back).
  destruct (St r rs h si2 so2 o2 K Hi Ho2) as (p2 & a & P2 & A & Hi' & Ho').
  pose proof (hprocess false simi simo simf R1 R2 W1 W2 flush1 flush2 RR WW FF x M cf fuel errtext handle
    fs h si1 si2 so1 so2 Si So) as Q.
  rewrite P2 in Q. destruct (process R1 W1 flush1 x M cf fuel errtext handle fs h si1 so1) as [p1| |];
    cbn in Q; try contradiction; try discriminate.
  destruct Q as (Qs & _ & Qh & Qi & Qo). exists p1, a. split; [reflexivity|]. split; [rewrite Qh, Qs; exact A|].
  split; [exists (p_in p2); auto|]. destruct Qo as [[_ Qo]|Qo].
  - rewrite Qo in Ho'. destruct (Ne a Ho').
  - apply (Back _ _ a Qo Ho').
Qed.
Theorem lift_end : end_ok R2 ins2 -> end_ok R1 ins1.
Proof.
  intros En s1 (s2 & Si & Hi). destruct (En s2 Hi) as (m & e & s2' & E & Hi').
  pose proof (qMessageBegin _ _ _ _ RR s1 s2 Si) as Q. rewrite E in Q.
  destruct (rMessageBegin R1 s1) as [[q s1']| |]; cbn in Q; try contradiction; try discriminate.
  destruct Q as [-> Q]. exists m, e, s1'. split; [reflexivity|exists s2'; auto].
Qed.
End Lift.

(** ** Requests on the wire *)
Definition wire_val (pf : pfactory) : tval -> bytes :=
  match pf with PFBinary _ _ => sb_val | PFCompact => sc_val end.
(** The binary protocol has two kinds of header. *)
Definition wire_msg (pf : pfactory) (strict : bool) : bytes -> Z -> Z -> bytes :=
  match pf with PFBinary _ _ => bmsg strict | PFCompact => sc_message end.
(** A request as a client with this protocol sends it. *)
Inductive sent (x : ext) (pf : pfactory) (strict : bool) : request -> bytes -> Prop :=
| sn_known f args seq w : wireof x (TyStruct (args_name f) (fn_args f)) (args_val f args) w ->
    sent x pf strict (Known f args seq) (wire_msg pf strict (fn_name f) CALL seq ++ wire_val pf w)
| sn_unknown name t seq fl :
    sent x pf strict (Unknown name t seq fl) (wire_msg pf strict name t seq ++ wire_val pf (VStruct fl)).
Definition told (pf : pfactory) (a : answer) : bytes :=
  wire_msg pf (match pf with PFBinary _ strictWrite => strictWrite | PFCompact => true end)
    (a_name a) (a_kind a) (a_seq a) ++ wire_val pf (VStruct (a_body a)).

(** Requests that the service can read, and answers it can write, with these protocols. *)
Definition request_ok (x : ext) (fuel : nat) (fs : list func) (ip op : pfactory) (r : request) : Prop :=
  match r with
  | Known f args seq => In f fs /\ kept_args x f args /\ in_s 32 seq /\
      forall w, wireof x (TyStruct (args_name f) (fn_args f)) (args_val f args) w ->
        (need w <= fuel)%nat /\ (ip = PFCompact -> cokv w)
  | Unknown name t seq fl => (forall f, In f fs -> fn_name f <> name) /\
      (t = CALL \/ t = REPLY \/ t = EXCEPTION) /\ Z.of_nat (length name) < 2 ^ 31 /\ in_s 32 seq /\
      wf (VStruct fl) /\ (need (VStruct fl) <= fuel)%nat /\ (ip = PFCompact -> cokv (VStruct fl)) /\
      (op = PFCompact -> exc_ok (MkExc UNKNOWN_METHOD (s_unknown ++ name)))
  end.
Definition service_ok {H} (x : ext) (fuel : nat)
    (handle : H -> bytes -> list any -> (list (Z * any) * option bytes) * H) (fs : list func) (op : pfactory) : Prop :=
  orders x /\ (forall f, In f fs -> func_ok f) /\ NoDup (map fn_name fs) /\
  (forall f h vals attrs h', In f fs -> handle h (fn_name f) vals = ((attrs, None), h') ->
     (forall m, chosen f attrs m -> kept x (m_ty m) (attribute attrs (m_id m)) \/
                                    absent (m_ty m) (attribute attrs (m_id m))) /\
     forall rf, reply x f attrs rf -> (need (VStruct rf) <= fuel)%nat) /\
  (op = PFCompact ->
     (forall f m, In f fs -> In m (fn_args f ++ result_members f) -> no_binary (m_ty m)) /\
     forall f h vals attrs text h', In f fs -> handle h (fn_name f) vals = ((attrs, Some text), h') ->
       exc_ok (MkExc INTERNAL_ERROR (s_internal ++ fn_name f ++ s_colon ++ text))).

(** ** One step on unwrapped transports *)
Section Plain.
Context {SR SW H : Type}.
Variable R : rproto SR.
Variable W : wproto SW.
Variable x : ext.
Variable M : Z.
Variable cf fuel : nat.
Variable errtext : err -> bytes.
Variable handle : H -> bytes -> list any -> (list (Z * any) * option bytes) * H.
Variable fs : list func.
Variable ip op : pfactory.
Variable strict : bool.
Variable ow : SW -> bytes -> Prop.
Variable ir : SR -> bytes -> Prop.
Variable bin ub : bool.
Variable oke : appexc -> Prop.
Variable okv : tval -> Prop.
Let enc := wire_val op.
Let emsg := wire_msg op (match op with PFBinary _ strictWrite => strictWrite | PFCompact => true end).
Let enci := wire_val ip.
Let emsgi := wire_msg ip strict.
Hypothesis w_val : forall v s o, wf v -> ow s o -> exists s', wr bin W v s s' /\ ow s' (o ++ enc v).
Hypothesis w_exc : forall e s o, oke e -> ow s o ->
  exists s', app_write W e s = Ok (None, s') /\ ow s' (o ++ enc (VStruct (exc_fields e))).
Hypothesis w_msg : forall name t seq s o, t = CALL \/ t = REPLY \/ t = EXCEPTION -> cokm name seq ->
  ow s o -> exists s', wMessageBegin W name t seq s = Ok (None, s') /\ ow s' (o ++ emsg name t seq).
Hypothesis w_end : forall s o, ow s o -> exists s', wMessageEnd W s = Ok (None, s') /\ ow s' (o ++ []).
Hypothesis w_nop : forall s o, ow s o -> exists s', nop s = Ok (None, s') /\ ow s' o.
Hypothesis i_msg : forall name t seq s rest, t = CALL \/ t = REPLY \/ t = EXCEPTION -> cokm name seq ->
  ir s (emsgi name t seq ++ rest) ->
  exists s', rMessageBegin R s = Ok ((name, t, seq), None, s') /\ ir s' rest.
Hypothesis i_val : forall v s rest, wf v -> okv v -> ir s (enci v ++ rest) ->
  exists s', rd true R (ue ub v) s s' /\ ir s' rest.
Hypothesis i_end : forall s rest, True -> ir s rest -> exists s', rMessageEnd R s = Ok (None, s') /\ ir s' rest.
Hypothesis okv_of : forall v, (ip = PFCompact -> cokv v) -> okv v.
Hypothesis oke_of : forall e, (op = PFCompact -> exc_ok e) -> oke e.
Hypothesis bin_of : bin = false -> op = PFCompact.
Definition holds_requests (s : SR) (rs : list request) : Prop :=
  exists bs, Forall2 (sent x ip strict) rs bs /\ ir s (concat bs).

Theorem plain_step : service_ok x fuel handle fs op ->
  step_ok R W nop x M cf fuel errtext handle fs (request_ok x fuel fs ip op) holds_requests ow (told op).
Proof.
  intros (Ho & Fok & Nd & Hok & Hc) r rs h si so o K (bs & Sn & Hi) Hw.
  inversion Sn as [|? b ? bs' S1 S2]; subst. cbn [concat] in Hi.
  assert (Hk : forall g h0 vals, In g fs -> does_okw x fuel handle bin true oke g h0 vals).
  { intros g h0 vals Hg. unfold does_okw. destruct (handle h0 (fn_name g) vals) as [[attrs [text|]] h1] eqn:E.
    - apply oke_of. intro Op. eapply (proj2 (Hc Op)); eassumption.
    - destruct (Hok g h0 vals attrs h1 Hg E) as [K1 N]. split; [|split; assumption].
      intros m Hm B. rewrite andb_true_r in B. apply (proj1 (Hc (bin_of B)) g m Hg). apply in_app_iff. auto. }
  assert (Im : forall name t seq v s rest, t = CALL \/ t = REPLY \/ t = EXCEPTION -> cokm name seq ->
    wf v -> okv v -> ir s (emsgi name t seq ++ enci v ++ [] ++ rest) ->
    exists s', rMessageBegin R s = Ok ((name, t, seq), None, s') /\ ir s' (enci v ++ [] ++ rest)).
  { intros name t seq v s rest Ht Km _ _. apply i_msg; assumption. }
  destruct S1 as [f args seq w Wv|name t seq fl]; cbn [request_ok] in K.
  - destruct K as (Hf & [La Ka] & Hs & N). destruct (N w Wv) as [Nw Cw].
    assert (Aok : args_ok x fuel bin true okv f args).
    { split; [exact La|]. split.
      - intro B. rewrite andb_true_r in B. apply nb_struct. intros m Hm.
        apply (proj1 (Hc (bin_of B)) f m Hf). apply in_app_iff. auto.
      - split; [exact Ka|]. intros w' W'. rewrite (wireof_fun _ _ _ _ _ W' Wv). split; [apply okv_of, Cw|exact Nw]. }
    destruct (process_valid R W nop (fun s => s) x M cf fuel errtext handle bin true ub
      ow ow ir ir enc emsg [] cokm oke okv func_ok (fun _ => True)
      w_val w_exc w_msg w_end w_nop (fun f H => H) okm_of Ho enci emsgi [] Im i_val i_end
      fs f args h si so o seq w (concat bs') Fok Nd (fun vals _ => Hk f h vals Hf) Hf Aok Hs Wv ltac:(rewrite <- app_assoc in Hi; exact Hi) I Hw)
      as (vals & p & mt & body & P & Pi & Fv & Po & Ph & [Pe Ps] & Pm).
    rewrite app_nil_r in Po. destruct (handle h (fn_name f) vals) as [[attrs [text|]] h1] eqn:Eh; cbn [fst snd] in *;
      destruct Pm as [-> Pm].
    + exists p, (MkAnswer (fn_name f) EXCEPTION seq body). split; [exact P|].
      replace (p_success p) with false by (destruct (p_success p); [discriminate (proj1 Ps eq_refl)|reflexivity]).
      rewrite Ph, Pm. split; [eapply as_failed; eassumption|]. split; [exists bs'; auto|]. rewrite <- Pm. exact Po.
    + exists p, (MkAnswer (fn_name f) REPLY seq body). split; [exact P|].
      rewrite (proj2 Ps eq_refl), Ph. split; [eapply as_reply; eassumption|]. split; [exists bs'; auto|]. exact Po.
  - destruct K as (Hn & Ht & Ln & Hs & Hwf & Nf & Cv & Ce).
    destruct (process_unknown R W nop x M cf fuel errtext handle true ub
      ow ow ir ir enc emsg [] cokm oke okv (fun _ => True)
      w_exc w_msg w_end w_nop enci emsgi [] Im i_val i_end
      fs h si so o name t seq fl (concat bs') Hn Ht (conj Ln Hs) Hwf (okv_of _ Cv) Nf (oke_of _ Ce)
      ltac:(rewrite <- app_assoc in Hi; exact Hi) I Hw) as (p & P & Pi & Ph & Ps & _ & Po).
    rewrite app_nil_r in Po.
    exists p, (MkAnswer name EXCEPTION seq (exc_fields (MkExc UNKNOWN_METHOD (s_unknown ++ name)))). split; [exact P|].
    rewrite Ph, Ps. split; [constructor|]. split; [exists bs'; auto|exact Po].
Qed.
End Plain.

(** ** The protocols and transports of the server *)
Definition header_ok (ip : pfactory) (strict : bool) : Prop :=
  match ip with PFBinary strictRead _ => strict = true \/ strictRead = false | PFCompact => True end.
Definition plain_in (intw : Z) (pf : pfactory) : rd_st (GetReader intw TFPlain pf) -> bytes -> Prop :=
  match pf with PFBinary _ _ => bir | PFCompact => cir end.
Definition plain_out (pf : pfactory) : wr_st (GetWriter TFPlain pf) -> bytes -> Prop :=
  match pf with PFBinary _ _ => bow | PFCompact => cow end.
Definition plain_has intw x pf strict (s : rd_st (GetReader intw TFPlain pf)) (rs : list request) : Prop :=
  exists bs, Forall2 (sent x pf strict) rs bs /\ plain_in intw pf s (concat bs).

Lemma plain_server_step : forall H intw x M cf fuel errtext
    (handle : H -> bytes -> list any -> (list (Z * any) * option bytes) * H) fs ip op strict,
  header_ok ip strict -> service_ok x fuel handle fs op ->
  step_ok (rd_proto (GetReader intw TFPlain ip)) (wr_proto (GetWriter TFPlain op)) (wr_flush (GetWriter TFPlain op))
    x M cf fuel errtext handle fs (request_ok x fuel fs ip op) (plain_has intw x ip strict) (plain_out op) (told op).
Proof.
  intros H intw x M cf fuel errtext handle fs ip op strict Hd Sv.
  destruct ip as [sr sw|], op as [sr' sw'|].
  - apply (plain_step (binaryR sr) (binaryW sw') x M cf fuel errtext handle fs (PFBinary sr sw) (PFBinary sr' sw')
      strict bow bir true false (fun _ => True) (fun _ => True) (bow_val sw') (bow_exc sw')
      (fun name t seq s o Ht _ => bow_msg sw' name t seq s o Ht I) bow_end bow_nop
      (fun name t seq s rest => bir_msg sr strict name t seq s rest Hd) (bir_val sr) (bir_end sr)); auto; discriminate.
  - apply (plain_step (binaryR sr) compactW x M cf fuel errtext handle fs (PFBinary sr sw) PFCompact
      strict cow bir false false exc_ok (fun _ => True) cow_val cow_exc cow_msg cow_end cow_nop
      (fun name t seq s rest => bir_msg sr strict name t seq s rest Hd) (bir_val sr) (bir_end sr)); auto.
  - apply (plain_step compactR (binaryW sw') x M cf fuel errtext handle fs PFCompact (PFBinary sr' sw')
      strict bow cir true true (fun _ => True) cokv (bow_val sw') (bow_exc sw')
      (fun name t seq s o Ht _ => bow_msg sw' name t seq s o Ht I) bow_end bow_nop
      cir_msg cir_val cir_end); auto; discriminate.
  - apply (plain_step compactR compactW x M cf fuel errtext handle fs PFCompact PFCompact
      strict cow cir false true exc_ok cokv cow_val cow_exc cow_msg cow_end cow_nop
      cir_msg cir_val cir_end); auto.
Qed.
Lemma empty_input : forall r, benign r -> content r = [] -> r = [].
Proof.
  intros [|[c e] r] B X; [reflexivity|]. apply Forall_inv in B. cbn in B. destruct c; [destruct (proj1 B eq_refl)|discriminate].
Qed.
Lemma sent_some : forall x pf strict r b, sent x pf strict r b -> b <> [].
Proof.
  intros x pf strict r b [f args seq w W|name t seq fl]; destruct pf as [sr sw|]; try destruct strict; discriminate.
Qed.
Lemma told_some : forall pf a, told pf a <> [].
Proof. intros [sr sw|] [n k s b]; try destruct sw; discriminate. Qed.
Lemma plain_server_end : forall intw x ip strict,
  end_ok (rd_proto (GetReader intw TFPlain ip)) (plain_has intw x ip strict).
Proof.
  intros intw x ip strict si (bs & Sn & Hi). inversion Sn; subst. cbn in Hi. destruct ip as [sr sw|].
  - destruct Hi as [B X]. apply empty_input in X; [|exact B]. cbn in si. subst si. eexists _, _, [].
    split; [reflexivity|]. exists []. repeat constructor.
  - destruct si as [r c]. destruct Hi as (B & X & N). cbn [fst snd] in *. apply empty_input in X; [|exact B]. subst r.
    eexists _, _, ([], c). split; [reflexivity|]. exists []. split; [constructor|]. repeat split; [constructor|exact N].
Qed.

(** *** Wrapped transports *)
Definition carry (tf : tfactory) (b : bytes) : bytes := match tf with TFPlain => b | TFFramed => frame b end.
Definition carries (tf : tfactory) (b : bytes) : Prop := match tf with TFPlain => True | TFFramed => payload_ok b end.

Lemma app_nil_r' : forall (a b : bytes), a ++ b = a -> b = [].
Proof. intros a b E. rewrite <- (app_nil_r a) in E at 2. apply app_inv_head in E. exact E. Qed.
Lemma hsame_refl : forall S A (o : outcome (A * S)), hsame false eq o o.
Proof. intros S A [[a s]| |]; cbn; auto. Qed.
Lemma rrel_refl : forall S (R : rproto S), rrel false eq R R.
Proof. intros S R. constructor; intros s1 s2 ->; apply hsame_refl. Qed.
Lemma wrel_refl : forall S (W : wproto S), wrel false eq W W.
Proof. intros S W. constructor; intros; intros s1 s2 ->; apply hsame_refl. Qed.

(** Pieces of any sizes with a given content. *)
Definition one_piece (b : bytes) : rt := match b with [] => [] | _ => [(b, None)] end.
Lemma one_piece_ok : forall b, benign (one_piece b) /\ content (one_piece b) = b.
Proof.
  intros [|c b]; [split; [constructor|reflexivity]|]. split; [|cbn; rewrite app_nil_r; reflexivity].
  constructor; [split; [discriminate|reflexivity]|constructor].
Qed.

Lemma reader_rel : forall intw tf pf, 32 <= intw -> exists simi,
  rrel false simi (rd_proto (GetReader intw tf pf)) (rd_proto (GetReader intw TFPlain pf)) /\
  forall r ps, benign r -> Forall (carries tf) ps -> content r = concat (map (carry tf) ps) ->
    exists s2, simi (rd_new (GetReader intw tf pf) r) s2 /\ plain_in intw pf s2 (concat ps).
Proof.
  intros intw tf pf Wi. destruct tf.
  - exists eq. split; [apply rrel_refl|]. intros r ps B _ X. exists (rd_new (GetReader intw TFPlain pf) r).
    split; [reflexivity|]. cbn in X. rewrite map_id in X. destruct pf; cbn; [split; assumption|].
    split; [exact B|]. split; [exact X|reflexivity].
  - assert (Wh : forall r ps, benign r -> Forall payload_ok ps -> content r = concat (map frame ps) ->
      rsim whole (new_framed_in r) (one_piece (concat ps))).
    { intros r ps B P X. destruct (one_piece_ok (concat ps)) as [B1 X1]. split; [exact B1|]. rewrite X1.
      exists [], ps. split; [|reflexivity]. unfold rd_inv, new_framed_in, NewTFramedTransport. cbn [f_rbuf f_r].
      split; [apply bNew_ok|]. split; [reflexivity|]. split; [exact B|]. rewrite app_nil_r.
      split; [exact X|]. split; [exact P|apply cut_nil]. }
    destruct pf as [sr sw|].
    + exists (rsim whole). split.
      * apply (over_binaryR false (framed_read intw) whole (whole_delivers intw Wi) framed_unread whole_unread sr).
      * intros r ps B P X. exists (one_piece (concat ps)). split; [apply Wh; assumption|]. apply one_piece_ok.
    + exists (rsimc whole). split.
      * apply (over_compactR false (framed_read intw) whole (whole_delivers intw Wi) framed_unread whole_unread).
      * intros r ps B P X. exists (one_piece (concat ps), cinit). split; [split; [apply Wh; assumption|reflexivity]|].
        destruct (one_piece_ok (concat ps)). split; [|split; [|reflexivity]]; assumption.
Qed.

Definition server_out (tf : tfactory) (pf : pfactory) : wr_st (GetWriter tf pf) -> bytes -> Prop :=
  match tf, pf with
  | TFPlain, PFBinary _ _ => bow
  | TFPlain, PFCompact => cow
  | TFFramed, PFBinary _ _ => fun f o => framed_takes (MkWt o []) f []
  | TFFramed, PFCompact => fun s o => framed_takes (MkWt o []) (fst s) [] /\ booleanField (snd s) = None
  end.
Lemma server_out_sent : forall tf pf s o, server_out tf pf s o -> w_out (wr_sent (GetWriter tf pf) s) = o.
Proof.
  intros [|] [sr sw|] s o H; cbn in *.
  - unfold bow in H. subst. reflexivity.
  - destruct H as (c & -> & _). reflexivity.
  - destruct H as (_ & _ & ->). reflexivity.
  - destruct H as [(_ & _ & ->) _]. reflexivity.
Qed.
Lemma server_out_new : forall tf pf, server_out tf pf (wr_new (GetWriter tf pf) (MkWt [] [])) [].
Proof.
  intros [|] [sr sw|]; cbn.
  - reflexivity.
  - exists cinit. split; reflexivity.
  - split; [apply bNew_ok|split; reflexivity].
  - split; [split; [apply bNew_ok|split; reflexivity]|reflexivity].
Qed.
Definition flushed (o : bytes) (f : framed) (w : wt) : Prop :=
  w_sched w = [] /\ framed_takes (MkWt (o ++ frame (w_out w)) []) f [].
Lemma flushed_sim : forall o f w, wsim (framed_takes (MkWt o [])) f w -> hsame false (flushed o) (fflush f) (nop w).
Proof.
  intros o f w (S0 & K & B & Ww). unfold fflush, nop.
  destruct (framed_flush_ok f K) as (f' & F & S1); [rewrite Ww; reflexivity|]. rewrite F.
  destruct (framed_flush_spec _ _ _ _ K F) as (K1 & _ & _ & Q). destruct (Q eq_refl) as [Q1 Q2].
  apply hsame_ok. split; [exact S0|]. split; [exact K1|]. split; [exact Q2|].
  rewrite Ww, B in Q1. cbn in Q1. destruct (f_w f') as [o' sc]. cbn in *. subst. reflexivity.
Qed.

Lemma writer_round : forall tf pf s1 o, server_out tf pf s1 o -> exists simo simf s2 o2,
  wrel false simo (wr_proto (GetWriter tf pf)) (wr_proto (GetWriter TFPlain pf)) /\
  (forall a b, simo a b -> hsame false simf (wr_flush (GetWriter tf pf) a) (wr_flush (GetWriter TFPlain pf) b)) /\
  simo s1 s2 /\ plain_out pf s2 o2 /\
  (forall a, ~ plain_out pf s2 (o2 ++ told pf a)) /\
  (forall s1' s2' a, simf s1' s2' -> plain_out pf s2' (o2 ++ told pf a) ->
     server_out tf pf s1' (o ++ carry tf (told pf a))).
Proof.
  intros tf pf s1 o Ho. destruct tf.
  - exists eq, eq, s1, o. split; [apply wrel_refl|]. split; [intros a b ->; apply hsame_refl|].
    split; [reflexivity|]. split; [destruct pf; exact Ho|]. split.
    + intros a Ho2. destruct pf as [sr sw|]; cbn [plain_out server_out] in *.
      * unfold bow in *. rewrite Ho in Ho2. injection Ho2 as E. symmetry in E. apply app_nil_r' in E.
        destruct (told_some _ _ E).
      * destruct Ho as (c & E1 & _), Ho2 as (c' & E2 & _). rewrite E1 in E2. injection E2 as E _. symmetry in E.
        apply app_nil_r' in E. destruct (told_some _ _ E).
    + intros s1' s2' a -> K. destruct pf; exact K.
  - destruct pf as [sr sw|]; cbn in s1, Ho.
    + exists (wsim (framed_takes (MkWt o []))), (flushed o), (MkWt [] []), [].
      pose proof (framed_accepts false (MkWt o [])) as A.
      split; [apply (over_binaryW false framed_wr (copy_over framed_wr) _ A (copy_over_accepts _ _ _ _ A) sw)|].
      split; [apply flushed_sim|]. split; [split; [reflexivity|exact Ho]|]. split; [reflexivity|]. split.
      * intros a E. cbn [plain_out app] in E. unfold bow in E. injection E as E. symmetry in E. destruct (told_some _ _ E).
      * intros f w a [_ F] E. cbn [plain_out app] in E. unfold bow in E. rewrite E in F. exact F.
    + exists (wsimc (framed_takes (MkWt o []))), (fun s w => flushed o (fst s) (fst w) /\ snd s = snd w),
        (MkWt [] [], snd s1), [].
      split; [apply (over_compactW false false framed_wr _ (framed_accepts false (MkWt o [])))|]. split.
      { intros [f c] [w c2] [E1 E2]. cbn in E1, E2. subst c2. cbn [wr_flush GetWriter]. unfold compact_fflush. cbn [fst snd].
        pose proof (flushed_sim o f w E1) as Q. unfold fflush in *. cbn [obind]. destruct (framed_flush None f) as [e f'].
        cbn in Q. destruct Q as [-> Q]. apply hsame_ok. split; [exact Q|reflexivity]. }
      destruct Ho as [Ho Hb]. split; [split; [split; [reflexivity|exact Ho]|reflexivity]|].
      split; [exists (snd s1); split; [reflexivity|exact Hb]|]. split.
      * intros a (c & E & _). cbn [app] in E. injection E as E _. symmetry in E. destruct (told_some _ _ E).
      * intros [f c] [w c2] a [[_ F] Ec] (c3 & E & Hb2). cbn in Ec, E, F. injection E as Ew Ec2. subst. cbn in F.
        split; [exact F|exact Hb2].
Qed.

(** ** A connection *)
Theorem connection : forall H intw sv x M cf fuel errtext
    (handle : H -> bytes -> list any -> (list (Z * any) * option bytes) * H) fs strict stopped reqs bs ps r rounds h,
  32 <= intw -> header_ok (sv_in_p sv) strict -> service_ok x fuel handle fs (sv_out_p sv) ->
  Forall (request_ok x fuel fs (sv_in_p sv) (sv_out_p sv)) reqs -> Forall2 (sent x (sv_in_p sv) strict) reqs bs ->
  concat ps = concat bs -> Forall (carries (sv_in_t sv)) ps ->
  benign r -> content r = concat (map (carry (sv_in_t sv)) ps) -> (length reqs < rounds)%nat ->
  exists h' out left,
    processRequest x M cf fuel errtext handle fs stopped intw sv rounds h r =
      Ok (h', concat (map (fun a => carry (sv_out_t sv) (told (sv_out_p sv) a)) out)) /\
    session x handle h reqs out h' left.
Proof.
  intros H intw [it ot ip op] x M cf fuel errtext handle fs strict stopped reqs bs ps r rounds h Wi Hd Sv Ro Sn Ep Cp B X L.
  cbn [sv_in_t sv_out_t sv_in_p sv_out_p] in *. unfold processRequest. cbn [sv_in_t sv_out_t sv_in_p sv_out_p].
  destruct (reader_rel intw it ip Wi) as (simi & RR & New).
  destruct (New r ps B Cp X) as (s2 & Si & Pi). rewrite Ep in Pi.
  pose proof (lift_step (rd_proto (GetReader intw it ip)) (rd_proto (GetReader intw TFPlain ip))
    (wr_proto (GetWriter ot op)) (wr_proto (GetWriter TFPlain op)) (wr_flush (GetWriter ot op)) (wr_flush (GetWriter TFPlain op))
    simi RR x M cf fuel errtext handle fs (request_ok x fuel fs ip op) (plain_has intw x ip strict)
    (server_out ot op) (plain_out op) (fun a => carry ot (told op a)) (told op) (writer_round ot op)
    (plain_server_step H intw x M cf fuel errtext handle fs ip op strict Hd Sv)) as St.
  pose proof (lift_end (rd_proto (GetReader intw it ip)) (rd_proto (GetReader intw TFPlain ip)) simi RR
    (plain_has intw x ip strict) (plain_server_end intw x ip strict)) as En.
  destruct (loop_session _ _ _ x M cf fuel errtext handle fs _ _ _ _ St En stopped reqs rounds 0%nat h
    (rd_new (GetReader intw it ip) r) (wr_new (GetWriter ot op) (MkWt [] [])) [] Ro
    ltac:(exists s2; split; [exact Si|]; exists bs; split; assumption) (server_out_new ot op) L)
    as (h' & si' & so' & out & left & E & Se & Ho & _).
  rewrite E. cbn [obind]. exists h', out, left. split; [|exact Se]. rewrite (server_out_sent _ _ _ _ Ho). reflexivity.
Qed.
